(** * Specification of nipjoint (Property C85)

    Stated with the declarations of the NET file and the lines of the data file
    only. *)
From Coq Require Import String Ascii.
From Verif Require Import Base StringSpec PotentialModel PotentialSpec VariableModel AssignSpec JoinTreeSpec NipSpec SliceSpec SeriesFileModel
  ParseModel ParseSpec NetSpec WriteSpec ToolSpec.
Import ListNotations.
Open Scope nat_scope.
Local Notation len := List.length.
Local Notation chars := list_ascii_of_string.

(** The weight of all assignments that agree with the first record of the series
    and are in [p], by the tables of the file. *)
Definition record_mass (t : net) (ts : series) (p : (nat -> nat) -> bool) : Qc :=
  sumv (card_in t) (seq 0 (ParseSpec.size t))
    (fun a => given (record_fits t ts 0 a && p a) (file_joint t a)) (fun _ => 0).
(** The probability that the variables [vars] are in the states [ix], given the
    first record. *)
Definition joint_chance (t : net) (ts : series) (vars ix : list nat) : Qc :=
  (record_mass t ts (fun a => ix_eqb (map a vars) ix) / record_mass t ts (fun _ => true))%Qc.

(** The variables that are asked for: those given by their symbols; if there are
    none, the variables without a column; if there are none either, the one of the
    first column. *)
Definition joint_asked (t : net) (cols : list (nat * nat)) (symbols : list string) : list nat :=
  match symbols, without_column t cols with
  | _ :: _, _ => map (ParseSpec.number t) symbols
  | [], _ :: _ => without_column t cols
  | [], [] => map snd (firstn 1 cols)
  end.

(** ** The output *)
Fixpoint listed (fs : list (list ascii)) : list ascii :=
  match fs with
  | [] => []
  | [f] => f
  | f :: r => f ++ chars ", " ++ listed r
  end.
Definition joint_heading (t : net) (vars : list nat) : list ascii :=
  chars "nipjoint:" ++ [end_of_line] ++
  chars "P(" ++ listed (map (fun v => chars (nth v (symbols t) EmptyString)) vars) ++ chars ") equals: " ++ [end_of_line].
(** A line: the numbers of the states [ix] and the number [q]. *)
Definition joint_line (ix : list nat) (q : Qc) (line : list ascii) : Prop :=
  exists fs f, Forall2 (fun x f => numeral f (Q2Qc (QArith_base.inject_Z (Z.of_nat x)))) ix fs /\ prints q f /\
    line = chars "P(" ++ listed fs ++ chars ") = " ++ f ++ [end_of_line].
(** The whole output: one line for every combination of states, those of the
    first variable changing fastest. *)
Definition joint_output (t : net) (vars : list nat) (f : list nat -> Qc) (out : list ascii) : Prop :=
  exists lines, Forall2 (fun ix line => joint_line ix (f ix) line) (all_ix (map (card_in t) vars)) lines /\
    out = joint_heading t vars ++ concat lines.
