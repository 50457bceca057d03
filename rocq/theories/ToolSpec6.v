(** * Specification of nipbenchmark (Property C93)

    Leave-one-out prediction in terms of declarations and records only. *)
From Coq Require Import String Ascii.
From Verif Require Import Base PotentialModel PotentialSpec VariableModel AssignSpec JoinTreeSpec NipSpec SliceSpec LearnSpec SeriesFileModel
  SeriesFileSpec ParseModel ParseSpec NetSpec WriteSpec ToolSpec ToolSpec3.
Import ListNotations.
Open Scope nat_scope.
Local Notation len := List.length.

(** The series without what is recorded about [v]. *)
Definition conceal (v : nat) (ts : series) : series :=
  mkSeries (s_hidden ts) (s_observed ts) (s_length ts)
    (map (fun row => map (fun '(w, d) => if Nat.eqb w v then (-1)%Z else d) (combine (s_observed ts) row)) (s_data ts)).
(** All series but number [i]. *)
Definition all_but (i : nat) (ss : list series) : list series := firstn i ss ++ skipn (S i) ss.

(** The tables [u] were learned from the series [ss] alone: by at least three and
    at most [rounds] estimates from one of the random tables [rnd], until the
    probability of the series no longer grows by the factor [growth]; it is at
    least [low]. *)
Definition learned_from (rnd : nat -> nat -> nat -> Qc) (rounds : Z) (growth low : Qc) (t : net) (ss : list series) (u : net) : Prop :=
  same_network t u /\ proper u /\ positive_tables u /\
  (exists k u1 ls, random_tables (rnd k) t u1 /\ estimates ss u1 ls u /\ 3 <= len ls /\ (Z.of_nat (len ls) <= rounds)%Z /\
     (~ improves growth (nth (len ls - 2) ls 0%Qc) (last ls 0%Qc) \/ Z.of_nat (len ls) = rounds)) /\
  (low <= probability u ss)%Qc /\ (probability u ss <= 1)%Qc.
(** What is reported about series [i]: the probabilities of the states of [v] by
    tables that were learned from the other series, given all records of the series
    but those of [v]. *)
Definition predicts (rnd : nat -> nat -> nat -> nat -> Qc) (rounds : Z) (growth low : nat -> Qc) (t : net) (ss : list series) (v i : nat)
    (g : list (list (list ascii))) (l : list (Qc * Qc)) : Prop :=
  exists ts u, nth_error ss i = Some ts /\ learned_from (rnd i) rounds (growth i) (low i) t (all_but i ss) u /\
    reports u (conceal v ts) v g /\ likelihood_of u (conceal v ts) l.
