# Design

Subject: oh2gxn/nip (C library for Bayesian networks and dynamic Bayesian
networks), read as text from /repo.  This file states, per property of
`properties.jsonl`, what is modelled and how it is proved, then the trusted
base and the findings.

## Modelling conventions

* **Outcomes.** Every modelled C function is a total Gallina function into
  `res A := Ok a | UB | NoFuel`.  `UB` is any undefined behaviour: reading or
  writing outside an array, division by zero, signed overflow of an address
  computation, dereferencing NULL, reading uninitialised memory.  `NoFuel` is
  "the loop or recursion was not finished within the given fuel"; theorems
  show that it does not occur (termination).  A theorem concluding
  `= Ok ...` is therefore also a memory-safety and termination theorem.
* **Error returns** are part of the `Ok` value (`code`), together with the
  state after the call, so "rejected and nothing changed" is a statement.
* **Numbers.** C `double` is modelled by exact rationals (`Qc`, canonical
  rationals of the standard library).  Rounding is added in `RoundModel.v` for
  evidence, propagation, queries and inference over time (C86, C87), in `RoundModel2.v` for the
  E-step (C88) and in `RoundModel3.v` for the rest of learning (C90); overflow to infinity and NaN are
  not modelled.  C `int` used as index or size is `nat`, with an explicit
  check against INT_MAX where a product is formed; arguments that may be
  negative are `Z`.
* **Memory.** Arrays are lists with checked access.  Potentials, cliques,
  sepsets, variables are records; a pointer to one is its index (identifier).
  Scratch arrays (`temp_index`) are local.  `malloc`/`calloc` are assumed to
  succeed.
* **Loops** are iterated with the combinators of `Base.v`, in the order of the
  C code, so that the proofs are about the loop the code executes.

## Files

`theories/Base.v` (outcomes, loops, checked arrays), `*Model.v` (definitions
only, each citing file and lines), `*Spec.v` (small specifications), `*Proofs.v`
(lemmas), `Properties*.v` (the theorems of the manifest, each closed by
`exact` and followed by `Print Assumptions`, with an `Example` showing that
its hypotheses can be met).

## Plan per property

* **C01 Potential cells are addressed by a bijection.** PotentialModel. Row-major address computed by the C loop proved equal to a mixed-radix specification; the inverse loop proved to be its inverse.
* **C02 Marginalisation sums exactly the matching cells.** PotentialModel. Loop invariant over flat positions; result stated as a sum over a filtered enumeration of multi-indices.
* **C03 Marginalisation conserves mass and composes.** Corollaries of C02 by exchange of finite sums.
* **C04 Single-variable marginal agrees with the general one.** PotentialModel. Partial inverse mapping proved to compute the k-th coordinate; then equality with C02.
* **C05 Potential update multiplies and divides the matching cells.** PotentialModel. Pointwise loop invariant; optional arguments as `option`.
* **C06 Absorbing a message makes the marginals agree.** Corollary of C02 and C05.
* **C07 Normalisation yields a distribution and keeps proportions.** Sum lemmas over rationals.
* **C08 CPD normalisation normalises every column of the first variable.** Block-wise loop invariant.
* **C09 Normalising the first dimension is CPD normalisation.** Expected to be refuted: witness by computation, plus the theorem saying what the function does compute.
* **C10 Copies and retraction reproduce a potential.** Pointwise loops.
* **C11 Evidence vectors scale exactly one coordinate.** Pointwise loop.
* **C12 Initialising a table multiplies a CPD into it.** Pointwise loop.
* **C13 Variable union.** VariableModel, nested loops over arrays of identifiers.
* **C14 Variable intersection.** VariableModel.
* **C15 Variable mapping.** VariableModel.
* **C16 Sorting variables.** Expected to be refuted for four or more variables; positive theorem for at most three.
* **C17 State names and indices are inverse.** VariableModel over strings.
* **C18 Variable identity.** History of creations over the global id counter.
* **C19 The heap delivers items in ascending order.** HeapModel (array heap, C recursion by fuel). Heap property invariants, permutation, sortedness of the extraction sequence.
* **C20 The heap stays correct when keys change.** Expected to be refuted by a witness; positive theorem when keys do not decrease.
* **C21 Heap insertion never leaves its memory.** Memory model with allocated byte size: refuted by witness, safe when the initial size suffices.
* **C22 Moral graph.** GraphModel, adjacency matrix as a flat list.
* **C23 Interface edges.** GraphModel.
* **C24 Undirected graph.** GraphModel.
* **C25 Triangulation covers every family.** GraphModel of triangulation for an arbitrary elimination order; family covering by invariant.
* **C26 Cliques are maximal.** GraphModel.
* **C27 The sepsets form a tree.** GraphModel: Kruskal loop adds n-1 edges and never closes a cycle.
* **C28 Running intersection.** Running intersection from chordality + maximum weight spanning tree.
* **C29 Reordering a parsed table keeps its meaning.** ParseModel (create_potential), permutation of dimensions.
* **C30 Parsing keeps conditional distributions.** ParseModel. Refuted by two files that differ in the order of declarations only (normalise_cpd is applied after reordering); positive theorem when every node is declared before its parents; for every order a theorem says what the factors are.
* **C31 Message passing preserves the joint distribution.** JoinTreeModel. Denotation of tables as functions of assignments; invariant with support condition.
* **C32 make_consistent calibrates the tree.** Induction over the rooted tree that represents the sepset adjacency lists.
* **C33 Exact marginals.** Calibration + running intersection => clique table is the marginal of the joint.
* **C34 Evidence multiplies the joint.** NipModel. Invariant joint = original * likelihoods (* priors) over histories of calls; refuted for priors when a retraction happens.
* **C35 reset_model forgets everything.** NipModel.
* **C36 Priors are used exactly once.** NipModel.
* **C37 Probability mass is the normalising constant.** Collapse of the sum of masses over the tree.
* **C38 get_probability returns a distribution.** From C33 and C07.
* **C39 Joint posterior of several variables.** gather_joint_probability; expected partial/refuted.
* **C40 Forward inference is exact filtering.** Induction over time; unrolled joint as specification.
* **C41 Forward-backward inference is exact smoothing.** Induction over time in both directions.
* **C42 Inference results do not depend on earlier use of the model.** Corollary of reset.
* **C43 The M-step installs valid conditional distributions.** NipModel.
* **C44 Learning stops as specified.** Control skeleton of em_learn with the E-step's values as an arbitrary oracle.
* **C45 Sampling draws by inverse transform.** NipModel lottery with the random number as argument.
* **C46 Sampling never draws an impossible state.** Refuted for r = 0; holds for r > 0.
* **C47 Samples respect parents first.** Fuelled marking loop; sufficient fuel for acyclic parents.
* **C48 Time series survive writing and reading.** SeriesFileModel at the level of characters; composition of the writer with C67.
* **C49 Tokeniser finds what the counter counts.** StringModel, lock-step simulation of counter and tokeniser.
* **C50 Tokens are the separated fields.** StringModel against a declarative splitter.
* **C51 Linked lists behave as sequences.** ListModel: doubly linked lists on a heap refining sequences.
* **C52 Subset search over clique lists.** ListModel.
* **C53 Error bookkeeping.** ErrorModel.
* **C54 Time slice interface classification.** ParseModel (interface_to_vars), against the declarations of the file.
* **C55 Observations in a time series.** NipModel; out-of-range times expected to be undefined behaviour.
* **C56 Expected counts.** NipModel.
* **C57 Family lookup and mapping.** JoinTreeModel.
* **C58 Learning never lowers the likelihood.** Refuted by a concrete model and data (computation of two full iterations); the pseudocount is the reason. C84 is the version that holds.
* **C59 Learning continues from the model.** Refuted by a concrete model (priors). Positive part: every clique table is
  the product of the conditional distributions of the variables that live there (`factored`, part of `installed` and of
  `parsed`); summing out the later variables of a topological order shows that the marginal on a family is the conditional
  distribution times a function of the parents (FactorProofs.v), so normalising gives back the conditional distribution.
* **C60 Graph construction.** GraphModel; the lazily built index is part of the state.

* **C61 A proper NET file becomes a proper model.** ParseModel composes the semantic actions with GraphModel and JoinTreeModel; the well-formedness predicates of C31-C42 are shown of the result, and that parsing succeeds. The cliques are maximal (none lies within another), and every set of variables that the file connects pairwise lies within a clique.
* **C62 Parsed models are ready for learning.** From C61; the conditions of C43-C47 and C56 are shown of the result.
* **C63 Files can be read one after another.** Refuted for every pair of proper files; the static pointers and whether they are freed are part of the parser's state.
* **C64 Labels are optional.** Refuted likewise.
* **C65 From file to posterior.** Composition of C30, C61 and C33-C38: statement in terms of the file only.
* **C66 Quoted strings are single tokens.** StringModel against a relational lexer. Refuted when a quoted string contains a separator and is not followed by one; proved otherwise.
* **C67 Data files are read as tables.** SeriesFileModel (fgets, both passes of the analysis, the reader); specification by splitting the file into lines, fields and blocks. Invariants over the lines read so far.
* **C68 Analysis of data files.** As C67.
* **C69 NET files are read as what they declare.** NetLexModel (tokens, comments, numerals) and NetGrammarModel (one function per nonterminal, calling the actions of ParseModel); specification by a relation between a text and its declarations. Induction over lines, tokens and declarations; composed with C61 and C65.
* **C70 Identifiers can be symbols.** Classification of tokens by yylex. Refuted for reserved identifiers, proved for the others.
* **C71 Only NET files are accepted.** Converse of C69 by inversion of each nonterminal; refuted for texts without leading nodes.
* **C72 Models are written as NET files.** WriteModel (write_model character by character, with fprintf's numbers); the text is shown to be in the relation of C69 with declarations that describe the model, by a calculus of text pieces that end tokens or not; loop invariants over nodes, values and tables. The tables come from the marginalisation of the clique of each family.
* **C73 Reading and writing are inverse.** The marginal of a clique over a family is the factor of the family times a function of the parents (C59); composition of C61, C69 and C72; the graph of the written file is the graph of the original one. Refuted for columns of impossible parents, which are written as zeros.
* **C74 Files of distributions.** Loops over series, steps and states as concatenations; `%f` from C72.
* **C75 nipinference.** Composition of C71/C61 (from text to join tree), C67 (data files), C41 (smoothing as a sum over courses of all steps) and C74. `ToolSpec.v` defines the process directly on the declarations: the product over the steps of the tables of the file, restricted by the records and by NIP_next. Refuted: the status does not tell whether the output was written.
* **C76 nipmap.** As C75, with the loop for the maximum; ties go to the first state.
* **C77 nipnext.** As C75 with filtering; at the last step filtering and smoothing agree. The standard output is given as text; what printf writes for the logarithm of a number is an argument.
* **C78 nipconvert.** From C67 and the loops for one-of-n lines.
* **C79 niplikelihood.** Marking of the asked variables, then per step C33 and C36 with the evidence of the unmarked, then of all variables. Refuted: the quotients of the masses do not multiply to the probability of the asked data, since each step stands alone.
* **C80 nipsample.** Composition of C61, C46/C47 (sampling parents first), C48 (written series read back) and the statement of the process in `ToolSpec.v`. That the order of sampling does not change between series is a simulation between models with the same parents.
* **C81 niptrain.** The tables of a model after any number of rounds are those of a network with the same declarations (`with_tables`), so C54–C57 (learning), C33 (likelihood) and C72/C73 (writing) apply to it again; the loops over batches and runs by induction on fuel with this invariant. That the batches end: each one uses up iterations. Refuted: the loop over runs ends. That it ends for modest demands: all tables that learning reaches have entries of at least 1/A for a number A computed from the file, the data and the random numbers, so the probability of possible data has a positive lower bound (ToolProofs13.v).
* **C82 Models own their memory.** MemoryModel: an explicit memory of blocks with pointer fields, where freed addresses are not used again, so double frees, uses after free and reads of uninitialised fields are undefined outcomes. Separation-style invariant: the allocated blocks are exactly (as a permutation) those of the variables, cliques, sepsets and links of an abstract world; each call keeps it. Connected with the abstract graph by the chains of links.
* **C83 Series own their memory.** The same invariant with the blocks of series added.
* **C84 Learning climbs the posterior.** `posterior` (`ToolSpec4.v`) is the probability of the series times the product of all entries of all tables. Proved for `next_estimate` of C81 without logarithms (`EmProofs.v`): expected counts are rationals, so a common denominator `k` turns them into numbers of observations, and both halves of a step become the inequality between the mean and the product of finitely many numbers (proved by induction). The counting step compares the ratio of probabilities to the power `k` with a product of ratios of table entries, the maximising step shows that this product times the ratio of the weights is at least one. Then `batch_ok` (C81) carries it to `em_learn` and niptrain.
* **C85 nipjoint.** Composition of C61 (parsing), C67 (data), C33/C36 (evidence and consistency), C39 (joint probability of a model with one clique) and the printing of tables. That a file which connects every two variables gives one clique is the maximality of the cliques in C61. Refuted for two or more cliques (no orderly end, by C39) and for the memory without symbols (`joint_array` and `joint_release` on the memory of C83).
* **C86 Rounded answers.** `RoundModel.v` is the code of PotentialModel/JoinTreeModel/NipModel with `rnd` after each addition, multiplication and division of doubles, once per operation (no fused or extended operations); `rnd` may have no result (overflow, subnormal numbers), then the run is not looked at. All tables are non-negative and the code never subtracts on this path, so errors are relative: `near u k` (`RoundSpec.v`) is closed under the operations. Invariants of C31–C36 carried over with a number of roundings: a message keeps the joint up to two, a sum over a clique of `N` entries is exact up to `N`, so calibration holds up to `N + 2` per sepset and the marginals up to `S * (N + 2)`. The numbers in the tables of the parsed model are taken as they are (their conversion from text is not included), evidence vectors too. Proofs with a total rounding first, then for partial ones by monotonicity (RoundProofs10). `double` (round to nearest, ties to even, 53 bits) is proved to be such a rounding with u = 2^-53. With `rnd := Ok` the functions are those of the exact model. Not covered: the mass (`model_prob_mass`), likelihoods, learning (they take logarithms or differences).
* **C87 Rounded inference over time.** The loops of `forward_inference` and `forward_backward_inference` in `RoundModel.v` (without the likelihood). Forward: the computed interface table is, up to a positive scale and `(t+1) * slice_error` roundings (`RoundSpec2.v`), the exact one; scaling cancels in the posterior. Backward: the exact and the computed backward table are not compared directly (that would double the error at each step); the invariant says that the backward table is the *computed* forward table times the exact backward function up to `(T-t) * slice_error` roundings, so that the division by the forward table cancels its error; where that table is zero the slice has weight zero, because `near` keeps zeros. Lifting to partial roundings and the case `rnd := Ok` as in C86.
* **C88 Rounded E-step.** `e_step` in `RoundModel2.v`, with the log-likelihood kept by a parameter (`account`: how the logarithms of two masses are added and when the sum is positive), so that the theorem about the counts holds for every log(). A count is the computed family table divided by its computed total; both are near the same positive multiple of the exact weight, so the scale cancels and the error is twice that of a slice plus the summation (`count_error`). The forward pass keeps the invariant of C87; a series of probability zero makes a computed mass exactly zero (`near` keeps zeros), which is the bad luck branch. Refuted: that a possible series is counted; RoundCheck2.v has a chain of three variables whose tables add up to less than one in the first of two propagations, so that the second mass is larger and the log-likelihood positive.
* **C89 Memory of data files.** MemoryModel2.v runs the loops of SeriesFileModel.v with the allocations and releases beside them, on the memory of C82. Invariants as in C82: the blocks are a permutation of those of the struct, its arrays, the lists of names of states (doubly linked, as `seg` of C82) and what was there before. The text-level run is the oracle for what is on the lines, so C67 and C68 give the conclusion for all readable files. The variable `tokens` of read_timeseries is kept: if a line were missing its array would be freed twice, which does not happen because the numbers of lines of the two passes agree (C67).
* **C90 Rounded learning.** `m_step`, the first parameters, the iteration and the loop of `em_learn` in `RoundModel3.v`; decisions about log-likelihoods are a parameter (`judge`). An exact run and the rounded one are kept side by side: parameters near up to k roundings give installed tables and priors near up to n(2k+2N+2) (`model_error`: a column is a sum of nonnegative numbers, the quotient doubles k), a model near another gives near likelihoods and expected counts (T factors for T steps, twice for the quotient), and C88 adds the error of the E-step: `round_error`. Zeros are kept by `near`, so the exact round cannot fail if the rounded one does not, and no column vanishes (counts start from one). By induction over the rounds the result is near the exact rounds of C44. Termination as in C44, from C88_completes. Refuted: that learning succeeds whenever it does without rounding (RoundCheck3.v: a chain like that of C88 whose tables the first M-step keeps).
* **C91 Memory of join trees.** MemoryModel3.v runs `nip_graph_to_cliques` and the functions it calls with the allocations and releases beside the functions of GraphModel.v and HeapModel.v (a product program: that both give the same values is part of the proof), on the memory of C82. Graphs, heaps, clusters and lists are a ledger of addresses (`owns`, MemoryProofs19–21), cliques and sepsets are those of C82 with all pointers; candidate sepsets not yet connected are further blocks whose pointers lead to cliques (MemoryProofs24). The confirmed sepsets are, by a simulation, calls `Connect` of C82, so `program_ok` of C82 gives the rest. What is lost is the list of candidates that were extracted and turned down; since candidates leave the heap in the order of their numbers of variables, every candidate larger than a confirmed one is extracted, which gives the bounds on the list. Refuted: that nothing is lost.
* **C92 Memory of parsing.** MemoryModel4.v runs the actions of the grammar and parse_model with the allocations and releases beside the functions of NetGrammarModel.v and ParseModel.v (a product program again), on the memory of C82: strings of the lexer, lists of strings, variables, parents, potentials, time relations and numbers, nodes, tables, priors, the graph and the join tree (C91), the arrays of the model. The invariant is a ledger of addresses beside the world of C82 (`owns`, `lwrep`); the model built is the one of C61, so the conclusion is about the same `names` and `M`. `free_model` is the one of C82, shown in a frame (MemoryProofs30.v). Refuted: that nothing is left; proved: exactly what is (`ignored` in MemorySpec4.v, and the lost sepsets of C91).
* **C93 nipbenchmark.** Composition as in C81 (a batch of learning gives the tables of a network with the same declarations) and C75 (smoothing). That marks hide the variable: a series and a model with the variable unmarked give the same slices as the series without the records of the variable (`conceal`, ToolProofs18.v) and a model with all variables marked. The array of the other series is shown to be full at each pass; tables, marks and array of the pass before have no influence. Refuted: it ends. ToolCheck3.v has data that contradict themselves, of which no tables make both records probable.
* **C94 Memory of inference, learning and sampling.** MemoryModel5.v: forward_inference, forward_backward_inference, em_learn with e_step and m_step, get_probability and generate_data on the memory of C82. What numbers decide (bad luck at a time step of a series, a failing m_step or callback, an invalid likelihood, skipped variables, the number of iterations) is an argument, so every way of ending is covered. Each function allocates a set of blocks, keeps the memory around it and frees the set again; learning works over an abstract set of states of that memory which is closed under nip_find_family_mapping (MemoryProofs34.v), instantiated by the invariant of C82 together with the relation "only mappings were added" (MemoryProofs35.v). Programs of C83 with these as further steps.
* **C95 Memory of whole programs.** MemoryModel6.v composes nipinference, nipnext, nipmap, niplikelihood, nipsample and niptrain from the parser (C92), the reader of data files (C82), inference, learning and sampling (C94) and free_model, with write_model, write_timeseries and write_uncertainseries added. The program starts from an empty memory and the source of the network file; C92_state gives the heap after parsing as a footprint (`holds`: the model, its variables, cliques and sepsets, and what will be left), the parts of the programs keep it up to family mappings, `holds_free` ends it. The theorems say how many blocks are allocated when main returns. Proved in MemoryProofs36.v (parts), 37 (programs), 38 (niptrain, conclusion). Refuted: that nipmap frees everything.
* **C96 Memory of nipbenchmark and nipconvert.** MemoryModel7.v composes the two remaining programs that read data from the same parts as C95: the array without one series (its elements are those of the other series, in order), the attempts of em_learn in each round, the results of the rounds; nipconvert's unions of observed variables, which are allocated and freed in turn. Invariant of the rounds: the array of results holds those of the rounds so far and NULL after them. MemorySpec7.v: at least so many blocks are left. What nipbenchmark loses with a single series and after a failing round is stated as a lower bound.
* **C97 Properties of potentials.** PotPropModel.v on the memory of C82, with strings as blocks of character codes, strcmp as a loop over them, and the links of the list with all their pointers. Refinement: the heap holds a doubly linked chain for a list of pairs; appending, searching and the release from the back keep or consume it. PotPropSpec.v gives the answers by the list of what was set. Refuted: replacing a value; a string used for two values is freed twice.
* **C98 Costs of clusters in ints.** CostModel.v repeats the functions that put clusters into the heap with sums and products of type int, overflow undefined; the rest is GraphModel.v. Simulation: a defined result is the exact one; invariant of the heap (clusters without repetition inside the variables of the graph) for the absence of overflow; the first heap has the cluster of every variable with its neighbours, which gives the overflow. Refuted: small tables or small cliques are enough.
* **C99 Seeds of random numbers.** SeedModel.v: `random_seed` with the arithmetic of int (overflow undefined) and the conversion to the unsigned argument of `srand`, `strtol`, and what nipsample, niptrain and nipbenchmark do with them; process number and time of day are arguments. SeedSpec.v says which text begins with an integer, independently of the scanner. Proved: `strtol` reads exactly these texts (induction on digits), prints are read back, exclusive or is injective. Refuted: large process numbers, seeds 2^32 apart, niptrain without a seed.
* **C100 Memory of joint probabilities and nipjoint.** MemoryModel8.v: `nip_gather_joint_probability` with its allocations and releases, on the memory of C82; the course of a call (what numbers decide) is a tree given as an argument (MemorySpec8.v), so that all courses are covered. Mutual induction over the tree with the footprint of the heap; nipjoint like the programs of C95. Refuted: nipjoint without names frees an array twice, and frees nothing on its early errors.
* **C101 Numbers given as arguments.** ArgumentModel.v: `strtod` of NetLexModel.v with infinities and NaN told apart, the comparisons of doubles, the conversion to int (undefined if no int holds the value), and the whole `main` of nipsample on its arguments as texts; the checks of the numbers of niptrain and nipbenchmark. ArgumentSpec.v says which texts are numbers. Proved by the lemmas about numerals (C70) and seeds (C99), and composed with C80: as many series and steps as the arguments say. Refuted: amounts too large for an int, below 1, NaN, and missing arguments. Doubles are exact (no rounding or overflow in `strtod`); text behind a number is not specified.
* **C102 A file after one that could not be read.** RereadModel.v: the static variables of `nip_next_hugin_token` survive `close_net_file` and `open_net_file`, so the state of the lexer goes over from one file to the next (`another_file`); NetLexModel.v and NetGrammarModel.v for the rest. RereadSpec.v: what follows the k-th token of a text on its line. Proved by induction over the lines and the files: after files given up at ends of lines the next one is read as if alone (C102_line_ends); otherwise the rest of the line is read in front of the next file (C102_rest), and unless a file can begin with it, every next file makes the parser use a null pointer (C102_rest_refuted, C102_reread_refuted). The number of tokens that the generated parser takes before it gives up is an argument. So are the other static variables of the parser in C102_line_ends (`g`); in the refuted theorems they are fresh, as they are after the file of C102_reread_refuted, which is given up before the first action.
* **C103 Graphs built and asked step by step.** LinkModel.v: `nip_graph_linked` and arbitrary sequences of it, `nip_graph_add_node` and `nip_graph_add_child` (GraphModel.v). LinkSpec.v gives the answers from lists of nodes and arcs alone. Proved by an invariant (matrix, index and bounds of the identifiers, for graphs that are only partly filled) and induction over the sequence: C103_answers, for sequences that add no variable twice and speak only of identifiers between the lowest and the highest one in the graph. For every other identifier the index is read outside its array (C103_outside_refuted). If a variable is added again, the graph forgets its arcs: C103_again gives all answers for sequences with such actions (the invariant then speaks of the last place of each variable), C103_forgotten_refuted the wrong one.
* **C104 No variables left behind by a rejected file.** KeptModel.v: the static variables of the parser after a file without a net block is given up at the start of a node declaration (`give_up`); the next file is then read by `parse_from` of RereadModel.v. KeptSpec.v: which texts are given up there. Proved by induction over the node declarations: the file is rejected (C104_rejected), and its nodes stay, so that the next file gives exactly the model of a file with these nodes put in front (C104_nodes_kept_refuted; labels, positions and sizes are left out of the comparison); reading the corrected file again gives a variable twice (C104_corrected_refuted). Not modelled: files given up inside the braces of a node or in a potential, and files with a net block (the size of nodes would go over to the next file).
* **C105 No memory lost by files that are not accepted.** LostModel.v: parse_model up to its `return NULL` in the memory model of C92 (the struct of the model, the nodes that were declared, the strings of the wrong declaration), called any number of times with the same static variables; `clean_up` frees what is reachable. LostSpec.v says what is lost in numbers of blocks. C105_attempts: by induction over the calls with the invariant of C92. False as stated (C105_nothing_lost_refuted). Not modelled: errors inside the braces of a node or in a potential.
* **C106 A file can be corrected after a potential that is rejected.** StaleModel.v: the potential declarations of ParseModel.v with the static list `nip_parent_vars`, which is only emptied at the end of a declaration; parse_model called for one file after the other. StaleSpec.v: files whose first potential with a bar lacks numbers or names an unknown parent (`spoilt`), and their corrections. With an empty list the model is that of C29 and the other parser properties (C106_fresh). Proved by induction over the declarations and the files: the file is rejected and leaves exactly the parents of that potential, up to an unknown one (C106_rejected); if one of these has two states or more, the correction is rejected as well, without undefined behaviour if all nodes or none have labels and the sizes fit into an int (C106_once_refuted), and no correction whose first potential with a bar has just the numbers it needs is accepted, in any number of attempts that end without undefined behaviour (C106_corrected_refuted; the invariant is that the product of the states of the old parents is at least two). Undefined behaviour that can occur instead: the size overflows an int, or a label is used after free (finding on labels). Not modelled: files given up between the parents and the numbers, corrections with more numbers than needed, and what the lexer keeps if the brace is not at the end of a line (C102).
* **C107 The size of nodes is that of the file.** SizeModel.v: the static variables `nip_node_size_x` and `nip_node_size_y`, set by every complete declaration of a net block or class and never set back, through a sequence of files; get_parsed_node_size gives them to the model. SizeSpec.v: the declarations at the start of a file (`head`), whatever follows, also one that is wrong. Without earlier files this is parse_file of C69 for every text (C107_first_file). Proved by induction over the declarations and the files: the size is the last one declared in all files together (C107_carried_refuted), so a file with a size of its own gets it (C107_declared), but one without gets that of an earlier file, even a rejected one (C107_rejected_refuted); every file that can be read has such a start (C107_every_document). The theorems hold for any values of the other static variables (C104 and C106 are about these). An accepted file before is covered by the equations, but a further file is then undefined anyway (C63). Not modelled: the rest of a line (C102). Earlier files with an error in the value of an unknown declaration of the net block are modelled, but are not among those of the theorems about sequences.

## Trusted base

* Coq's kernel (8.16.1), including the virtual machine used by `vm_compute`
  in the concrete cases and in the refutations.
* `Print Assumptions` after every theorem in `Properties*.v` prints "Closed
  under the global context": no axioms, not even of the standard library.
* The correspondence of the definitions in `*Model.v` with the C code, by
  reading.  Each definition cites the file and the lines it models and says
  what it leaves out.
* The specifications `*Spec.v`, which are what the theorems claim.

### Modelled

| Code | Model |
| --- | --- |
| nippotential.c: addressing, creation, copying, retraction, marginalisation, update, normalisation (all, dimension, cpd), evidence, initialisation, sums | PotentialModel.v |
| nipvariable.c: identity, comparison, sorting, union, intersection, mapping, state lookup, parents | VariableModel.v |
| nipheap.c: all operations, with the allocated sizes | HeapModel.v |
| nipjointree.c: cliques, sepsets, connectivity, message passing, evidence, priors, retraction, masses, lookup, joint probabilities | JoinTreeModel.v, NipModel.v, GatherModel.v |
| nipgraph.c: all of it but the destructors | GraphModel.v |
| nip.c: reset, priors, evidence by name, observations, consistency, probabilities | NipModel.v |
| nip.c: forward_inference, forward_backward_inference | SliceModel.v |
| nip.c: e_step, m_step, em_learn, lottery, generate_data | LearnModel.v |
| huginnet.y: the semantic actions (nodes, potentials, graph, tables, interfaces) and its static variables; nip.c: parse_model after the parser returned | ParseModel.v |
| nipparsers.c: nip_next_hugin_token; huginnet.y: yylex | NetLexModel.v |
| nipparsers.c: static variables of nip_next_hugin_token between files; huginnet.y: open_net_file, close_net_file | RereadModel.v |
| huginnet.y: the grammar, with its default reductions | NetGrammarModel.v |
| nip.c: write_model, with the conversions `%d` and `%f` of fprintf; parse_model with labels, positions and node size | WriteModel.v |
| nipstring.c: counting and finding tokens, with and without quotes and kept separators, and copying them | StringModel.v |
| niplists.c and the hand-written lists of nipvariable.c, nippotential.c, nipjointree.c: one generic doubly linked list on an explicit memory of cells | ListModel.v |
| niperrorhandler.c | ErrorModel.v |
| nipparsers.c: data files (opening, analysing, reading lines); nip.c: read_timeseries, write_timeseries | SeriesFileModel.v |
| nip.c: write_uncertainseries; util/nipinference.c, nipmap.c, nipnext.c, nipconvert.c | ToolModel.v |
| util/niplikelihood.c, nipsample.c | ToolModel2.v |
| util/niptrain.c | ToolModel3.v |
| util/nipjoint.c; nippotential.c: nip_fprintf_potential | ToolModel4.v |
| util/nipbenchmark.c | ToolModel5.v |
| nippotential.c, nipjointree.c, nip.c: the arithmetic of evidence, propagation, queries and inference over time, with rounding | RoundModel.v |
| nip.c: the arithmetic of e_step, with rounding | RoundModel2.v |
| nip.c: the arithmetic of m_step and em_learn, nip_normalise_cpd, nip_init_potential, total_reset, with rounding | RoundModel3.v |
| nipjointree.c, nipvariable.c, nippotential.c, nip.c: allocation and release of variables, cliques, sepsets, their links, potentials, models and series | MemoryModel.v |
| nipparsers.c, niplists.c (lists of strings), nip.c (read_timeseries): allocation and release in reading data files | MemoryModel2.v |
| nipgraph.c, nipheap.c, niplists.c (lists of integers): allocation and release in building join trees | MemoryModel3.v |
| huginnet.y (actions, lexer strings), niplists.c and the lists of nipvariable.c and nipjointree.c, nip.c (parse_model): allocation and release in parsing a model | MemoryModel4.v |
| nip.c (forward_inference, forward_backward_inference, e_step, m_step, em_learn, get_probability, generate_data, start_/finish_timeslice_message_pass): allocation and release | MemoryModel5.v |
| util/nipinference.c, nipnext.c, nipmap.c, niplikelihood.c, nipsample.c, niptrain.c; nip.c (write_model, write_timeseries, write_uncertainseries, model_variable): allocation and release | MemoryModel6.v |
| util/nipbenchmark.c, nipconvert.c: allocation and release | MemoryModel7.v |
| nippotential.c (properties, nip_copy_potential); niplists.c (string pairs) | PotPropModel.v |
| nipgraph.c (nip_cluster_primary_cost, nip_cluster_secondary_cost and their callers) with overflow | CostModel.v |
| nip.c (random_seed); util/nipsample.c, niptrain.c, nipbenchmark.c (their seeds); strtol | SeedModel.v |
| huginnet.y: static variables after a syntax error at the start of a node declaration | KeptModel.v |
| nipgraph.c: nip_graph_linked | LinkModel.v |
| util/nipsample.c (main with its arguments); niptrain.c, nipbenchmark.c (checks of their numbers); strtod | ArgumentModel.v |
| nipjointree.c (nip_gather_joint_probability), util/nipjoint.c: allocation and release | MemoryModel8.v |

### Not modelled

* Floating point rounding, except in RoundModel.v, RoundModel2.v and RoundModel3.v: elsewhere doubles are exact rationals.
  Overflow, subnormal numbers and NaN.
* Failing allocations; what is released when a parse fails (the release of models
  and series is in MemoryModel.v, that of data files in MemoryModel2.v, that of
  graphs and heaps in MemoryModel3.v, that of a successful parse in MemoryModel4.v,
  that of inference, learning and sampling in MemoryModel5.v, that of the programs
  in MemoryModel6.v, MemoryModel7.v and MemoryModel8.v).
* Printing for debugging (apart from `nip_fprintf_potential`) and the Graphviz output;
  the conversion `%g`.
* The tables that Bison generates from the grammar: NetGrammarModel.v reads the
  terminals by recursive descent, which relies on the grammar being LL(1).  The
  actions run in the order of the generated parser, those inside of one
  declaration when it is complete (apart from the lookups of symbols).
* The static state of the lexer and of the parser after a failed parse.
* The scripts util/*.awk, the programs of test/ and the generator
  of random numbers; what programs print to stderr, and missing command line
  arguments.

## Findings

Where a property is false of the code, a theorem ending in `_refuted` gives a
witness; the property is `partial` in the manifest, with what does hold.

1. `nip_normalise_dimension` does not normalise the first dimension as
   `nip_normalise_cpd` does (C09).
2. `nip_sort_variables` never sorts four or more distinct variables (C16).
3. The heap grows by a number of items taken for a number of bytes, so later
   insertions write outside of the array (C21).
4. `nip_build_min_heap` after `nip_set_heap_item` does not restore the heap
   when a key has changed at more than one place (C20).
5. `nip_sepset_secondary_cost` has an inverted test and is 0 for all sepsets;
   the tie-break between sepsets does not work (GraphModel.v; the theorems do
   not depend on it).
6. A join tree of a single clique is reported as an error (ENOMEM) although it
   is complete: the heap of candidate sepsets is empty and its constructor
   returns NULL (C27_single_clique_reported).
7. `nip_gather_joint_probability` never returns a table on trees with two or
   more cliques (C39).
8. Duplicates in the arguments of `nip_variable_union` let it write outside of
   its array (C13).
9. State names longer than 40 characters are never found (C17).
10. A retraction forgets the priors for good (C34); evidence that excludes
    every state, or an index beyond the last state, makes everything zero.
11. `get_observation` with an unknown datum and `set_observation` with a time
    outside of the series are undefined behaviour (C55).
12. The lottery returns a state of probability 0 when `rand()` is 0 (C46).
13. `generate_data` does not terminate on a cyclic model (C47).
14. The likelihood can drop in EM because of the pseudocounts, and em_learn
    treats this as an error (C58).
15. Without random initialisation em_learn forgets the priors of the
    parentless variables (C59).
16. The index of a graph is addressed by identifier: asking for a variable
    outside of the range of identifiers reads outside of the array
    (GraphModel.v, `id_offset`); hence the hypothesis that arcs are between
    nodes in C60.
17. The costs of clusters and the sizes of tables are products of ints without
    a check; the models make the overflow of sizes an explicit outcome.  The cost
    of a cluster overflows for every variable that has, with its neighbours, more
    configurations than an int can count, for example a binary variable with
    thirty binary children, although no clique is large (C98_overflow,
    C98_small_tables_refuted, C98_small_cliques_refuted).
18. The parser normalises each table over the member of the family that was
    declared first, which is the child only if it is declared before all its
    parents (C30).  Potentials declared without data become all-ones tables
    which are not normalised if the variable has no parents.
19. The static pointer to the label of a node is not reset: a node without a
    label after a node with one uses, and frees again, freed memory (C64).
20. The static pointers to the lists of variables, potentials and relations are
    not reset after a successful parse: the second call of parse_model in a
    process uses freed memory (C63).  A failed parse leaves them behind, too.
21. `states = ();` and `data = ();` dereference NULL; so do potentials of
    unknown variables and an unknown NIP_next (ParseModel.v: UB).
22. A separator inside a quoted string makes the character after the closing
    quote a separator, too: a blank after such a string becomes a token (C66).
23. `nip_tokenise` asked for fewer tokens than the string has writes outside of
    its array (C49_fewer_tokens_overflow).
24. `write_timeseries` and `read_timeseries`: series of length zero vanish; a
    missing value is read as a state if one is called `null` (C48).
25. Data files: an empty field shifts the fields after it by one column; fields
    missing at the end of a line are read as the first state; a column that
    occurs twice overflows the array of hidden variables (C67); a line of more
    than 9999 characters is read as several; without a header there are no
    columns, and the number returned by `nip_analyse_data_file` is one less
    than the number of series (C68).
26. NET files: a text that does not start with a node, net or class makes the
    parser dereference NULL (C71).  Symbols that strtod takes for numbers, such
    as `Infection` or `Nancy`, are rejected, as are keywords and `_` (C70).
    `|` does not separate tokens: `potential (A|B)` without blanks is an error.
    A single character above 127 ends the input.  Of several labels or
    NIP_next of a node the first counts, of several states or positions the
    last.
27. `write_model` takes the tables from the joint tables of cliques: a column for
    states of the parents that the clique excludes is written as zeros, so that
    a file of proper distributions is written as one that is not (C73).  Nodes
    without label are written with the label " ".  Six decimals are written: the
    columns of what is read back need not add up to one before normalisation.
28. `nipinference` ends with status 0 if its output file cannot be opened or
    closed (C75).  `nipmap` empties its output file before it finds out that
    there is nothing to report (C76).
29. `niplikelihood` weighs each step after the first without the steps before it
    and without any distribution for the variables of the previous time slice,
    so the numbers it prints do not add up to a log-likelihood (C79).
30. `niptrain` never ends if the mean log-likelihood asked for cannot be reached
    (C81). The reason for stopping is only set by some batches: after a batch
    that failed for bad luck, the reason of an earlier batch still decides
    whether the tables are drawn anew, and the failed batch is followed by the
    next one. A batch runs at least three iterations whatever the limit is, so
    the limit can be exceeded by two.
31. `nip_new_variable` leaves the array of names of states uninitialised if it
    gets none, and `nip_free_variable` then frees undefined pointers
    (C82_without_states_refuted). A clique connected to itself would be used
    after it was freed (C82_loop_refuted; nothing in the library does this).
    `nip_copy_variable` frees the uninitialised name of the copy if the variable
    has a name, and never sets symbol, names of states, prior and family mapping:
    no copy can be freed (C82_copy_refuted; nothing in the library calls it).
32. `nipjoint` works for networks of a single clique only: for two or more,
    `get_joint_probability` returns NULL (C39), which is passed on to
    `nip_fprintf_potential` and dereferenced (C85_cliques_refuted). Called
    without symbols it frees an array of the series, and `free_timeseries`
    frees it again (C85_freed_twice_refuted).
33. `e_step` reports bad luck if the log-likelihood of a series is above zero.  In
    doubles this happens for series of probability (close to) one, for instance
    when a model is trained with a series in which nothing is observed: the mass
    after the evidence can exceed the mass before it by a rounding error.
    `em_learn` then gives up (C88_possible_data_refuted, C90_learns_refuted).
34. `nip_create_sepsets` neither uses nor frees a candidate that it takes from the
    heap if its cliques are connected already.  Each one is lost for good: 11 or 12
    blocks (C91_everything_freed_refuted).
35. A node may give its label, its NIP_next or its states twice.  The first label and
    NIP_next count and the last states; the others (with all their strings) are never
    freed (C92_everything_freed_refuted).
36. `nipbenchmark` never ends if the minimum likelihood cannot be reached for the
    other series of some series (C93_ends_refuted), and returns 0 even if the
    output cannot be opened (C93_unwritten).
37. `nipmap` returns without freeing anything if the output cannot be closed
    (C95_map_unclosed, C95_map_frees_refuted).  The programs that read data leave
    the empty array of series if the file has none (`empty_array` in C95).
    `nipbenchmark` does not free a single series, nor the results it has when
    learning fails (198-206; C96_benchmark_single, C96_benchmark_frees_refuted).
38. `nip_set_potential_property` appends and `nip_get_potential_property` finds the
    first value: a property cannot be changed (C97_replaced_refuted). A copy, which
    nippotential.h calls exact, has no properties (C97_copy). The strings belong to
    the potential, which the header does not say (C97_shared_refuted).
39. `random_seed` shifts the number of the process by 15 bits in an int, which
    overflows from 65535 on; Linux counts to 4194304 (C99_process_refuted). Seeds
    2^32 apart are the same (C99_wide_refuted). `niptrain` prints the seed it makes
    up, but if it is given this seed it also initialises the parameters at random
    (C99_train_refuted).
40. `nip_gather_joint_probability` never frees the
    intersection of the variables of a message with those asked for (`msg_isect`,
    nipjointree.c 1290-1307) and loses `prod_vars` on an error (1313-1318;
    C100_gather). `nipjoint` frees nothing on its early errors (lines 82 and 109;
    C100_kept_refuted); without names it frees an array of a series twice
    (C100_undefined_refuted, finding 32).
41. `nipsample` converts its amounts to int before it checks them, which is undefined
    for values that no int holds and for NaN (nipsample.c 93 and 102;
    C101_large_refuted). Lengths below 1 pass the check and give series without steps
    (C101_small_refuted). NaN passes as threshold and as lowest log-likelihood of
    `niptrain` and `nipbenchmark` (C101_nan_refuted). The status is 0 if arguments are
    missing (C101_missing_refuted).
42. `nip_next_hugin_token` keeps the rest of the line in static variables, and
    `open_net_file` does not reset them (`nip_read_line = 1` is commented out). After a
    syntax error in the middle of a line the next file is read with the rest of that line
    in front: after `net x {` is rejected, every file makes the parser use a null pointer
    (C102_rest_refuted, C102_reread_refuted).
43. `nip_graph_index`, and with it `nip_graph_add_child` and `nip_graph_linked`, read
    outside the index for a variable whose identifier is below the lowest or above the
    highest one in the graph (C103_outside_refuted); nipgraph.h promises an error or 0.
    `nip_graph_add_node` accepts a variable that is there already, and its arcs are lost
    (C103_forgotten_refuted).
44. After a syntax error the variables declared so far stay in `nip_parsed_vars`, and the
    next file adds its own: the model has the variables of both files
    (C104_nodes_kept_refuted). If the file is corrected and read again, its first variables
    are there twice, and the potentials belong to the old ones (C104_corrected_refuted).
45. Every call of `parse_model` that fails loses the struct of the model, and the strings
    of the declaration with the error (C105_nothing_lost_refuted).
46. `nip_parent_vars` is not emptied when a potential is rejected for too few numbers or an
    unknown parent. The old parents become parents of the next conditional potential, so
    the corrected file is rejected as well, each time it is read
    (C106_once_refuted, C106_corrected_refuted).
47. `nip_node_size_x` and `nip_node_size_y` are never set back to 80 and 60: a file without
    `node_size` gets the size of a file that was rejected before
    (C107_carried_refuted, C107_rejected_refuted).
48. Seen while reading, not covered by a theorem: `nip_init_clique`'s mapping
    overflows if a parent is listed twice; `nip_build_cluster_heap` goes on
    after freeing the heap on an error; `nip_set_node_symbols` allocates too
    little for made-up names (its only caller never reaches that branch);
    an all-zero prior is reported as EINVAL but marked as entered.
    `nipbenchmark` needs six arguments but accepts
    five, and then computes everything, writes nothing and returns 0.
    `write_uncertainseries` does not free `v_index` if the variable is not one of
    the series (nip.c 858-859; no program asks for one). A position read in a node
    that is then rejected stays in `nip_node_position_x` and `_y`, and the first node
    of the next file gets it if it has none (huginnet.y 358-359, 570-571).
