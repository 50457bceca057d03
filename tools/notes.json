{
 "C09": {
  "status": "partial",
  "note": "The documented equality is false of the code (refuted by a 2x2 table); the _partial theorem states what the function computes for every table."
 },
 "C13": {
  "note": "With a repetition inside one array the function writes out of bounds (C13_variable_union_repetition_overflows)."
 },
 "C16": {
  "status": "partial",
  "note": "The English claim is false of the code: for every array of at least four different variables the result is not ascending (refuted for all such inputs). Up to three variables are sorted."
 },
 "C17": {
  "status": "partial",
  "note": "Proved for state names of at most 40 characters; longer names are cut on creation and are then never found (C17_state_names_long_unknown), so the claim for all strings is false."
 },
 "C20": {
  "status": "partial",
  "note": "The English claim is false: a decreased key below the root is never noticed (refuted for every built heap), and growing keys changed from the root downwards can go wrong. Proved for growing keys changed from higher to lower index, in particular for one growing key."
 },
 "C21": {
  "status": "partial",
  "note": "False beyond the initial size: every further insertion writes out of bounds (refuted for all sizes). Proved up to the initial size."
 },
 "C34": {
  "status": "partial",
  "note": "C34_any_history covers every sequence of insertions, priors, resets, propagation and queries. The English claim fails when an insertion revives a state after use_priors: the priors leave the joint (C34_priors_lost_refuted, for all such sequences). Proved without priors, and with priors as long as nothing is revived."
 },
 "C39": {
  "status": "partial",
  "note": "Exact for a tree of one clique; refuted for every tree of two or more cliques (the call never returns a table)."
 },
 "C55": {
  "status": "partial",
  "note": "Proved inside the series; set_observation at a time outside of it and get_observation of a missing value are undefined behaviour (refuted for all such calls)."
 },
 "C43": {
  "note": "C43_zero_columns states what the code really installs when a parent configuration has no support (zero counts cannot arise after the pseudocount is added, they can in m_step alone)."
 },
 "C44": {
  "note": "Any calls of rand; the learning curve, the reported code and the stopping rule."
 },
 "C46": {
  "status": "partial",
  "note": "Holds for every random number above 0; refuted at exactly r = 0, which rand() can return."
 },
 "C47": {
  "note": "Beyond the claim: the probability of each generated series is its probability under the model given the evidence; a cyclic network never terminates (C47_cyclic_diverges)."
 },
 "C58": {
  "status": "partial",
  "note": "False of the code (refuted): the pseudocount 1 added to each expected count can lower the likelihood. What learning does not lower is the probability times the product of all table entries: C84."
 },
 "C59": {
  "status": "partial",
  "note": "False of the code as stated (refuted): without random initialisation the priors of the parentless variables are forgotten. Proved: the conditional distributions of all variables with parents are kept exactly (they can be read off the clique tables) and the priors become uniform, so the first likelihood is that of the model with uniform priors; for models whose clique tables are products of conditional distributions (parsed and learned models are)."
 },
 "C25": {
  "note": "Any cost functions, hence any elimination order. Graphs without self arcs, n(n-1) within INT_MAX."
 },
 "C26": {
  "note": "The triangulated graph is the one left by the calls inside nip_graph_to_cliques; it is also shown to be chordal, and every complete set is inside a clique."
 },
 "C27": {
  "note": "A single clique is reported as ENOMEM although the tree is complete (C27_single_clique_reported)."
 },
 "C28": {
  "note": "Both forms: a way through sepsets with the variable, and every sepset and clique on the path."
 },
 "C30": {
  "status": "partial",
  "note": "False for other orders of declaration (refuted): each table is normalised over the member of the family declared first. Proved when every node is declared before its parents; C30_parsed_factors gives the contents of the model for every order."
 },
 "C61": {
  "note": "Success is conditional on the clique tables being addressable with an int (C61_small_files: e.g. if the whole joint is). `parsed` also promises that variables connected pairwise by the file share a clique, and that no clique lies within another."
 },
 "C63": {
  "status": "partial",
  "note": "False of the code (refuted for every pair of proper files): the list of variables is freed, the static pointer to it stays."
 },
 "C64": {
  "status": "partial",
  "note": "False of the code (refuted for every file that starts with a labelled and an unlabelled node): the label is freed, the static pointer to it stays."
 },
 "C66": {
  "status": "partial",
  "note": "False if a quoted string contains a separator and is followed by a character that is neither a separator nor the end (refuted: the blank after it becomes a token). Proved for all other texts."
 },
 "C48": {
  "status": "partial",
  "note": "Series of length zero are lost, and every variable observed in one series is observed (missing) in all (refuted). Proved: everything else survives; with the same observed variables in all series the data are identical. A state called null stands for missing values (refuted), lines must fit the buffer of 10000 characters."
 },
 "C67": {
  "status": "partial",
  "note": "False for fields missing at the end of a line, which become the first state, and for two columns of one variable, which are undefined behaviour (both refuted). The theorem says what is read from every other file."
 },
 "C68": {
  "status": "partial",
  "note": "With a header proved; without one no columns are found in any file (refuted): the names are never made up."
 },
 "C70": {
  "status": "partial",
  "note": "False for keywords, for identifiers that start with inf or nan in any case, which strtod reads as numbers, and for a single underscore (refuted: every such file is rejected). All others proved, in files of one node; in other files by C69."
 },
 "C71": {
  "status": "partial",
  "note": "Accepted texts: proved. That the others are rejected with NULL is false: a text that does not start with a node, net or class dereferences NULL (refuted)."
 },
 "C72": {
  "status": "proved",
  "note": "For models whose texts can be quoted (no quotes, separators or line ends in them, at most 40 characters), with at most 100 parents per variable and priors that add up to one."
 },
 "C73": {
  "status": "partial",
  "note": "False for states of the parents that the rest of the clique excludes: their columns are written as zeros (refuted). Proved: everything else survives with the numbers rounded to six decimals, the written file can be read, and with numbers of six decimals the joint distribution is the same. Needs children declared before parents (C30) and data for variables without parents. How rounding accumulates in the joint distribution is not stated."
 },
 "C74": {
  "status": "proved",
  "note": "Probabilities between 0 and 1; the conversion %f is exact decimal rounding of a rational."
 },
 "C75": {
  "status": "partial",
  "note": "That the status tells whether results were written is false: it is 0 if the output file cannot be opened (refuted). Everything else is proved. The average of the log-likelihoods printed to stderr is represented by the quotients whose logarithms are averaged. Children declared before parents (C30); if nothing comes from the step before, the records must have positive probability."
 },
 "C76": {
  "status": "proved",
  "note": "The states are the most probable ones one by one, not jointly. Same conditions on the files as C75."
 },
 "C77": {
  "note": "log() and the format %g are an argument (the text for the logarithm of a number); the average of the log-likelihoods on stderr is left out."
 },
 "C78": {
  "status": "proved",
  "note": "For the formats univariate and unary; with several known columns only the first one is converted."
 },
 "C79": {
  "status": "partial",
  "note": "The masses of each step are proved; that their quotients multiply to the conditional probability of the asked data of the series is refuted. Logarithms and the printed decimals are not modelled."
 },
 "C80": {
  "status": "proved",
  "note": "Random numbers are an argument. If no variable has a predecessor in the previous slice, the draw is proved to follow the distributions for given roots and positive random numbers (rand() = 0 picks impossible states, C46)."
 },
 "C81": {
  "status": "partial",
  "note": "Everything but termination in general is proved. That niptrain always ends is refuted: if no tables give the data the probability asked for, it starts new runs forever (C81_endless). If the data are possible and the demands are modest enough, the first run ends it (C81_ends). Random numbers are an argument and must be positive; logarithms are represented by probabilities. Same conditions on the files as C73."
 },
 "C82": {
  "status": "proved",
  "note": "Allocations always succeed; lists of properties of potentials are empty. The three refuted statements concern calls outside of the claim: variables without names of states, a clique connected to itself, and nip_copy_variable, whose copies can never be freed."
 },
 "C83": {
  "status": "proved",
  "note": "Allocations always succeed."
 },
 "C84": {
  "note": "Correct version of C58. For models read from NET files and series with any missing values; random numbers are an argument and must be positive; exact arithmetic."
 },
 "C85": {
  "note": "False for networks of two or more cliques (get_joint_probability returns NULL, which is dereferenced) and for the memory when no symbols are given (an array of the series is freed twice). Proved for networks where every two variables are connected by the file. The masses are results of the model instead of text (%g is not modelled); log is left out."
 },
 "C86": {
  "note": "One rounding per operation; numbers in the parsed tables and evidence vectors are taken as given; a run in which the rounding has no result (overflow, subnormal numbers) is not looked at. The mass, likelihoods and learning are not covered."
 },
 "C87": {
  "note": "For calls without loglikelihood. That zero stays zero and positive stays positive is C86_relative_error. One rounding per operation; the numbers in the tables are taken as given; runs in which the rounding has no result (overflow, subnormal numbers) are not looked at."
 },
 "C88": {
  "note": "Proved: the counts, impossible data, completion (any log(): it enters only the decision whether to report bad luck). Refuted (C88_possible_data_refuted): that possible data are counted; in the format double a series of probability one can be reported as bad luck, because the test of the log-likelihood against zero is exact. Overflow and subnormal numbers are not looked at (the M-step: C90)."
 },
 "C89": {
  "note": "Proved for the memory of MemoryModel2.v; allocations succeed and calloc(0) is not NULL, as in glibc. Files with two columns of one variable are excluded: there the array of hidden variables is overrun (C67_duplicate_columns_refuted)."
 },
 "C90": {
  "note": "Proved: the error of the learnt model for every number of rounds, the stopping rule, termination (any log(): it enters only the decisions). Refuted (C90_learns_refuted): that learning succeeds if it does without rounding; the cause is that of C88. The accuracy of the entries of the learning curve is not covered (they are logarithms). Overflow and subnormal numbers are not looked at."
 },
 "C91": {
  "note": "Refuted (C91_everything_freed_refuted): sepsets between cliques that are no neighbours can be lost. Proved: everything else, and exactly how much is lost: 11 or 12 blocks for each pair in a list, whose members are no neighbours and share at least as many variables as some sepset; all pairs that share more are in it. Graphs, heaps, clusters and lists are blocks without fields (their contents are in HeapModel.v and GraphModel.v). Allocations succeed."
 },
 "C92": {
  "note": "Refuted (C92_everything_freed_refuted): a label, NIP_next or list of states that a node gives beside the one that counts is never freed. Proved: everything else, and exactly how many blocks are left: those texts (counted from the file) and the sepsets that C91 loses; nothing at all if there are none of either (C92_nothing_left). Lists of the parser are blocks with their contents beside them. Allocations succeed; files that are not parsed are not covered."
 },
 "C93": {
  "status": "partial",
  "note": "Everything but termination in general is proved (C93_predicted, C93_rejects); that it always ends is refuted (C93_ends_refuted: contradictory data and a minimum likelihood below 1), C93_ends says when it does. C93_unwritten: the status is 0 although the file could not be opened. Random numbers are an argument and must be positive; logarithms are represented by probabilities. Same conditions on the files as C73; all six arguments are given."
 },
 "C94": {
  "note": "Proved for programs over the memory model. Simplified: arrays that a function called on the way allocates and frees itself (nip_message_pass, nip_enter_index_observation, nip_find_family) appear only as sizes; the exchange of the two potentials of a sepset, the learning curve and the callback, which belong to the caller, are left out; allocation succeeds. Branches after a failing message between time steps are not taken, since start_ and finish_timeslice_message_pass never fail."
 },
 "C95": {
  "note": "Proved, with the exceptions in the statement; that nipmap frees everything in every case is refuted (C95_map_unclosed, C95_map_frees_refuted). Simplified as in C92 and C94: what numbers decide is an argument, arrays that a called function allocates and frees itself appear as sizes, elements of arrays of the model other than the variables are named by numbers, the learning curve grows after em_learn instead of during it, allocation succeeds. Failing parses and other exits before the model exists are not covered.",
  "status": "proved"
 },
 "C96": {
  "note": "Proved, with the exceptions in the statement; that nipbenchmark frees everything is refuted (C96_benchmark_single, C96_benchmark_frees_refuted). Simplified as in C95: what numbers decide is an argument, the learning curve grows after em_learn, allocation succeeds; the size of the union of observed variables comes from the series (C67), and the values that nipconvert reads are in C78.",
  "status": "proved"
 },
 "C97": {
  "note": "False for a key that is set twice (C97_replaced_refuted: the value set first stays) and for copies (C97_copy: a copy has no properties). Proved: the answers are those of the first setting (C97_answers), the last one if no key is set twice (C97_once), and everything is freed. That each setting hands over two strings of its own is needed (C97_shared_refuted). Missing: allocation that fails.",
  "status": "partial"
 },
 "C98": {
  "note": "False: the cost of the cluster of a variable and all its neighbours overflows although all cliques are small (C98_small_tables_refuted for every binary variable with thirty or more binary children, C98_small_cliques_refuted, and C98_overflow in general). Proved: a cost is exact or undefined (C98_cost), a defined result is that of exact costs (C98_exact), and there is no overflow if the configurations of all the variables together can be counted with an int (C98_no_overflow).",
  "status": "partial"
 },
 "C99": {
  "note": "False for process numbers from 65535 on (C99_process_refuted: int overflow) and for niptrain without a seed (C99_train_refuted: given the seed it printed, it also initialises the parameters at random). Proved: the seed alone determines the generator, arguments without an integer are rejected, printed seeds give the same state, made-up seeds are defined and different for smaller process numbers. Seeds 2^32 apart are the same (C99_wide_refuted). Missing: the generator behind srand, a failing localtime.",
  "status": "partial"
 },
 "C100": {
  "note": "False: nipjoint without names frees an array of a series twice, and prints NULL if there is no table (C100_undefined_refuted); it frees nothing if there are no series or a variable is unknown (C100_kept_refuted); an array is left for each message between cliques and for each failed message (C100_gather). Proved: exactly these are left, nothing else, and nothing undefined happens otherwise (C100_gather, C100_joint; nothing is left for one clique, C100_one_clique). What numbers decide is an argument; allocation succeeds.",
  "status": "partial"
 },
 "C101": {
  "note": "False: amounts that no int holds, infinities and NaN are undefined instead of rejected (C101_large_refuted), lengths below 1 are accepted (C101_small_refuted), NaN passes as threshold and as lowest log-likelihood (C101_nan_refuted), missing arguments give status 0 (C101_missing_refuted). Proved: from the texts of the arguments to the file for all other amounts (C101_run, C101_file), rejection of the others (C101_rejected), and exactly which thresholds and log-likelihoods pass. Missing: rounding of strtod, text behind a number.",
  "status": "partial"
 },
 "C102": {
  "note": "False: the rest of the line of the error is read in front of the next file (C102_rest), and every next file is undefined unless a file can begin with that rest (C102_rest_refuted, C102_reread_refuted). Proved: files given up at ends of lines leave nothing behind in the lexer (C102_line_ends). The number of tokens taken before giving up is an argument of the model.",
  "status": "partial"
 },
 "C103": {
  "note": "False for variables whose identifier is outside the range of those in the graph: the index is read outside its array (C103_outside_refuted). Proved for all sequences of calls with identifiers in the range, whether or not they are in the graph (C103_answers). Variables may be added again (C103_again), but then the graph forgets their arcs (C103_forgotten_refuted).",
  "status": "partial"
 },
 "C104": {
  "note": "False: the next file gives the model of a file with the nodes of the rejected one in front (C104_nodes_kept_refuted, for all such files), and a corrected file read again gives a variable twice (C104_corrected_refuted). Proved: such files are rejected without undefined behaviour (C104_rejected).",
  "status": "partial"
 },
 "C105": {
  "note": "Nothing undefined happens, and everything that can be reached can be freed (C105_attempts, any number of calls). That no memory is lost is false: each call loses the struct of the model, and the strings of the wrong declaration (C105_attempts says exactly how many blocks, C105_nothing_lost_refuted that they have no bound)."
 },
 "C106": {
  "note": "False: the file is rejected and leaves the parents of the potential in a static list (C106_rejected); if one of them has two states or more, a corrected file with exactly the needed numbers is then rejected, too (C106_once_refuted), and so are all further ones as long as nothing undefined happens (C106_corrected_refuted, any number of attempts). C106_fresh ties the model to the one of the other parser theorems; that a new process accepts the file of the example is C106_case."
 },
 "C107": {
  "note": "False: the size is the last one declared in any file the process has read, rejected ones included (C107_carried_refuted, for all sequences of files); a file without one that is read after a rejected one gets the size of that (C107_rejected_refuted). Proved: the first file gets its own size or 80 by 60 (C107_first_file, for all texts), and a file that declares a size always gets it (C107_declared). Earlier files may be wrong anywhere behind the net block or in a node_size declaration; missing are those with an error in the value of an unknown declaration of the net block.",
  "status": "partial"
 }
}