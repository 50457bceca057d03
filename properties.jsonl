{"id": "C01", "title": "Potential cells are addressed by a bijection", "statement": "For every potential, nip_set_potential_value followed by nip_get_potential_value at the same multi-index returns the value written, the values at all other multi-indices are unchanged, and no access is made outside the data array as long as every index is below the cardinality of its dimension; nip_inverse_mapping turns every flat position into the unique in-range multi-index that addresses it.", "quantifier": "all shapes (any number of dimensions, any positive cardinalities), all multi-indices, all contents, all values", "why_tests_cant": "a unit test fixes one shape; the address arithmetic must be collision free for every shape", "anchors": ["src/nippotential.c:nip_get_potential_pointer", "src/nippotential.c:nip_inverse_mapping", "src/nippotential.c:nip_set_potential_value", "src/nippotential.c:nip_get_potential_value"]}
{"id": "C02", "title": "Marginalisation sums exactly the matching cells", "statement": "After nip_general_marginalise(source, destination, mapping) every cell d of the destination holds the sum of exactly those source cells whose coordinates selected by the mapping equal d, whatever the destination held before; with a scalar destination it holds the total of the source; a destination with more dimensions than the source is rejected and nothing is changed.", "quantifier": "all source and destination shapes, all mappings into the dimensions of the source with agreeing cardinalities, all contents", "why_tests_cant": "a test can only compare a few small tables", "anchors": ["src/nippotential.c:nip_general_marginalise"]}
{"id": "C03", "title": "Marginalisation conserves mass and composes", "statement": "The total of the destination after nip_general_marginalise equals the total of the source, and marginalising in two steps gives the same table as marginalising at once with the composed mapping.", "quantifier": "all shapes, mappings and contents", "why_tests_cant": "algebraic law over all tables", "anchors": ["src/nippotential.c:nip_general_marginalise"]}
{"id": "C04", "title": "Single-variable marginal agrees with the general one", "statement": "nip_total_marginalise(p, r, k) writes into r[i] the sum of exactly the cells whose k-th coordinate is i and thus the same numbers nip_general_marginalise computes for the mapping {k}; a variable index outside the dimensions is rejected and r is left alone.", "quantifier": "all potentials, all variable indices (valid or not), all contents of r", "why_tests_cant": "two different index computations must agree on every shape", "anchors": ["src/nippotential.c:nip_total_marginalise", "src/nippotential.c:nip_general_marginalise"]}
{"id": "C05", "title": "Potential update multiplies and divides the matching cells", "statement": "After nip_update_potential(num, den, target, mapping) each target cell holds its old value times the num cell and divided by the den cell selected by the mapping, and 0 where the den cell is 0; num or den may be absent; with both absent, or with both present and of different or too large dimensionality, the call is rejected and the target is unchanged.", "quantifier": "all shapes, mappings, contents, and both optional arguments", "why_tests_cant": "universal over shapes and zero patterns", "anchors": ["src/nippotential.c:nip_update_potential"]}
{"id": "C06", "title": "Absorbing a message makes the marginals agree", "statement": "If den is the marginal of target over the mapped dimensions and num is zero wherever den is zero, then after nip_update_potential(num, den, target, mapping) the marginal of target over the mapped dimensions is num.", "quantifier": "all shapes, mappings and non-negative contents, including zero cells", "why_tests_cant": "algebraic law that must hold for every table and zero pattern", "anchors": ["src/nippotential.c:nip_update_potential", "src/nippotential.c:nip_general_marginalise"]}
{"id": "C07", "title": "Normalisation yields a distribution and keeps proportions", "statement": "nip_normalise_potential and nip_normalise_array divide every entry by the total: if the total is not zero the result sums to exactly one and all ratios are kept, if it is zero nothing changes; doing it twice is the same as doing it once.", "quantifier": "all arrays and potentials", "why_tests_cant": "universal over contents, including totals of zero", "anchors": ["src/nippotential.c:nip_normalise_array", "src/nippotential.c:nip_normalise_potential"]}
{"id": "C08", "title": "CPD normalisation normalises every column of the first variable", "statement": "After nip_normalise_cpd, for every combination of the other coordinates the entries along the first dimension are the old ones divided by their sum, so that they sum to one, or are unchanged if that sum was zero; the operation is idempotent and never leaves the data array.", "quantifier": "all potentials with at least one dimension", "why_tests_cant": "must hold for every parent configuration of every shape", "anchors": ["src/nippotential.c:nip_normalise_cpd"]}
{"id": "C09", "title": "Normalising the first dimension is CPD normalisation", "statement": "As nippotential.h documents, nip_normalise_dimension(p, 0) produces the same table as nip_normalise_cpd(p), i.e. it divides by the sum over the given dimension.", "quantifier": "all potentials", "why_tests_cant": "the header promises it for every potential; a test on a diagonal or symmetric table would not notice a difference", "anchors": ["src/nippotential.c:nip_normalise_dimension", "src/nippotential.h:nip_normalise_dimension"]}
{"id": "C10", "title": "Copies and retraction reproduce a potential", "statement": "nip_copy_potential gives a potential with the same dimensions and the same value in every cell; nip_retract_potential(p, ref) makes every cell of p equal to that of ref when the shapes agree and otherwise rejects the call and leaves p unchanged.", "quantifier": "all pairs of potentials, equal or different shapes", "why_tests_cant": "universal over shapes and contents", "anchors": ["src/nippotential.c:nip_copy_potential", "src/nippotential.c:nip_retract_potential", "src/nippotential.c:nip_new_potential"]}
{"id": "C11", "title": "Evidence vectors scale exactly one coordinate", "statement": "nip_update_evidence(num, den, p, k) multiplies each cell by num[i] and divides it by den[i] (when that is non-zero), i being the k-th coordinate of the cell; replacing evidence e1 by e2 in this way equals having entered e2 in the first place when e2 vanishes wherever e1 does.", "quantifier": "all potentials, coordinates and evidence vectors", "why_tests_cant": "universal over shapes and sequences of evidence", "anchors": ["src/nippotential.c:nip_update_evidence"]}
{"id": "C12", "title": "Initialising a table multiplies a CPD into it", "statement": "nip_init_potential(probs, target, mapping) multiplies each target cell by the probs cell selected by the mapping; without a mapping it multiplies cell by cell and rejects tables of different size unchanged.", "quantifier": "all shapes, mappings and contents", "why_tests_cant": "universal over shapes", "anchors": ["src/nippotential.c:nip_init_potential"]}
{"id": "C13", "title": "Variable union", "statement": "nip_variable_union(a, b) returns exactly the variables in a or b, each once, a first in its own order followed by the new ones of b in their order, and reports the right count.", "quantifier": "all arrays of variables without repetitions inside one array", "why_tests_cant": "universal over lengths and overlaps", "anchors": ["src/nipvariable.c:nip_variable_union"]}
{"id": "C14", "title": "Variable intersection", "statement": "nip_variable_isect(a, b) returns exactly the variables of a that are also in b, in the order of a, with the right count, and never writes outside its result.", "quantifier": "all arrays of variables", "why_tests_cant": "universal over lengths and overlaps", "anchors": ["src/nipvariable.c:nip_variable_isect"]}
{"id": "C15", "title": "Variable mapping", "statement": "nip_mapper(set, subset) gives for every variable of the subset the position at which that variable is found in the set, for sets and subsets in any order.", "quantifier": "all arrays of variables, subset included in set", "why_tests_cant": "universal over lengths and orders", "anchors": ["src/nipvariable.c:nip_mapper"]}
{"id": "C16", "title": "Sorting variables", "statement": "nip_sort_variables returns the given variables in ascending order of their identifiers.", "quantifier": "all arrays of variables", "why_tests_cant": "bounded tests with up to three variables cannot distinguish a sort from the implemented loop", "anchors": ["src/nipvariable.c:nip_sort_variables"]}
{"id": "C17", "title": "State names and indices are inverse", "statement": "nip_variable_state_index returns the first index at which a state name occurs and -1 exactly for unknown names, so that for a variable with distinct state names index and name lookups are inverse to each other.", "quantifier": "all variables, all strings", "why_tests_cant": "universal over names", "anchors": ["src/nipvariable.c:nip_variable_state_index", "src/nipvariable.c:nip_variable_state_name"]}
{"id": "C18", "title": "Variable identity", "statement": "Variables returned by successive calls of nip_new_variable never compare equal, and identifiers increase in order of creation.", "quantifier": "all histories of variable creations and failures", "why_tests_cant": "history property", "anchors": ["src/nipvariable.c:nip_new_variable", "src/nipvariable.c:nip_equal_variables"]}
{"id": "C19", "title": "The heap delivers items in ascending order", "statement": "After nip_build_min_heap, repeatedly calling nip_heap_extract_min returns every inserted item exactly once and in non-descending order of (primary, secondary) key.", "quantifier": "all sequences of insertions, all keys", "why_tests_cant": "sorting property over all histories", "anchors": ["src/nipheap.c:nip_heap_insert", "src/nipheap.c:nip_build_min_heap", "src/nipheap.c:nip_heap_extract_min"]}
{"id": "C20", "title": "The heap stays correct when keys change", "statement": "After nip_set_heap_item changed the keys of items and nip_build_min_heap was called again, nip_heap_extract_min returns an item with the smallest key.", "quantifier": "all heaps and all key changes", "why_tests_cant": "depends on the direction in which a key moves and on where the item sits", "anchors": ["src/nipheap.c:nip_set_heap_item", "src/nipheap.c:nip_build_min_heap"]}
{"id": "C21", "title": "Heap insertion never leaves its memory", "statement": "nip_heap_insert stays inside the memory it owns however many items are inserted.", "quantifier": "all initial sizes and numbers of insertions", "why_tests_cant": "memory corruption may stay invisible in a run", "anchors": ["src/nipheap.c:nip_heap_insert"]}
{"id": "C22", "title": "Moral graph", "statement": "After the moralisation step two variables are joined exactly if they were joined before or are parents of a common child; nothing else changes.", "quantifier": "all directed graphs", "why_tests_cant": "universal over graphs", "anchors": ["src/nipgraph.c:nip_moralise_graph"]}
{"id": "C23", "title": "Interface edges", "statement": "After the interface step any two variables of the outgoing interface and any two variables of the previous outgoing interface are joined, in both directions, and no other edges are added.", "quantifier": "all graphs and all interface labellings", "why_tests_cant": "universal over graphs", "anchors": ["src/nipgraph.c:nip_add_interface_edges"]}
{"id": "C24", "title": "Undirected graph", "statement": "After making a graph undirected, u and v are joined exactly if there was an edge in either direction; the relation is symmetric.", "quantifier": "all graphs", "why_tests_cant": "universal over graphs", "anchors": ["src/nipgraph.c:nip_make_graph_undirected"]}
{"id": "C25", "title": "Triangulation covers every family", "statement": "The cliques produced from a graph cover it: every variable together with all its parents is contained in some clique, as is every pair of joined variables and every interface set, so that nip_find_family never fails on a built model.", "quantifier": "all directed graphs, all sizes, all cardinalities, any elimination order the heap may choose", "why_tests_cant": "every graph and every tie-break has to work", "anchors": ["src/nipgraph.c:nip_triangulate_graph", "src/nipgraph.c:nip_graph_to_cliques", "src/nipjointree.c:nip_find_family"]}
{"id": "C26", "title": "Cliques are maximal", "statement": "None of the cliques produced by nip_graph_to_cliques is contained in another one, and every variable pair inside a clique is joined in the triangulated graph.", "quantifier": "all graphs", "why_tests_cant": "universal over graphs", "anchors": ["src/nipgraph.c:nip_triangulate_graph", "src/niplists.c:nip_int_array_list_contains_subset"]}
{"id": "C27", "title": "The sepsets form a tree", "statement": "nip_create_sepsets connects the cliques by exactly one sepset fewer than there are cliques, such that any two cliques are connected and there is no cycle, so every recursive traversal terminates and visits every clique exactly once.", "quantifier": "all sets of cliques", "why_tests_cant": "universal over clique sets", "anchors": ["src/nipgraph.c:nip_create_sepsets", "src/nipjointree.c:nip_cliques_connected"]}
{"id": "C28", "title": "Running intersection", "statement": "In the tree built by nip_graph_to_cliques, if a variable is in two cliques then it is in every clique and every sepset on the path between them.", "quantifier": "all directed graphs", "why_tests_cant": "graph theoretic property over all graphs; a counterexample may need a particular shape", "anchors": ["src/nipgraph.c:nip_create_sepsets", "src/nipgraph.c:nip_triangulate_graph"]}
{"id": "C29", "title": "Reordering a parsed table keeps its meaning", "statement": "nip_create_potential(vars, data) yields a potential whose dimensions are the variables in ascending identifier order and whose cell for every assignment equals the entry of data for the same assignment, data being indexed with the first variable running fastest.", "quantifier": "all variable orders, all cardinalities, all data", "why_tests_cant": "must hold for all permutations", "anchors": ["src/nipjointree.c:nip_create_potential"]}
{"id": "C30", "title": "Parsing keeps conditional distributions", "statement": "A properly normalised conditional distribution given in a NET file enters the model unchanged: the product of the clique tables of a freshly parsed model is the product of the conditional distributions written in the file.", "quantifier": "all networks and all declaration orders of the nodes", "why_tests_cant": "depends on the declaration order of child and parents", "anchors": ["src/huginnet.y:potentialDeclaration", "src/nipjointree.c:nip_create_potential", "src/nippotential.c:nip_normalise_cpd", "src/huginnet.y:parsed_potentials_to_jtree"]}
{"id": "C31", "title": "Message passing preserves the joint distribution", "statement": "A message between two neighbouring cliques never changes the joint distribution represented by the join tree (the product of clique tables divided by the product of sepset tables), including tables with zeros.", "quantifier": "all join trees, all non-negative tables reachable by entering evidence, all message orders", "why_tests_cant": "algebraic invariant over all states", "anchors": ["src/nipjointree.c:nip_message_pass"]}
{"id": "C32", "title": "make_consistent calibrates the tree", "statement": "After make_consistent every clique agrees with each of its sepsets: marginalising the clique onto the sepset gives the sepset's table.", "quantifier": "all join trees, all evidence", "why_tests_cant": "must hold for every tree shape", "anchors": ["src/nip.c:make_consistent", "src/nipjointree.c:nip_collect_evidence", "src/nipjointree.c:nip_distribute_evidence"]}
{"id": "C33", "title": "Exact marginals", "statement": "After make_consistent every clique table equals the marginal of the joint distribution represented by the model, so that get_probability returns the exact normalised posterior of the variable.", "quantifier": "all join trees with running intersection, all evidence, all variables", "why_tests_cant": "the exactness theorem of join tree inference; tests compare a few numbers", "anchors": ["src/nip.c:make_consistent", "src/nip.c:get_probability", "src/nipjointree.c:nip_marginalise_clique"]}
{"id": "C34", "title": "Evidence multiplies the joint", "statement": "Entering evidence for a variable replaces that variable's earlier evidence: the joint afterwards is the original model (and priors in use) multiplied by the latest likelihood of every variable, whatever was entered before and in whatever order.", "quantifier": "all sequences of insert_hard_evidence / insert_soft_evidence calls", "why_tests_cant": "history property over all sequences of calls", "anchors": ["src/nipjointree.c:nip_enter_evidence", "src/nipjointree.c:nip_global_retraction", "src/nip.c:insert_hard_evidence", "src/nip.c:insert_soft_evidence"]}
{"id": "C35", "title": "reset_model forgets everything", "statement": "After reset_model the model represents its original joint distribution without evidence and priors, independently of everything done to it before.", "quantifier": "all histories of evidence, priors and propagation", "why_tests_cant": "history property", "anchors": ["src/nip.c:reset_model", "src/nipjointree.c:nip_global_retraction"]}
{"id": "C36", "title": "Priors are used exactly once", "statement": "use_priors multiplies the prior of every parentless variable (except interface variables of the previous slice when has_history is set) into the joint exactly once, and calling it again changes nothing until the next reset.", "quantifier": "all models and numbers of calls", "why_tests_cant": "history property", "anchors": ["src/nip.c:use_priors", "src/nipjointree.c:nip_enter_prior"]}
{"id": "C37", "title": "Probability mass is the normalising constant", "statement": "After make_consistent, model_prob_mass returns the sum of the joint over all assignments; the ratio of the masses after and before entering evidence is the probability of the evidence.", "quantifier": "all models and evidence", "why_tests_cant": "the sum over cliques minus the sum over sepsets must collapse for every tree", "anchors": ["src/nip.c:model_prob_mass", "src/nipjointree.c:nip_probability_mass"]}
{"id": "C38", "title": "get_probability returns a distribution", "statement": "get_probability returns one number per state; they are non-negative and sum to one unless the evidence is impossible, in which case all are zero.", "quantifier": "all models, variables and evidence", "why_tests_cant": "universal over states of the model", "anchors": ["src/nip.c:get_probability"]}
{"id": "C39", "title": "Joint posterior of several variables", "statement": "get_joint_probability returns the exact normalised joint posterior of the given variables, dimensions in the given order, whichever cliques contain them.", "quantifier": "all trees and variable sets", "why_tests_cant": "depends on where the variables are in the tree", "anchors": ["src/nip.c:get_joint_probability", "src/nipjointree.c:nip_gather_joint_probability"]}
{"id": "C40", "title": "Forward inference is exact filtering", "statement": "forward_inference returns for each time step and variable the posterior given the evidence up to that step in the model unrolled over time.", "quantifier": "all models, series lengths and data, including missing values", "why_tests_cant": "induction over the length of the series", "anchors": ["src/nip.c:forward_inference", "src/nip.c:start_timeslice_message_pass", "src/nip.c:finish_timeslice_message_pass"]}
{"id": "C41", "title": "Forward-backward inference is exact smoothing", "statement": "forward_backward_inference returns for each time step and variable the posterior given all evidence of the series in the unrolled model.", "quantifier": "all models, series lengths and data", "why_tests_cant": "induction over the length of the series in both directions", "anchors": ["src/nip.c:forward_backward_inference"]}
{"id": "C42", "title": "Inference results do not depend on earlier use of the model", "statement": "forward_inference and forward_backward_inference give the same results whatever evidence was in the model before, and use only the evidence of marked variables.", "quantifier": "all histories before the call", "why_tests_cant": "history property", "anchors": ["src/nip.c:forward_inference", "src/nip.c:insert_ts_step"]}
{"id": "C43", "title": "The M-step installs valid conditional distributions", "statement": "After the maximisation step the model's joint is the product of the normalised parameter tables of the variables with parents, the priors are the normalised tables of the others, and every column sums to one.", "quantifier": "all models and all expected counts", "why_tests_cant": "universal over models", "anchors": ["src/nip.c:m_step", "src/nip.c:total_reset"]}
{"id": "C44", "title": "Learning stops as specified", "statement": "em_learn performs at least 3 and at most max(3, max_iterations) iterations, reports DELTA exactly if the last improvement was at most threshold per time step and ITERATIONS if the limit was reached while still improving, appends one value per iteration to the learning curve, and returns BAD_LUCK as soon as the likelihood drops by more than the threshold.", "quantifier": "all sequences of likelihood values the E-step may produce", "why_tests_cant": "all executions of the loop", "anchors": ["src/nip.c:em_learn"]}
{"id": "C45", "title": "Sampling draws by inverse transform", "statement": "lottery returns the first index whose cumulative probability reaches the random number, always inside the range; over the random numbers the state i is chosen on an interval of length distribution[i].", "quantifier": "all distributions and random numbers", "why_tests_cant": "universal over random numbers", "anchors": ["src/nip.c:lottery"]}
{"id": "C46", "title": "Sampling never draws an impossible state", "statement": "lottery never returns a state of probability zero for a distribution that sums to one.", "quantifier": "all distributions and all values of rand()", "why_tests_cant": "the failing random number is one in RAND_MAX", "anchors": ["src/nip.c:lottery"]}
{"id": "C47", "title": "Samples respect parents first", "statement": "generate_data orders the variables such that parents precede children, each variable once, for every acyclic model, and writes for every step a valid state for every variable.", "quantifier": "all acyclic models and lengths", "why_tests_cant": "termination for every graph", "anchors": ["src/nip.c:generate_data"]}
{"id": "C48", "title": "Time series survive writing and reading", "statement": "Reading a file written by write_timeseries gives the same number of series, lengths, observed variables and states, missing values staying missing.", "quantifier": "all models with plain names, all time series sets", "why_tests_cant": "round trip over all data", "anchors": ["src/nip.c:write_timeseries", "src/nip.c:read_timeseries", "src/nipparsers.c:nip_analyse_data_file", "src/nipparsers.c:nip_next_line_tokens"]}
{"id": "C49", "title": "Tokeniser finds what the counter counts", "statement": "nip_tokenise with the number of tokens reported by nip_count_tokens succeeds and returns that many intervals that are inside the string, ordered and disjoint; no write leaves the index array.", "quantifier": "all strings, separators and flags", "why_tests_cant": "memory safety over all strings", "anchors": ["src/nipstring.c:nip_count_tokens", "src/nipstring.c:nip_tokenise"]}
{"id": "C50", "title": "Tokens are the separated fields", "statement": "For a line without quotes, nip_tokenise and nip_split with a separator return exactly the non-empty pieces between separators (and white space if requested).", "quantifier": "all lines", "why_tests_cant": "universal over strings", "anchors": ["src/nipstring.c:nip_tokenise", "src/nipstring.c:nip_split"]}
{"id": "C51", "title": "Linked lists behave as sequences", "statement": "Appending, prepending, converting to an array and emptying the linked lists agrees with the same operations on sequences, the stored length is the number of elements and forward and backward links agree.", "quantifier": "all sequences of operations", "why_tests_cant": "history property over pointer structures", "anchors": ["src/niplists.c", "src/nipvariable.c:nip_append_variable", "src/nipjointree.c:nip_append_potential"]}
{"id": "C52", "title": "Subset search over clique lists", "statement": "nip_int_array_list_contains_subset answers yes exactly if the given set of variables is contained in one of the sets in the list.", "quantifier": "all lists and sets", "why_tests_cant": "universal", "anchors": ["src/niplists.c:nip_int_array_list_contains_subset"]}
{"id": "C53", "title": "Error bookkeeping", "statement": "nip_check_error_counter is the number of errors reported since the last reset and nip_check_error_type the code of the latest one.", "quantifier": "all histories of reports and resets", "why_tests_cant": "history property", "anchors": ["src/niperrorhandler.c"]}
{"id": "C54", "title": "Time slice interface classification", "statement": "After parsing, a variable is in the previous outgoing interface exactly if it has a successor in the next slice and a child in the model; its successor is then in the outgoing interface; a variable is in the incoming interface exactly if it has such a parent or is a current-slice co-parent of one.", "quantifier": "all networks and NIP_next declarations", "why_tests_cant": "universal over graphs", "anchors": ["src/huginnet.y:interface_to_vars"]}
{"id": "C55", "title": "Observations in a time series", "statement": "set_observation followed by get_observation returns the observation, other entries are unchanged, and out-of-range requests are rejected without touching memory outside the series.", "quantifier": "all series, variables, times and state names", "why_tests_cant": "universal, including invalid times and missing entries", "anchors": ["src/nip.c:set_observation", "src/nip.c:get_observation", "src/nip.c:get_posterior"]}
{"id": "C56", "title": "Expected counts", "statement": "One E-step over a series adds to the parameter table of every variable, for each step in which it is counted, exactly the posterior joint distribution of its family given the whole series.", "quantifier": "all models, series and data", "why_tests_cant": "induction over the series", "anchors": ["src/nip.c:e_step"]}
{"id": "C57", "title": "Family lookup and mapping", "statement": "nip_find_family returns a clique containing the variable and all its parents whenever one exists, the same one at every call, and nip_find_family_mapping gives the positions of child and parents in that clique.", "quantifier": "all clique arrays and variables", "why_tests_cant": "universal, including memoised calls", "anchors": ["src/nipjointree.c:nip_find_family", "src/nipjointree.c:nip_find_family_mapping", "src/nipjointree.c:nip_find_clique"]}
{"id": "C58", "title": "Learning never lowers the likelihood", "statement": "The likelihood of the data under the model never decreases from one iteration of em_learn to the next.", "quantifier": "all models, data and initial parameters", "why_tests_cant": "universal over data; the code treats a drop as an error that aborts learning", "anchors": ["src/nip.c:em_learn", "src/nip.c:e_step", "src/nip.c:m_step"]}
{"id": "C59", "title": "Learning without random initialisation continues from the model", "statement": "em_learn without random initial parameters starts from the parameters of the given model: the likelihood of the first iteration is the likelihood of the data under the given model.", "quantifier": "all models and data", "why_tests_cant": "universal over models; the loss of the priors is hidden by later iterations", "anchors": ["src/nip.c:em_learn"]}
{"id": "C60", "title": "A graph has exactly the nodes and arcs that were added", "statement": "After adding distinct variables to a new graph of that size and then arcs between them, no call fails and the graph has an arc from u to v exactly if it was added, whatever the order of the variables and their identifiers.", "quantifier": "all lists of distinct variables and all lists of arcs between them", "why_tests_cant": "universal over identifiers and orders; the index from identifiers to positions is built lazily", "anchors": ["src/nipgraph.c:nip_new_graph", "src/nipgraph.c:nip_graph_add_node", "src/nipgraph.c:nip_graph_add_child", "src/nipgraph.c:nip_graph_index"]}
{"id": "C61", "title": "A proper NET file becomes a proper model", "statement": "parse_model on a file with proper declarations returns a model whose variables have the declared names, states and parents and no evidence, whose cliques form a join tree with the running intersection property covering every family and both interfaces, whose parentless variables have the declared priors, and whose time slice interfaces are those declared with NIP_next.", "quantifier": "all proper files, all elimination orders", "why_tests_cant": "universal over files; the well-formedness it establishes is what all inference theorems assume", "anchors": ["src/nip.c:parse_model", "src/huginnet.y:input", "src/huginnet.y:nodeDeclaration", "src/huginnet.y:potentialDeclaration", "src/huginnet.y:parsed_vars_to_graph", "src/huginnet.y:parsed_potentials_to_jtree"]}
{"id": "C62", "title": "Parsed models are ready for learning", "statement": "A model parsed from an acyclic file in which the variables of the previous slice are parentless meets all conditions under which learning and sampling are correct; if every node is declared before its parents its slices are conditional distributions.", "quantifier": "all acyclic two-slice files", "why_tests_cant": "universal over files", "anchors": ["src/nip.c:parse_model", "src/nip.c:em_learn"]}
{"id": "C63", "title": "Files can be read one after another", "statement": "After parse_model has succeeded, parse_model can read another proper file in the same process.", "quantifier": "all pairs of proper files", "why_tests_cant": "use of freed memory may go unnoticed in a test", "anchors": ["src/nip.c:parse_model", "src/huginnet.y:nip_parsed_vars", "src/huginnet.y:get_parsed_variables"]}
{"id": "C64", "title": "Labels are optional", "statement": "A node declaration without a label is read whatever the nodes before it contain.", "quantifier": "all files", "why_tests_cant": "use of freed memory may go unnoticed in a test", "anchors": ["src/huginnet.y:nodeDeclaration"]}
{"id": "C65", "title": "From file to posterior", "statement": "Parsing a file in which every node is declared before its parents, entering the priors, inserting observations by name and propagating, get_probability returns for every variable the conditional probability of its states given the observations under the product of the distributions in the file, and model_prob_mass the probability of the observations.", "quantifier": "all such files, all consistent sets of observations, all elimination orders", "why_tests_cant": "end-to-end exactness over all networks and data", "anchors": ["src/nip.c:parse_model", "src/nip.c:use_priors", "src/nip.c:insert_hard_evidence", "src/nip.c:make_consistent", "src/nip.c:get_probability", "src/nip.c:model_prob_mass"]}
{"id": "C66", "title": "Quoted strings are single tokens", "statement": "With quoted strings recognised, nip_tokenise and nip_count_tokens treat every quoted string, with the quotes, as one token whatever it contains; outside of quotes the separators and words are the tokens, in order.", "quantifier": "all strings and all sets of separators", "why_tests_cant": "all contents of the quoted strings and all contexts", "anchors": ["src/nipstring.c:nip_count_tokens", "src/nipstring.c:nip_tokenise", "src/nipparsers.c:nip_next_hugin_token"]}
{"id": "C67", "title": "Data files are read as tables", "statement": "read_timeseries returns one series for every block of consecutive data lines after the header; its observed variables are the columns that name variables of the model, its length is the number of lines, and each datum is the state named in its field, or missing if the field is missing or names no state.", "quantifier": "all models and all files of text whose lines fit the buffer", "why_tests_cant": "all layouts of blank lines, columns and fields", "anchors": ["src/nip.c:read_timeseries", "src/nipparsers.c:nip_analyse_data_file", "src/nipparsers.c:nip_count_data_rows", "src/nipparsers.c:nip_next_line_tokens"]}
{"id": "C68", "title": "Analysis of data files", "statement": "nip_analyse_data_file finds the number of series, the number of lines of each, the names of the columns (made up if the file has no header) and for every column the set of distinct values that do not stand for missing data.", "quantifier": "all files of text whose lines fit the buffer, all separators", "why_tests_cant": "all layouts of blank lines, columns and values", "anchors": ["src/nipparsers.c:nip_analyse_data_file", "src/nipparsers.c:nip_accumulate_state_names", "src/nipparsers.c:nip_set_node_symbols", "src/nipparsers.c:nip_null_observation"]}
{"id": "C69", "title": "NET files are read as what they declare", "statement": "parse_model on a file builds the model of the declarations that the text spells, whatever the white space, line breaks, comments, order of the fields inside a declaration, notation of numbers (sign, decimal point, exponent) and nesting of the parentheses around data; with C65, the posteriors are those of the product of the tables in the text.", "quantifier": "all texts of NET files whose lines fit the buffer", "why_tests_cant": "unboundedly many layouts and sizes of files", "anchors": ["src/nipparsers.c:nip_next_hugin_token", "src/huginnet.y:yylex", "src/huginnet.y:input", "src/nip.c:parse_model"]}
{"id": "C70", "title": "Identifiers can be symbols", "statement": "Any identifier (letter or underscore followed by letters, digits and underscores) of at most 40 characters can be the symbol of a node.", "quantifier": "all identifiers and all layouts of the file", "why_tests_cant": "the classification of tokens depends on keywords and on prefixes that strtod accepts", "anchors": ["src/huginnet.y:yylex", "src/nipvariable.c:nip_new_variable"]}
{"id": "C71", "title": "Only NET files are accepted", "statement": "If parse_model returns a model, the text spells declarations according to the grammar and the model is the one of these declarations; other texts are rejected by returning NULL.", "quantifier": "all texts whose lines fit the buffer", "why_tests_cant": "all malformed texts", "anchors": ["src/huginnet.y:input", "src/huginnet.y:yylex", "src/nipparsers.c:nip_next_hugin_token", "src/nip.c:parse_model"]}
{"id": "C72", "title": "Models are written as NET files", "statement": "write_model writes a text that is a NET file according to the grammar, with the symbols, states, labels, positions, slices and parents of the model and its distributions rounded to six decimals; it resets the model and changes nothing else; it reports EIO if the file cannot be opened or closed. The declarations are proper ones, so that parse_model can read them.", "quantifier": "all models with names that can be quoted, any number of variables, states and parents", "why_tests_cant": "line breaks, comments and parentheses between the values depend on the numbers of states and parents, the values on the order of the variables in the cliques", "anchors": ["src/nip.c:write_model"]}
{"id": "C73", "title": "Reading and writing are inverse", "statement": "A file that was read by parse_model and written by write_model declares the same variables with the same states, labels, positions, slices and parents and the same distributions rounded to six decimals; it can be read again and, if the distributions have six decimals, gives the same joint distribution.", "quantifier": "all proper files, all states", "why_tests_cant": "all networks and tables, including those with zeros", "anchors": ["src/nip.c:write_model", "src/nip.c:parse_model"]}
{"id": "C74", "title": "Files of distributions", "statement": "write_uncertainseries writes a header line with the names of the states of the variable, and for each series one line per step with the probabilities of its states rounded to six decimals, followed by an empty line. If the variable is missing from one of the series it reports EINVAL before any file is opened; it reports EIO if the file cannot be opened or closed.", "quantifier": "all sets of uncertain series of any length, any variable and any number of states, any position of the variable in each series", "why_tests_cant": "the position of the variable differs from series to series; all probabilities and lengths", "anchors": ["src/nip.c:write_uncertainseries"]}
{"id": "C75", "title": "nipinference from file to file", "statement": "Given the text of a proper NET file and of a data file, nipinference writes the file with the probability of each state of the asked variable at each step of each series, given all records of the series, in the process that the NET file declares; the likelihoods it computes are those of the records. An unknown variable, a data file without series or an unreadable one give status -1 and no output; the status tells whether the results were written.", "quantifier": "all proper NET files, data files, variables and series of any number and length", "why_tests_cant": "composition of the lexer, grammar, graph construction, join tree, smoothing and printing over all networks and data", "anchors": ["util/nipinference.c:main"]}
{"id": "C76", "title": "nipmap from file to file", "statement": "Given the text of a proper NET file and of a data file, nipmap writes for each step and each variable without a column in the data file the name of its most probable state given all records (the first one of equally probable ones). If all variables have columns, the status is -1.", "quantifier": "all proper NET files, data files and series of any number and length", "why_tests_cant": "all networks, ties between states, all data", "anchors": ["util/nipmap.c:main"]}
{"id": "C77", "title": "nipnext from files to numbers", "statement": "nipnext prints a line with the names of the states of the asked variable and for each series a line with the logarithms of the probabilities of its states at the last step given all records.", "quantifier": "all proper NET files, data files, variables and series of any number and length; whatever text log() and %g give for a number", "why_tests_cant": "filtering over series of any length in any network", "anchors": ["util/nipnext.c:main"]}
{"id": "C78", "title": "nipconvert from file to file", "statement": "nipconvert writes, for the variable of the first known column, one column for each of its states, with 1 at the state of the record and 0 elsewhere, zeros for missing data, with an empty line after each series. Its status tells whether the file was written.", "quantifier": "all proper NET files, data files and series of any number and length", "why_tests_cant": "all arrangements of columns and missing data", "anchors": ["util/nipconvert.c:main", "util/nipconvert.c:write_unary_timeseries"]}
{"id": "C79", "title": "niplikelihood from files to numbers", "statement": "niplikelihood reads a NET file and a data file and, for every step of every series, computes the probability of the record without the asked variables and of the whole record, by the tables of the file; the product of the quotients is the probability of the asked data given the other data of the series.", "quantifier": "all proper NET files, data files, lists of asked names and series of any number and length", "why_tests_cant": "inference in any network over series of any length; the claim about the series can only be judged against a definition of the process", "anchors": ["util/niplikelihood.c:main", "src/nip.c:insert_ts_step", "src/nip.c:model_prob_mass"]}
{"id": "C80", "title": "nipsample from file to file", "statement": "nipsample writes a data file which reads back as the asked number of series of the asked length, without missing values; each series is drawn step by step, parents before children, each variable from its distribution given everything drawn before, and is possible in the process of the NET file.", "quantifier": "all proper NET files with plain names, all counts and lengths, all sequences of random numbers", "why_tests_cant": "a claim about all random sequences and all networks; correctness of a draw needs the distribution over whole series", "anchors": ["util/nipsample.c:main", "src/nip.c:generate_data", "src/nip.c:write_timeseries", "src/nip.c:lottery"]}
{"id": "C81", "title": "niptrain from file to file", "statement": "Whenever niptrain ends, it returns 0 and has written a NET file of the same network whose tables are distributions without zeros, give the data at least the mean log-likelihood asked for, and result from at least three rounds of expectation maximisation started from random (or the given) tables; the learning curve it prints ends with the probability of the data under these tables; the written file is readable and carries the tables rounded to six decimals. The loop over batches of iterations always ends.", "quantifier": "all proper NET files with printable texts, all data files with at least one series and a known column, all positive random numbers, all thresholds and iteration limits", "why_tests_cant": "quantifies over all random starting tables, thresholds, networks and data; the number of batches and runs is unbounded", "anchors": ["util/niptrain.c:main", "src/nip.c:em_learn", "src/nip.c:write_model"]}
{"id": "C82", "title": "Models own their memory", "statement": "Whatever variables and cliques a program creates, connects by sepsets and frees, in whatever order, no memory is freed twice or used after it was freed; the list of sepsets of every clique leads exactly to the cliques it is connected to at present; and once all of them are freed (one by one, or by free_model in whatever order the model lists them) nothing is allocated any more. Variables need names of states, and a clique must not be connected to itself: otherwise freeing is undefined.", "quantifier": "all sequences of creating, connecting and freeing variables and cliques, all numbers and sizes of them", "why_tests_cant": "orders of creation and release are unbounded, and sepsets are shared between the lists of two cliques; a leak or a use after free does not show in the results", "anchors": ["src/nipjointree.c:nip_new_clique", "src/nipjointree.c:nip_free_clique", "src/nipjointree.c:nip_new_sepset", "src/nipjointree.c:nip_confirm_sepset", "src/nipjointree.c:nip_remove_sepset", "src/nipjointree.c:nip_free_sepset", "src/nipvariable.c:nip_new_variable", "src/nipvariable.c:nip_free_variable", "src/nipvariable.c:nip_set_parents", "src/nipvariable.c:nip_set_prior", "src/nippotential.c:nip_free_potential", "src/nip.c:free_model"]}
{"id": "C83", "title": "Series own their memory", "statement": "Time series and uncertain series that are created, used beside models, and freed in whatever order are neither freed twice nor used after being freed, and after freeing everything nothing is allocated any more.", "quantifier": "all sequences of creating and freeing series, results, variables and cliques, all lengths and numbers of variables", "why_tests_cant": "orders and sizes are unbounded; a leak or a use after free does not show in the results", "anchors": ["src/nip.c:read_timeseries", "src/nip.c:generate_data", "src/nip.c:free_timeseries", "src/nip.c:forward_inference", "src/nip.c:forward_backward_inference", "src/nip.c:free_uncertainseries"]}
{"id": "C84", "title": "Learning climbs the posterior", "statement": "Whatever the model, the random start and the data, no round of learning lowers the probability of the data times the product of all numbers in the tables (the posterior for which one is added to each expected count). The values of the learning curve are the probabilities of the data by tables that climb in this way, from the random tables to those of the resulting model, and niptrain writes the last of them.", "quantifier": "all networks, data sets with missing values, random tables, thresholds and numbers of iterations", "why_tests_cant": "that a fixed point iteration climbs is a statement about sums over all courses of all variables; a wrong count in one place may still climb on a few examples", "anchors": ["src/nip.c:em_learn", "src/nip.c:e_step", "src/nip.c:m_step", "util/niptrain.c:main"]}
{"id": "C85", "title": "nipjoint prints the joint posterior", "statement": "nipjoint prints one line for every combination of states of the variables that were asked for (by symbol; without symbols those missing from the data; otherwise the first column), with the probability of the combination given the first record of the data by the tables of the NET file, and the probability of that record. An unknown symbol or data without a series ends it with -1. It releases what it allocated exactly once.", "quantifier": "all NET files, data files and lists of symbols", "why_tests_cant": "the printed numbers are quotients of sums over all assignments, for any network and any choice of variables; and a double free often goes unnoticed", "anchors": ["util/nipjoint.c:main", "src/nippotential.c:nip_fprintf_potential", "src/nip.c:get_joint_probability", "src/nip.c:insert_ts_step", "src/nip.c:free_timeseries"]}
{"id": "C86", "title": "Rounding errors stay small", "statement": "With arithmetic that rounds every addition, multiplication and division with a relative error of at most u (in the format double: 2^-53), the probabilities that get_probability returns after any history of evidence, priors, resets, propagation and queries differ from the exact ones only by as many factors between 1-u and 1/(1-u) as an explicit count, linear in the number of calls and in the size of the tree. What is impossible gets exactly zero and what is possible a positive number. The same holds of the joint that the tree represents and of all cliques after propagation.", "quantifier": "all models, all histories of calls, all ways of rounding (round to nearest among them) in which no overflow or subnormal number occurs", "why_tests_cant": "errors accumulate over unboundedly many operations and depend on all numbers in the tables; tests compare with a tolerance for a few inputs", "anchors": ["src/nip.c:get_probability", "src/nip.c:insert_hard_evidence", "src/nip.c:insert_soft_evidence", "src/nip.c:make_consistent", "src/nipjointree.c:nip_message_pass", "src/nipjointree.c:nip_enter_evidence", "src/nipjointree.c:nip_global_retraction", "src/nippotential.c:nip_update_potential", "src/nippotential.c:nip_general_marginalise", "src/nippotential.c:nip_normalise_array"]}
{"id": "C87", "title": "Rounding errors over time grow linearly", "statement": "With arithmetic that rounds every addition, multiplication and division with a relative error of at most u, the distributions that forward_inference and forward_backward_inference write for a series differ from the exact filtered and smoothed posteriors of the unrolled model only by as many factors between 1-u and 1/(1-u) as an explicit count that is linear in the number of time steps and in the size of the tree: the scaling of the messages between slices and the division of the backward message by the forward message do not amplify errors. What is impossible gets exactly zero and what is possible a positive number. If no operation overflows or becomes subnormal, both functions run to the end.", "quantifier": "all models for time slices in any state, all series including missing values (in a model without links between the slices: all possible ones), all variables of interest, all ways of rounding in which no overflow or subnormal number occurs", "why_tests_cant": "the error of a step enters the next one, so the claim is about unboundedly many steps; tests compare short series with a tolerance", "anchors": ["src/nip.c:forward_inference", "src/nip.c:forward_backward_inference", "src/nip.c:start_timeslice_message_pass", "src/nip.c:finish_timeslice_message_pass", "src/nip.c:insert_ts_step", "src/nip.c:reset_model", "src/nip.c:use_priors", "src/nippotential.c:nip_update_potential", "src/nippotential.c:nip_normalise_potential"]}
{"id": "C88", "title": "Rounding in the E-step of learning", "statement": "With arithmetic that rounds every addition, multiplication and division with a relative error of at most u, the E-step of em_learn (e_step) either reports bad luck and leaves the counts as they were, or it adds to every count the expected number of times that the states of a variable and its parents occurred, given the series, up to as many factors between 1-u and 1/(1-u) as an explicit count that is linear in the length of the series times the size of the tree per step. Data of probability zero are always reported as bad luck, and data of positive probability are counted. If nothing overflows or becomes subnormal, the function runs to the end.", "quantifier": "all models for time slices, all series including missing values, all counts so far, all ways of rounding in which no overflow or subnormal number occurs, whatever log() computes", "why_tests_cant": "the error depends on the rounding of every operation in every step of series of any length; whether the sign of a log-likelihood near zero comes out positive depends on single bits", "anchors": ["src/nip.c:e_step", "src/nip.c:start_timeslice_message_pass", "src/nip.c:finish_timeslice_message_pass", "src/nip.c:insert_ts_step", "src/nippotential.c:nip_general_marginalise", "src/nippotential.c:nip_normalise_potential", "src/nippotential.c:nip_update_potential", "src/nippotential.c:nip_sum_potential"]}
{"id": "C89", "title": "Reading data files releases what it takes", "statement": "read_timeseries uses no memory that is not allocated, frees nothing twice and changes nothing that was in memory before. What it leaves behind is one series for each block of lines and the array of them: once the caller has freed these, exactly the same memory is allocated as before the call. The same holds for nip_open_data_file, nip_analyse_data_file and nip_close_data_file, with and without a header and for any separator; for a file of blank lines; and a file that cannot be opened leaves nothing behind.", "quantifier": "all files of characters whose lines fit the buffer, with any number of columns, lines and series, in which no variable has two columns; all models with named variables; all contents of the memory before", "why_tests_cant": "whether a list of names, a copied token or an array is lost depends on the numbers of columns, distinct values, missing values, blank and short lines in the file; a leak or a use of freed memory need not show in the output", "anchors": ["src/nip.c:read_timeseries", "src/nip.c:free_timeseries", "src/nipparsers.c:nip_open_data_file", "src/nipparsers.c:nip_analyse_data_file", "src/nipparsers.c:nip_set_node_symbols", "src/nipparsers.c:nip_accumulate_state_names", "src/nipparsers.c:nip_next_line_tokens", "src/nipparsers.c:nip_close_data_file", "src/nipparsers.c:nip_free_data_file", "src/niplists.c:nip_prepend_string", "src/niplists.c:nip_string_list_to_array", "src/niplists.c:nip_empty_string_list"]}
{"id": "C90", "title": "Rounding in learning", "statement": "With arithmetic that rounds every addition, multiplication and division with a relative error of at most u, em_learn returns a model that differs from the one installed by exact rounds of learning (exact expected counts, exact conditional distributions, from the same first parameters) by an explicit number of factors between 1-u and 1/(1-u) in every prior, every original clique table and their product, whether it reports success or bad luck. The number of rounds is that of the entries added to the learning curve, and learning stops when the last likelihood is worse than the one before (an error), or, after at least three rounds, does not improve on it or the limit of iterations is reached. If nothing overflows or becomes subnormal, learning ends, and it succeeds if it does without rounding.", "quantifier": "all models for time slices, all sets of series including missing values, random first parameters and those of the model, all limits of iterations and numbers of rounds, all ways of rounding in which no overflow or subnormal number occurs, whatever log() computes", "why_tests_cant": "the error of a round enters the next one, and the error depends on the rounding of every operation in every step of every series; tests compare a few runs with a tolerance that nothing justifies", "anchors": ["src/nip.c:em_learn", "src/nip.c:m_step", "src/nip.c:e_step", "src/nippotential.c:nip_normalise_cpd", "src/nippotential.c:nip_init_potential", "src/nippotential.c:nip_general_marginalise", "src/nip.c:total_reset"]}
{"id": "C91", "title": "Building a join tree leaves nothing behind", "statement": "Building a graph, computing its join tree (nip_graph_to_cliques) and freeing the graph uses no memory that is not allocated and frees nothing twice, whatever variables and cliques there were before. What is in memory then are the cliques and sepsets of the tree and the array of the cliques: every clique points to its neighbours in the tree, and all later uses and releases of cliques and variables work as if the tree had been made by creating the cliques and connecting them one by one. Once all cliques, the variables and the array are freed, nothing is allocated any more.", "quantifier": "all programs that make variables and cliques before and after, all graphs of existing variables without loops, all cost functions, all cardinalities and interfaces", "why_tests_cant": "which candidates for sepsets are taken from the heap and turned down, and how often the heap and its lists grow, depends on the graph; a lost candidate has no effect on any result", "anchors": ["src/nipgraph.c:nip_graph_to_cliques", "src/nipgraph.c:nip_create_sepsets", "src/nipgraph.c:nip_triangulate_graph", "src/nipgraph.c:nip_moralise_graph", "src/nipgraph.c:nip_add_interface_edges", "src/nipgraph.c:nip_make_graph_undirected", "src/nipgraph.c:nip_new_graph", "src/nipgraph.c:nip_free_graph", "src/nipgraph.c:nip_build_cluster_heap", "src/nipgraph.c:nip_build_sepset_heap", "src/nipheap.c:nip_heap_extract_min", "src/nipheap.c:nip_free_heap", "src/niplists.c:nip_empty_int_list"]}
{"id": "C92", "title": "Parsing a model and freeing it leaves nothing behind", "statement": "Parsing a proper network file with parse_model and freeing the model with free_model uses no memory that is not allocated and frees nothing twice. The model is the one that the file describes. After that nothing is allocated any more: not the strings, lists, arrays, tables, the graph and the join tree that the parser makes on the way, and not the variables and cliques of the model.", "quantifier": "all proper files: any numbers of nodes, states and tables, nodes with their fields in any order and any number, all cost functions", "why_tests_cant": "a lost block has no effect on any result; which blocks are made depends on the fields of each node, the shapes of the tables and the graph", "anchors": ["src/nip.c:parse_model", "src/nip.c:free_model", "src/huginnet.y:nodeDeclaration", "src/huginnet.y:potentialDeclaration", "src/huginnet.y:statesDeclaration", "src/huginnet.y:parsed_vars_to_graph", "src/huginnet.y:parsed_potentials_to_jtree", "src/huginnet.y:interface_to_vars", "src/nipvariable.c:nip_new_variable", "src/nipvariable.c:nip_set_parents", "src/nipjointree.c:nip_append_potential", "src/niplists.c:nip_append_string"]}
{"id": "C93", "title": "nipbenchmark predicts each series from the others", "statement": "Whenever nipbenchmark ends for a proper network and a data file of at least two series, it returns 0 and has written, for every series and every step, the probabilities of the states of the chosen variable: those according to tables that were learned from the other series alone (at least three and at most 1024 rounds of expectation maximisation from random tables, stopped when the likelihood does not grow by the threshold any more, with at least the likelihood asked for), given all records of that series except those of the variable itself. Fewer than two series, an invalid number or an unknown variable give status -1 and no file. It always ends.", "quantifier": "all proper NET files, all data files with any number and length of series, all variables, positive random numbers, thresholds and minimum likelihoods", "why_tests_cant": "whether a prediction has seen the value to be predicted, or a series it should not have learned from, does not show in the output; quantifies over all random tables, networks and data", "anchors": ["util/nipbenchmark.c:main", "src/nip.c:em_learn", "src/nip.c:forward_backward_inference", "src/nip.c:write_uncertainseries"]}
{"id": "C94", "title": "Inference, learning and sampling leave no memory behind", "statement": "In a program that creates, connects and frees variables, cliques, series and results, and in between filters and smooths series, learns from them and draws new ones, no memory that is not allocated is used and nothing is freed twice. Learning, however it ends (success, bad luck, an error), leaves memory as it was, except that variables may have got their family mapping, which is freed with them. Inference and sampling change nothing that was allocated before, and freeing their result with free_uncertainseries or free_timeseries gives the memory before the call. When everything has been freed, nothing is allocated.", "quantifier": "all such programs, with any numbers of variables, interface variables, series, time steps and iterations, and all ways in which learning can end at any step", "why_tests_cant": "a lost block has no effect on any result; the ways out of learning are many and depend on numbers", "anchors": ["src/nip.c:forward_inference", "src/nip.c:forward_backward_inference", "src/nip.c:em_learn", "src/nip.c:e_step", "src/nip.c:m_step", "src/nip.c:get_probability", "src/nip.c:generate_data", "src/nip.c:free_timeseries", "src/nip.c:free_uncertainseries", "src/nipjointree.c:nip_find_family_mapping"]}
{"id": "C95", "title": "Programs free what they allocate", "statement": "The programs nipinference, nipnext, nipmap, niplikelihood, nipsample and niptrain, started with a proper network file and a data file that can be read or is missing, never use memory that is not allocated, free nothing twice, and have freed everything they allocated when main returns, on success as well as in the cases that they handle: an unknown variable, an output that cannot be written, unusable numbers, empty data, learning that has bad luck or fails in some run. Exceptions: what parsing leaves (C92), an empty array if the data file has no series, and nipmap, which frees nothing if its output cannot be closed.", "quantifier": "all proper network files, all data files that can be read, all symbols, numbers of series, time steps, runs, batches and iterations, and all ways in which files fail to open and learning ends", "why_tests_cant": "lost blocks have no effect on the output; the combinations of files, failures and ways out of learning are unbounded", "anchors": ["util/nipinference.c:main", "util/nipnext.c:main", "util/nipmap.c:main", "util/niplikelihood.c:main", "util/nipsample.c:main", "util/niptrain.c:main", "src/nip.c:parse_model", "src/nip.c:read_timeseries", "src/nip.c:write_model", "src/nip.c:write_timeseries", "src/nip.c:write_uncertainseries", "src/nip.c:free_model", "src/nip.c:free_timeseries", "src/nip.c:free_uncertainseries"]}
{"id": "C96", "title": "Memory of nipbenchmark and nipconvert", "statement": "nipbenchmark and nipconvert, started with a proper network file and a data file that can be read or is missing, never use memory that is not allocated and free nothing twice. nipconvert has freed everything it allocated when main returns, whatever the formats are and whether or not the output can be opened. So has nipbenchmark if there are at least two series and learning fails in no round. Exceptions: what parsing leaves (C92), an empty array if the data file has no series; nipbenchmark leaves a single series and its array, and if learning fails in a round it loses the results of all rounds before it.", "quantifier": "all proper network files, all data files that can be read, all symbols, numbers of series, time steps, attempts and iterations, all ways in which learning ends in each round", "why_tests_cant": "lost blocks have no effect on the output; the leave-one-out rounds, the attempts in each and the ways in which they end are unbounded", "anchors": ["util/nipbenchmark.c:main", "util/nipconvert.c:main", "util/nipconvert.c:write_unary_timeseries", "src/nipvariable.c:nip_variable_union", "src/nip.c:em_learn", "src/nip.c:forward_backward_inference", "src/nip.c:write_uncertainseries"]}
{"id": "C97", "title": "Properties of potentials", "statement": "A program may attach pairs of strings to a potential. nip_get_potential_property gives the value that was set last for the key, or NULL if the key was never set; keys are compared as strings, not as addresses. A copy of the potential has the same properties. nip_free_potential frees the strings with the potential, so that nothing is left, nothing is used after it was freed, and nothing is freed twice.", "quantifier": "all sequences of settings and questions, all strings, all dimensions of the potential", "why_tests_cant": "the list of pairs is a doubly linked structure that grows with every setting; that its release visits every link once and no string twice is a matter of its shape, not of examples", "anchors": ["src/nippotential.c:nip_set_potential_property", "src/nippotential.c:nip_get_potential_property", "src/nippotential.c:nip_copy_potential", "src/nippotential.c:nip_free_potential", "src/niplists.c:nip_append_string_pair", "src/niplists.c:nip_string_pair_list_search", "src/niplists.c:nip_free_string_pair_list"]}
{"id": "C98", "title": "Costs of clusters are computed without overflow", "statement": "Building the join tree ranks the clusters (a variable with its neighbours) by the number of edges to add and by the number of configurations, which are values of type int. As long as the tables of the network and of the resulting cliques can be addressed with an int, these costs are computed without signed overflow, and the elimination order is that of the exact costs.", "quantifier": "all graphs, cardinalities, interfaces", "why_tests_cant": "signed overflow is undefined behaviour that does not show in the results of a test; whether it is reached depends on the product of cardinalities of whole neighbourhoods, in every state of the elimination", "anchors": ["src/nipgraph.c:nip_cluster_secondary_cost", "src/nipgraph.c:nip_cluster_primary_cost", "src/nipgraph.c:nip_build_cluster_heap", "src/nipgraph.c:nip_update_cluster_heap", "src/nipgraph.c:nip_triangulate_graph", "src/nipgraph.c:nip_graph_to_cliques", "src/nipheap.c:nip_heap_insert", "src/nipheap.c:nip_set_heap_item"]}
{"id": "C99", "title": "Runs are repeated from their seeds", "statement": "A seed given to nipsample or niptrain is an integer at the beginning of the argument (nipsample rejects others) and alone determines the state of the generator, whatever process and time; a seed that a program prints, given as the argument, repeats the run. Without a seed, one is made up from the process and the time of day without undefined behaviour, and processes started in the same second, or one process at different seconds of a day, get different ones.", "quantifier": "all arguments, process numbers and times of day", "why_tests_cant": "the overflow of an int is undefined and shows in no test; process numbers and clocks are not under a test's control; the space of texts and seeds is infinite", "anchors": ["src/nip.c:random_seed", "util/nipsample.c:main", "util/niptrain.c:main", "util/nipbenchmark.c:main"]}
{"id": "C100", "title": "Memory of joint probabilities and nipjoint", "statement": "Whatever the network, the data and the variables, the computation of a joint probability and the program nipjoint use no memory that is not allocated, free nothing twice, and free everything they allocated (apart from what parsing loses).", "quantifier": "all join trees and courses of the recursion, including errors; all proper NET files, data files and arguments", "why_tests_cant": "leaks and double frees do not show in results; the recursion over the tree and its error paths have unboundedly many courses", "anchors": ["src/nipjointree.c:nip_gather_joint_probability", "src/nip.c:get_joint_probability", "util/nipjoint.c:main"]}
{"id": "C101", "title": "Numbers given as arguments of programs", "statement": "nipsample generates exactly as many time series, of exactly as many steps, as its arguments say; arguments that are no numbers or not between 1 and 1000000 are rejected without output. niptrain and nipbenchmark accept exactly thresholds above 0 up to 1 and lowest log-likelihoods below 0.", "quantifier": "all texts of arguments, all network files, seeds, processes and times", "why_tests_cant": "arguments are arbitrary texts (signs, fractions, exponents, infinities, NaN); undefined conversions need not show on the machine of the test", "anchors": ["util/nipsample.c:main", "util/niptrain.c:main", "util/nipbenchmark.c:main"]}
{"id": "C102", "title": "A NET file after one that could not be read", "statement": "A program that goes on after a NET file was rejected reads the next file exactly as if the rejected one had not been there.", "quantifier": "all rejected files, all places in them at which the parser gives up, all following files", "why_tests_cant": "depends on state hidden between calls: which tokens follow on the line of the error; a test reads a few files, mostly one per process", "anchors": ["src/nipparsers.c:nip_next_hugin_token", "src/huginnet.y:open_net_file", "src/huginnet.y:close_net_file", "src/nip.c:parse_model"]}
{"id": "C103", "title": "Graphs built and asked step by step", "statement": "Variables and children can be added to a graph in any order, with questions in between: nip_graph_linked is true exactly for the pairs added as parent and child, nip_graph_add_child refuses variables that are not in the graph, nip_graph_add_node refuses variables beyond the size of the graph, and nothing refused changes later answers.", "quantifier": "all sizes of graphs and all sequences of nip_graph_add_node (also of the same variable again), nip_graph_add_child and nip_graph_linked", "why_tests_cant": "the index is thrown away and built again depending on the order of calls and on the identifiers; tests add all nodes first and ask about variables of the graph only", "anchors": ["src/nipgraph.c:nip_graph_linked", "src/nipgraph.c:nip_graph_add_node", "src/nipgraph.c:nip_graph_add_child", "src/nipgraph.c:nip_graph_index"]}
{"id": "C104", "title": "No variables left behind by a rejected file", "statement": "The model that parse_model makes of a file has exactly the variables of that file, also if another file was rejected before.", "quantifier": "all files rejected at the start of a node declaration, with any number of node declarations before it, and all following files", "why_tests_cant": "depends on static variables of the parser between calls and on how far the rejected file was read; tests read one file per process", "anchors": ["src/huginnet.y:nodeDeclaration", "src/huginnet.y:nip_parsed_vars", "src/nip.c:parse_model"]}
{"id": "C105", "title": "No memory lost by files that are not accepted", "statement": "parse_model can be called with any number of files that are missing or have an error; nothing undefined happens, and once the variables it left have been freed no memory of these calls is allocated.", "quantifier": "all sequences of calls of parse_model with files that are missing or rejected at the start of a node declaration, with any nodes before it", "why_tests_cant": "lost memory does not change any result, and the number of calls and the contents of the files have no bound", "anchors": ["src/nip.c:parse_model", "src/huginnet.y:open_net_file", "src/huginnet.y:yylex", "src/huginnet.y:nodeDeclaration"]}
{"id": "C106", "title": "A file can be corrected after a potential that is rejected", "statement": "If parse_model rejects a file because a conditional potential has too few numbers or an unknown parent, the file can be corrected and read in the same process: a proper file is accepted then as it is in a new process.", "quantifier": "all proper files, all ways of leaving out numbers or naming an unknown parent in their first conditional potential, and all sequences of corrected files read afterwards", "why_tests_cant": "depends on a static list of the parser between calls and on the sizes of the variables in it; tests read one file per process", "anchors": ["src/huginnet.y:potentialDeclaration", "src/huginnet.y:symbol", "src/huginnet.y:nip_parent_vars", "src/nip.c:parse_model"]}
{"id": "C107", "title": "The size of nodes is that of the file", "statement": "The node size of a model is the last one that the NET file of the model declares, or 80 by 60 if it declares none, whichever files parse_model has read or rejected before.", "quantifier": "all sequences of files, right or wrong, and all proper files read after them", "why_tests_cant": "depends on static variables of the parser between calls; tests read one file per process", "anchors": ["src/huginnet.y:nodeSizeDeclaration", "src/huginnet.y:nip_node_size_x", "src/huginnet.y:get_parsed_node_size", "src/nip.c:parse_model"]}
