{"id": "C01", "title": "and_rec is conjunction", "statement": "After any history without garbage collection in which no call threw (whatever mixture of and, or, xor, ite, rebase, ... it used), and_rec(f,g) on two live handles terminates without assertion failure or undefined behaviour and returns a new handle that evaluates to f(x) && g(x) on every assignment x covering the manager's variables; the only other outcome is the table-size exception of C26.", "quantifier": "all client histories (any number of manager operations and handle creations, copies, assignments and destructions), all operands, all node addresses, hash keys and argument-evaluation orders, asserts on or off", "why_tests_cant": "The result depends on memo-table contents, pointer order and hash collisions accumulated over the whole history; tests see one allocation pattern.", "anchors": ["src/bdd_mgr.cpp: bdd_mgr::and_rec(node_ref,node_ref)", "src/bdd_memo_cache.cpp: cache_lookup, cache_insert", "src/bdd_var.cpp: var_struct::unique_find"]}
{"id": "C02", "title": "or_rec is disjunction", "statement": "After any history without garbage collection and without xor, or_rec(f,g) returns a handle that evaluates to f(x) || g(x) on every assignment (or throws the exception of C26). The restriction is needed: or and xor share one memo tag, and there is a history with a single earlier xor_rec(f,g) after which or_rec(f,g) is not the disjunction.", "quantifier": "all client histories (any number of manager operations and handle creations, copies, assignments and destructions), all operands, all node addresses, hash keys and argument-evaluation orders, asserts on or off", "why_tests_cant": "As C01; moreover correctness depends on which operations ran before on the same operands.", "anchors": ["src/bdd_mgr.cpp: bdd_mgr::or_rec", "include/bdd_memo_cache.h: or_symb"]}
{"id": "C03", "title": "negate is complement", "statement": "After any history without garbage collection negate(f) returns a handle evaluating to !f(x) on every assignment, and negating the result again returns the very same handle f.", "quantifier": "all client histories (any number of manager operations and handle creations, copies, assignments and destructions), all operands, all node addresses, hash keys and argument-evaluation orders, asserts on or off", "why_tests_cant": "Quantifies over every function and every state of the unique tables.", "anchors": ["src/bdd_mgr.cpp: bdd_mgr::negate"]}
{"id": "C04", "title": "ite_rec is if-then-else", "statement": "After any history of order-preserving operations, ite_rec(f,g,h) either returns a handle evaluating to f(x)?g(x):h(x) on every assignment (or throws the exception of C26), or never returns normally at all (undefined behaviour: the manager object is dereferenced as a node). Which of the two is decided exactly by the functions: it is the second iff for some values of the variables below the manager's last variable, f still depends on the last variable and either g is false and h equals !f there, or h is true and g equals !f there. In every xor-free history, ordered or not, ite_rec is correct whenever f does not mention the last variable.", "quantifier": "all client histories (any number of manager operations and handle creations, copies, assignments and destructions), all operands, all node addresses, hash keys and argument-evaluation orders, asserts on or off", "why_tests_cant": "The failure depends on which variable happens to be last in the manager; tests in the repository never use it that way.", "anchors": ["src/bdd_mgr.cpp: bdd_mgr::ite_rec"]}
{"id": "C05", "title": "xor_rec is exclusive or", "statement": "After any history without garbage collection and without or (and the operations built on or), xor_rec(f,g) returns a handle evaluating to f(x) != g(x) on every assignment, and xor_rec over a range or an argument list gives the parity of all operands. The restriction is needed: there is a history with a single earlier or_rec(f,g) after which xor_rec(f,g) is not the exclusive or.", "quantifier": "all client histories (any number of manager operations and handle creations, copies, assignments and destructions), all operands, all node addresses, hash keys and argument-evaluation orders, asserts on or off; all list lengths of at least two", "why_tests_cant": "Memo poisoning needs a particular earlier operation on the same two nodes.", "anchors": ["src/bdd_mgr.cpp: bdd_mgr::xor_rec", "include/bdd_memo_cache.h: xor_symb"]}
{"id": "C06", "title": "Variables and literals", "statement": "projection(v) evaluates to x[v] and afterwards the manager has exactly max(old number, v+1) variables; neg_projection(v) of an existing variable evaluates to !x[v]; add_variable adds exactly one variable; topsink/botsink evaluate to true/false; finding or inserting a node (v,f,g) gives the function x[v]?g(x):f(x).", "quantifier": "all client histories (any number of manager operations and handle creations, copies, assignments and destructions), all operands, all node addresses, hash keys and argument-evaluation orders, asserts on or off; all variable numbers below 2^41-2", "why_tests_cant": "Every variable number and every prior state.", "anchors": ["src/bdd_mgr.cpp: bdd_mgr::projection, bdd_mgr::neg_projection, bdd_mgr::add_variable", "src/bdd_var.cpp: unique_find"]}
{"id": "C07", "title": "Handles are canonical", "statement": "In a history of order-preserving operations (everything except xor, rebase that does not preserve the order, and garbage collection) operator== on two live handles is true if and only if they evaluate alike on every assignment; in particular a handle is the constant iff its function is. The restriction is needed: after xor_rec, which builds unordered BDDs, two handles with equal functions can differ.", "quantifier": "all client histories (any number of manager operations and handle creations, copies, assignments and destructions), all operands, all node addresses, hash keys and argument-evaluation orders, asserts on or off", "why_tests_cant": "Equality of functions quantifies over all assignments; equality of addresses over all construction orders.", "anchors": ["src/bdd_var.cpp: var_struct::unique_find", "src/bdd_mgr.cpp: bdd_mgr::xor_rec", "include/bdd_node.h: node_ref::operator=="]}
{"id": "C08", "title": "n-ary and/or over ranges and argument packs", "statement": "and_rec over an iterator range of at least two handles or over an argument list equals the conjunction of all of them, in every history without garbage collection; or_rec likewise the disjunction, in every such history without xor.", "quantifier": "all client histories (any number of manager operations and handle creations, copies, assignments and destructions), all operands, all node addresses, hash keys and argument-evaluation orders, asserts on or off; all list lengths of at least two", "why_tests_cant": "Unbounded list lengths and splits.", "anchors": ["include/bdd_mgr.h: and_rec/or_rec templates"]}
{"id": "C09", "title": "all_false, at_least_one, at_most_one, simplex", "statement": "For every non-empty list of handles: all_false(fs) is true iff no f is true, at_least_one iff some is (every history without garbage collection); at_most_one iff at most one is, simplex iff exactly one is (every such history without xor).", "quantifier": "all client histories (any number of manager operations and handle creations, copies, assignments and destructions), all operands, all node addresses, hash keys and argument-evaluation orders, asserts on or off; all list lengths", "why_tests_cant": "Recursive halving over arbitrary list lengths.", "anchors": ["include/bdd_mgr.h: all_false, simplex, at_most_one, at_least_one"]}
{"id": "C10", "title": "at_least is a threshold", "statement": "In every history without xor and garbage collection, at_least(fs,b) is true iff at least b of the functions are true, for every non-empty list and every b.", "quantifier": "all client histories (any number of manager operations and handle creations, copies, assignments and destructions), all operands, all node addresses, hash keys and argument-evaluation orders, asserts on or off; all list lengths and bounds", "why_tests_cant": "All lengths, all thresholds.", "anchors": ["include/bdd_mgr.h: at_least"]}
{"id": "C11", "title": "at_most is a threshold up to the list length", "statement": "In every history without xor and garbage collection and for every non-empty list fs: for b <= length, at_most(fs,b) is true iff at most b of the functions are true; for every b > length it returns constant false, although the claim \"at most b are true\" holds always.", "quantifier": "all client histories (any number of manager operations and handle creations, copies, assignments and destructions), all operands, all node addresses, hash keys and argument-evaluation orders, asserts on or off; all list lengths and bounds", "why_tests_cant": "The wrong case needs a bound larger than the list.", "anchors": ["include/bdd_mgr.h: at_most"]}
{"id": "C12", "title": "cardinality is exact count", "statement": "In every history without xor and garbage collection, cardinality(fs,b) is true iff exactly b of the functions are true, for every non-empty list and every b.", "quantifier": "all client histories (any number of manager operations and handle creations, copies, assignments and destructions), all operands, all node addresses, hash keys and argument-evaluation orders, asserts on or off; all list lengths and bounds", "why_tests_cant": "All lengths, all bounds.", "anchors": ["include/bdd_mgr.h: cardinality"]}
{"id": "C13", "title": "and_rec_limited", "statement": "For every limit below SIZE_MAX (and if the constants' uninitialised mark bits happen to be unset), and_rec_limited returns either (null, SIZE_MAX) or a non-null handle which is the conjunction and, in order-preserving histories, the same handle that and_rec returns. Raising the limit changes no non-null answer. With a non-null result the returned number is at most the limit unless an operand is constant, and in order-preserving histories it is below 2^k, k being the number of variables the operands depend on; there a limit of at least 2^k-1 never gives null. The documented limit contract ('return conjunction if it has fewer than node_limit nodes, otherwise null') does not hold in either direction, and the returned number is not always the number of nodes.", "quantifier": "all client histories (any number of manager operations and handle creations, copies, assignments and destructions), all operands, all node addresses, hash keys and argument-evaluation orders, asserts on or off; all limits", "why_tests_cant": "Interaction of limit, sharing and memo hits.", "anchors": ["src/bdd_mgr.cpp: bdd_mgr::and_rec_limited", "include/bdd_mgr.h: and_rec_limited comment"]}
{"id": "C14", "title": "rebase renames variables", "statement": "rebase(p,map), for a hash map or a vector that maps every variable of p and maps nothing to 2^41-2 or above (for a constant p: the hash map only, and mark bits unset), returns a handle whose function is p's function with every variable v read as map[v] (the map need not be injective or monotone); this terminates without assertion failure.", "quantifier": "all client histories (any number of manager operations and handle creations, copies, assignments and destructions), all operands, all node addresses, hash keys and argument-evaluation orders, asserts on or off; all variable maps", "why_tests_cant": "All maps (injective or not), all BDDs.", "anchors": ["include/bdd_mgr.h: bdd_mgr::rebase"]}
{"id": "C15", "title": "evaluate is total and pure", "statement": "evaluate on any live handle with an assignment covering the handle's own variables terminates, changes nothing, and its result depends only on the values of the handle's own variables.", "quantifier": "all client histories (any number of manager operations and handle creations, copies, assignments and destructions), all operands, all node addresses, hash keys and argument-evaluation orders, asserts on or off; all assignments", "why_tests_cant": "All graphs and assignments.", "anchors": ["include/bdd_node.h: node_struct::evaluate"]}
{"id": "C16", "title": "nr_nodes counts distinct inner nodes", "statement": "nr_nodes of a non-constant handle equals the number of distinct inner nodes reachable from it and leaves the manager state exactly as it was.", "quantifier": "all client histories (any number of manager operations and handle creations, copies, assignments and destructions), all operands, all node addresses, hash keys and argument-evaluation orders, asserts on or off", "why_tests_cant": "Depends on mark bits left behind by every earlier traversal.", "anchors": ["src/bdd_node.cpp: node_struct::nr_nodes, nr_nodes_impl, unmark"]}
{"id": "C17", "title": "nodes_postorder", "statement": "nodes_postorder of a non-constant handle lists every reachable inner node exactly once, children before parents, ends with the handle itself, and leaves the state unchanged.", "quantifier": "all client histories (any number of manager operations and handle creations, copies, assignments and destructions), all operands, all node addresses, hash keys and argument-evaluation orders, asserts on or off", "why_tests_cant": "All shared graph shapes.", "anchors": ["src/bdd_node.cpp: node_struct::nodes_postorder"]}
{"id": "C18", "title": "nodes_bfs", "statement": "nodes_bfs of a non-constant handle lists every reachable inner node exactly once, starts with the handle itself, lists every other node after at least one of its parents, and leaves the state unchanged.", "quantifier": "all client histories (any number of manager operations and handle creations, copies, assignments and destructions), all operands, all node addresses, hash keys and argument-evaluation orders, asserts on or off", "why_tests_cant": "All shared graph shapes.", "anchors": ["src/bdd_node.cpp: node_struct::nodes_bfs"]}
{"id": "C19", "title": "variables is the support", "statement": "In order-preserving histories variables() returns, strictly increasing, exactly the variables on which the handle's function depends; in every history without garbage collection the list is strictly increasing and contains at least those.", "quantifier": "all client histories (any number of manager operations and handle creations, copies, assignments and destructions), all operands, all node addresses, hash keys and argument-evaluation orders, asserts on or off", "why_tests_cant": "Semantic dependence quantifies over all assignments.", "anchors": ["src/bdd_node.cpp: node_struct::variables"]}
{"id": "C20", "title": "exactly_one_solution", "statement": "In order-preserving histories exactly_one_solution() is true iff exactly one assignment of the variables the function depends on makes it true.", "quantifier": "all client histories (any number of manager operations and handle creations, copies, assignments and destructions), all operands, all node addresses, hash keys and argument-evaluation orders, asserts on or off", "why_tests_cant": "Quantifies over all assignments.", "anchors": ["src/bdd_node.cpp: node_struct::exactly_one_solution"]}
{"id": "C21", "title": "Reference counts are exact", "statement": "After any history without garbage collection, every node's reference_count equals the number of live handles on it plus the number of arcs from stored nodes to it (plus one for the two constants); so it is non-negative and smaller than the number of nodes plus the number of handles.", "quantifier": "all client histories (any number of manager operations and handle creations, copies, assignments and destructions), all operands, all node addresses, hash keys and argument-evaluation orders, asserts on or off", "why_tests_cant": "A count over the whole heap after arbitrary histories.", "anchors": ["src/bdd_node.cpp: node_ref constructors, destructor, operator=", "src/bdd_node.cpp: init_new_node"]}
{"id": "C22", "title": "Operations are total and handles persistent", "statement": "Every call whose preconditions are met ends normally or with the exception of C26 -- never in a failed assertion, undefined behaviour or an endless loop -- and (garbage collection excluded) changes neither the address nor the function nor the reachable nodes nor the node count of any existing live handle other than the one it assigns or destroys.", "quantifier": "all client histories (any number of manager operations and handle creations, copies, assignments and destructions), all operands, all node addresses, hash keys and argument-evaluation orders, asserts on or off", "why_tests_cant": "All pairs of handle and later operation sequence.", "anchors": ["src/bdd_mgr.cpp", "src/bdd_var.cpp: var_struct::double_cache"]}
{"id": "C23", "title": "Unique table finds every node", "statement": "After any history without garbage collection, looking up (variable, low, high) in the table finds the node if one exists and otherwise terminates with 'absent'; no two nodes share variable, low and high; no node has equal children; asking for an existing node returns it and creates none; doubling the table changes the result of no lookup.", "quantifier": "all client histories (any number of manager operations and handle creations, copies, assignments and destructions), all operands, all node addresses, hash keys and argument-evaluation orders, asserts on or off; all hash keys including fully colliding ones", "why_tests_cant": "Linear probing with wrap-around under arbitrary collisions and table sizes.", "anchors": ["src/bdd_var.cpp: unique_table_lookup, double_cache, next_free_slot"]}
{"id": "C24", "title": "Node cache hands out distinct memory", "statement": "The memory handed out for a new node belongs to no existing node, every node lies in an allocated page at a multiple of the node size, and manager.nr_nodes() equals 2 plus the number of inner nodes (without collection).", "quantifier": "all client histories (any number of manager operations and handle creations, copies, assignments and destructions), all operands, all node addresses, hash keys and argument-evaluation orders, asserts on or off; any number of pages", "why_tests_cant": "Page boundaries after 4096 nodes, arbitrary histories.", "anchors": ["src/bdd_node_cache.cpp: reserve_node, increase_cache", "include/bdd_mgr.h: nr_nodes"]}
{"id": "C25", "title": "Table pages are large enough", "statement": "The page a variable's table lives in always has at least mask+1 cells (mask+1 a power of two between 2^6 and 2^19), and one of those cells is free, through every sequence of doublings and page reuse across variables. The pages of different tables never overlap, nor does a table's page overlap one that is available for reuse, nor do two available ones; and no page is lost: every page of every allocated block is used by a table or available for reuse.", "quantifier": "all client histories (any number of manager operations and handle creations, copies, assignments and destructions), all operands, all node addresses, hash keys and argument-evaluation orders, asserts on or off", "why_tests_cant": "Page reuse crosses size classes: pages are requested from one class and returned to another.", "anchors": ["src/bdd_var.cpp: new_page, free_page", "include/bdd_var.h: unique_table_page_cache"]}
{"id": "C26", "title": "Capacity and the exception", "statement": "A permitted call throws only when one variable labels more than 2^18 nodes, and no variable ever labels more than 2^18+1; such a history exists. After the exception every existing handle has kept its address and still evaluates to the same value under every assignment, every reference count still equals the number of handles and arcs to the node, and every further program that creates no nodes (copying, moving, assigning and destroying handles, low/high, all queries and traversals, adding BDDs to a collection) gives call by call the same results and handles as if the failed call had not been made (except that the number of variables may have grown). But the manager is not usable: destroying it never succeeds.", "quantifier": "all client histories (any number of manager operations and handle creations, copies, assignments and destructions), all operands, all node addresses, hash keys and argument-evaluation orders, asserts on or off", "why_tests_cant": "Needs 2^18 nodes on one variable; the failure shows after the catch.", "anchors": ["src/bdd_var.cpp: double_cache, new_page"]}
{"id": "C27", "title": "The memo table is transparent", "statement": "In histories that do not mix or with xor, emptying the memo table before a call changes neither that the call succeeds nor the function of its result; every memo entry whose operands and result are held by handles is a true equation (also in mixed histories, for and; for or/xor entries in unmixed ones).", "quantifier": "all client histories (any number of manager operations and handle creations, copies, assignments and destructions), all operands, all node addresses, hash keys and argument-evaluation orders, asserts on or off", "why_tests_cant": "All memo states, collisions and doublings.", "anchors": ["src/bdd_memo_cache.cpp"]}
{"id": "C28", "title": "Garbage collection preserves live handles", "statement": "For the first collect_garbage after an order-preserving history: if it returns, every live handle still evaluates to the same function, every node reachable from one keeps its variable and children, and no node was created; it never throws; it fails an assertion or has undefined behaviour only if some variable labels more than 32 nodes. After a collection that returned, every further program that creates no nodes (copying, moving, assigning and destroying handles, low/high, all queries and traversals, adding BDDs to a collection) gives call by call the same results and handles as it would have given without the collection. If no node is garbage, collect_garbage returns and changes nothing at all.", "quantifier": "all client histories (any number of manager operations and handle creations, copies, assignments and destructions), all operands, all node addresses, hash keys and argument-evaluation orders, asserts on or off; all patterns of dead nodes", "why_tests_cant": "All combinations of dead/live nodes and hash clusters.", "anchors": ["src/bdd_mgr.cpp: collect_garbage", "src/bdd_var.cpp: remove_dead_nodes"]}
{"id": "C29", "title": "Operations after garbage collection can be wrong", "statement": "There is a history x0, x1, r=x0&x1, drop r, collect_garbage, x2 after which and_rec(x0,x1) does not evaluate to the conjunction: the purge keeps memo entries that point to freed nodes.", "quantifier": "existence; the claim refuted ranges over all histories with garbage collection", "why_tests_cant": "Needs a freed result node, reused, and a memo hit.", "anchors": ["src/bdd_memo_cache.cpp: purge, can_be_purged"]}
{"id": "C30", "title": "Garbage collection can run forever", "statement": "There is a history without xor after which collect_garbage does not return, whatever bound is put on its number of steps: re-stored live nodes keep their old slot, the table fills up and the slot search cycles.", "quantifier": "all step bounds, for one history; the claim refuted ranges over all histories", "why_tests_cant": "Non-termination cannot be observed by a test.", "anchors": ["src/bdd_var.cpp: remove_dead_nodes, next_free_slot"]}
{"id": "C31", "title": "Garbage collection can leak", "statement": "There is a history after which no handle is live, collect_garbage returns, and nr_nodes() is not 2: only the first dead node of a cluster is returned.", "quantifier": "existence; the claim refuted ranges over all histories", "why_tests_cant": "Depends on hash collisions.", "anchors": ["src/bdd_var.cpp: remove_dead_nodes"]}
{"id": "C32", "title": "Shrinking a table fails", "statement": "With asserts on and with asserts off there is a history after which collect_garbage fails an assertion or has undefined behaviour: a table that became sparse is to be shrunk, and the page requested for it does not exist.", "quantifier": "existence, for both build modes; the claim refuted ranges over all histories", "why_tests_cant": "Needs a table that has grown and then been emptied.", "anchors": ["src/bdd_var.cpp: remove_dead_nodes lines 241-276"]}
{"id": "C33", "title": "Destruction is clean", "statement": "After an order-preserving history without collection, destroying all handles and then the manager triggers no assertion and no undefined behaviour, and all nodes but the constants are returned. The restriction is needed: after a single xor_rec(x0,x1) destruction fails.", "quantifier": "all client histories (any number of manager operations and handle creations, copies, assignments and destructions), all operands, all node addresses, hash keys and argument-evaluation orders, asserts on or off", "why_tests_cant": "All reference-count patterns at exit.", "anchors": ["src/bdd_mgr.cpp: ~bdd_mgr", "src/bdd_var.cpp: release_nodes", "src/bdd_node_cache.cpp: free_node"]}
{"id": "C34", "title": "Results independent of addresses and hash keys", "statement": "For a fixed program, run in two environments that differ in node addresses, random hash keys, argument evaluation order and NDEBUG: if the program preserves the variable order, the functions of all handles, which handles are equal, and the answers of exactly_one_solution, variables and nr_nodes are the same; if it does not but does not mix or with xor, every handle still has the same function; if it mixes or with xor, the functions can differ.", "quantifier": "all programs; all pairs of environments", "why_tests_cant": "Nondeterminism sources cannot be enumerated by tests.", "anchors": ["src/bdd_mgr.cpp: f.ref > g.ref comparisons", "src/bdd_node.cpp: hash key generator"]}
{"id": "C35", "title": "Node count is minimal", "statement": "In order-preserving histories nr_nodes() of a non-constant handle is at most the number of nodes of any other ordered decision graph over the manager's variables that computes the same function.", "quantifier": "all client histories (any number of manager operations and handle creations, copies, assignments and destructions), all operands, all node addresses, hash keys and argument-evaluation orders, asserts on or off; all decision graphs", "why_tests_cant": "Minimality quantifies over all other representations.", "anchors": ["src/bdd_var.cpp: unique_find"]}
{"id": "C36", "title": "low/high are cofactors", "statement": "In order-preserving histories variable() of a non-constant handle is the smallest variable the function depends on, and low()/high() evaluate to the function with that variable fixed to false/true.", "quantifier": "all client histories (any number of manager operations and handle creations, copies, assignments and destructions), all operands, all node addresses, hash keys and argument-evaluation orders, asserts on or off", "why_tests_cant": "All handles.", "anchors": ["include/bdd_node.h: node_ref::low, high, variable"]}
{"id": "C40", "title": "Collection add_bdd", "statement": "add_bdd of a non-constant handle appends one BDD with nr_nodes+2 entries which evaluates like the handle for every assignment; earlier BDDs of the collection are untouched. add_bdd of a constant is undefined behaviour (whenever the constants' mark bits happen to be unset).", "quantifier": "all client histories (any number of manager operations and handle creations, copies, assignments and destructions), all operands, all node addresses, hash keys and argument-evaluation orders, asserts on or off; all collections", "why_tests_cant": "All shared shapes and prior collections.", "anchors": ["src/bdd_collection.cpp: add_bdd"]}
{"id": "C41", "title": "Collection bdd_and (two operands)", "statement": "bdd_and(i,j) of jointly satisfiable BDDs with a limit above 2 either returns SIZE_MAX and changes nothing, or appends exactly one BDD, evaluating to the conjunction for every assignment, and leaves every other BDD identical. (Conjunctions of 2^62 or more entries, which no memory holds, are excepted.)", "quantifier": "all collections the API can build and all index pairs", "why_tests_cant": "Memo/unique tables over arbitrary graphs.", "anchors": ["src/bdd_collection.cpp: bdd_and, bdd_and_impl"]}
{"id": "C42", "title": "Collection bdd_and (ranges)", "statement": "bdd_and over an iterator range of 2..49 jointly satisfiable BDDs does the same for the conjunction of all of them; of one BDD it returns that BDD and changes nothing; of none or of more than 49 it throws.", "quantifier": "all collections the API can build, all ranges", "why_tests_cant": "As C41, for every arity.", "anchors": ["include/bdd_collection.h: bdd_and(range)", "src/bdd_collection.cpp: bdd_and<N>"]}
{"id": "C43", "title": "bdd_and node limit", "statement": "If bdd_and of 2..49 jointly satisfiable BDDs succeeds under some limit and its result has n entries (terminals included), then n is at most that limit and for every other limit above 2 the call gives the same result if n <= limit and otherwise returns SIZE_MAX and leaves the collection unchanged.", "quantifier": "all collections the API can build and all limits", "why_tests_cant": "Early abort during construction versus size of the finished BDD.", "anchors": ["src/bdd_collection.cpp: bdd_and, bdd_and_impl"]}
{"id": "C44", "title": "bdd_and of a contradiction", "statement": "bdd_and of 2..49 ordered BDDs that are not jointly satisfiable fails an assertion when asserts are on, and without asserts appends a BDD that evaluates to true everywhere (it should be false).", "quantifier": "all collections built from ordered BDDs and all unsatisfiable ranges", "why_tests_cant": "Needs an unsatisfiable conjunction.", "anchors": ["src/bdd_collection.cpp: bdd_and lines 30-42"]}
{"id": "C45", "title": "Stored BDDs are reduced and ordered", "statement": "Every stored BDD consists of inner entries followed by one false and one true terminal; arcs go forward and stay inside; children are distinct; no entry occurs twice. If the collection was built without bdd_or_var and without rerouting arcs, every entry is reachable from the first; if only BDDs from order-preserving histories are added, maps are increasing, arcs are only rerouted to nodes with a larger variable (or a terminal) and bdd_or_var drops fewer than 128 entries, variables increase along every arc, even of unreachable entries.", "quantifier": "all collections the API can build (add_bdd, bdd_and, injective rebase, remove; bdd_or_var and rerouting arcs, as long as is_bdd accepts the result)", "why_tests_cant": "Structural invariant over all histories.", "anchors": ["src/bdd_collection.cpp: is_bdd, bdd_and_impl, add_bdd"]}
{"id": "C46", "title": "export_bdd inverts add_bdd", "statement": "export_bdd(mgr, add_bdd(p)) returns p itself; export_bdd of any stored BDD whose variables the manager has returns a handle evaluating like the stored BDD; in order-preserving histories it is the very handle with that function.", "quantifier": "all client histories (any number of manager operations and handle creations, copies, assignments and destructions), all operands, all node addresses, hash keys and argument-evaluation orders, asserts on or off; all collections", "why_tests_cant": "All graphs; round trip through two representations.", "anchors": ["src/bdd_collection.cpp: export_bdd, add_bdd"]}
{"id": "C47", "title": "bdd_mgr::add_bdd imports", "statement": "In xor-free histories bdd_mgr::add_bdd(col, nr) creates the missing variables and returns a handle evaluating like the stored BDD, if asserts are off or the BDD ends before cell 1003, and either BDD and history are ordered or the manager has a variable above all of the BDD's. With asserts on it aborts for every BDD that ends at cell 1003 or later.", "quantifier": "all client histories (any number of manager operations and handle creations, copies, assignments and destructions), all operands, all node addresses, hash keys and argument-evaluation orders, asserts on or off; all collections", "why_tests_cant": "Relies on ite's special cases.", "anchors": ["src/bdd_mgr.cpp: bdd_mgr::add_bdd"]}
{"id": "C48", "title": "Collection rebase", "statement": "rebase(nr,map) and rebase(nr,begin,end), for any map (or range indexed by the variable) defined on the variables of BDD nr, makes BDD nr evaluate as before with variable v read as map[v] and changes the function of no other BDD; an injective map keeps the collection well formed.", "quantifier": "all collections the API can build, all maps", "why_tests_cant": "All maps and shapes.", "anchors": ["include/bdd_collection.h: bdd_collection::rebase"]}
{"id": "C49", "title": "Collection remove", "statement": "remove of a strictly increasing list of BDDs that is empty or contains the last BDD deletes exactly those, and the remaining BDDs keep their functions, in order. For every other non-empty list remove is undefined behaviour (it dereferences the end iterator).", "quantifier": "all collections the API can build and sorted index lists", "why_tests_cant": "Needs BDDs after the last removed one.", "anchors": ["include/bdd_collection.h: bdd_collection::remove"]}
{"id": "C50", "title": "bdd_or_var", "statement": "bdd_or_var(i,pos,neg), whenever it returns, has appended one BDD, with at most as many entries as BDD i, and kept all other BDDs; in debug builds the result is, if it has an inner entry, a BDD like any other. That BDD is true exactly where BDD i is true or evaluation of BDD i at x looks at a variable on which a given literal is true, provided the root of BDD i stays distinct from all other entries and non-redundant and fewer than 128 entries are dropped; so it is the disjunction with the literals if every evaluation that satisfies a literal looks at its variable, in particular, for ordered BDDs, for one literal on the root variable if the root's other arc does not lead to true. It does return if every entry made redundant by the redirection was reached only through entries made redundant or arcs redirected to true, no two remaining entries become equal, and at most 127 entries go. Otherwise it is broken: for a literal on a variable that BDD i does not contain, the result is false wherever BDD i is; an entry made redundant that a remaining entry points to gives a failed assertion (undefined behaviour without asserts); literals that make the root redundant (x and not x for the root variable x; or x, if the root's other arc leads to true) return the function of the second entry instead of true; literals that make every entry redundant return a BDD without inner entries that is false (for BDDs stored by add_bdd) instead of true; entries that become unreachable are kept; 128 dropped entries overflow a char; merged duplicates can fail.", "quantifier": "all collections the API can build and all literal sets", "why_tests_cant": "Needs a BDD with a path skipping the variable, or one of the failing shapes.", "anchors": ["include/bdd_collection.h: bdd_or_var", "src/bdd_collection.cpp: reduce"]}
{"id": "C51", "title": "Builder interface is unusable", "statement": "For every collection: with asserts on, add_bdd_node after new_bdd fails an assertion; with asserts off, new_bdd, any positive number of add_bdd_node calls and close_bdd store one more BDD, under the number new_bdd returned, and evaluating it is undefined behaviour.", "quantifier": "all collections and variables", "why_tests_cant": "Undefined behaviour may appear to work in a test.", "anchors": ["src/bdd_collection.cpp: new_bdd, add_bdd_node, close_bdd"]}
{"id": "C52", "title": "Collection queries", "statement": "variables(nr) is the strictly increasing list of variables of the stored BDD, nr_bdd_nodes(nr) its number of entries, nr_bdd_nodes(nr,v) the number of entries labelled v.", "quantifier": "all collections the API can build", "why_tests_cant": "All contents.", "anchors": ["src/bdd_collection.cpp: variables, nr_bdd_nodes"]}
{"id": "C53", "title": "Entry traversal", "statement": "first_node_postorder followed by next_postorder visits every inner node exactly once, children before parents, ending at the root; following lo()/hi() from the root by variable() arrives at the terminal that evaluate gives.", "quantifier": "all collections the API can build", "why_tests_cant": "All sizes.", "anchors": ["src/bdd_collection.cpp: bdd_collection_entry, bdd_collection_node"]}
{"id": "C54", "title": "Entry terminals", "statement": "entry.botsink()/topsink() return the false/true terminal of every BDD stored by add_bdd. For every result of bdd_and they fail an assertion, and without asserts return each other's terminal.", "quantifier": "all collections the API can build", "why_tests_cant": "Depends on how the BDD was created.", "anchors": ["src/bdd_collection.cpp: bdd_collection_entry::botsink, topsink, bdd_and"]}
{"id": "C55", "title": "Collection evaluate", "statement": "evaluate(nr,x) terminates for every stored BDD and every assignment, returns a value if the assignment covers the BDD's variables, and depends on no others.", "quantifier": "all collections the API can build and all assignments", "why_tests_cant": "All graphs.", "anchors": ["include/bdd_collection.h: evaluate"]}
{"id": "C56", "title": "Number of variables", "statement": "projection(v) is correct for every v below 2^41-2. The README's \"up to 2^41 variables\" does not hold: with 2^41-2 variables present, projection of the next one is wrong, because its index is read as that of a constant.", "quantifier": "all variable numbers", "why_tests_cant": "Needs 2^41 variables.", "anchors": ["include/bdd_node.h: botsink_index, topsink_index", "README.md"]}
{"id": "C57", "title": "Depth bookkeeping", "statement": "If nodes are added with every child before its parents, bdd_node_depth reports for each node the length of the longest path to a constant; nodes_postorder is such an order.", "quantifier": "all managers, all bottom-up insertion orders", "why_tests_cant": "All graphs.", "anchors": ["src/bdd_node_depth.cpp"]}
{"id": "C58", "title": "Operators find their manager", "statement": "operators & | ^ ! on any live handle find the manager the node belongs to (also when the operand is a constant) and behave exactly like the member functions.", "quantifier": "all client histories (any number of manager operations and handle creations, copies, assignments and destructions), all operands, all node addresses, hash keys and argument-evaluation orders, asserts on or off", "why_tests_cant": "Search path depends on node shape.", "anchors": ["src/bdd_node.cpp: find_bdd_mgr", "include/bdd_mgr.h: operators"]}
{"id": "C59", "title": "print lists every arc", "statement": "print of a non-constant handle writes, for every reachable inner node exactly once, its low arc and its high arc, and leaves the state unchanged.", "quantifier": "all client histories (any number of manager operations and handle creations, copies, assignments and destructions), all operands, all node addresses, hash keys and argument-evaluation orders, asserts on or off", "why_tests_cant": "All shared shapes.", "anchors": ["include/bdd_node.h: print, print_rec"]}
{"id": "C60", "title": "Traversals of constants fail", "statement": "nr_nodes of a constant handle can fail (it depends on an uninitialised mark bit), and nodes_bfs of a constant handle can have undefined behaviour with and without asserts.", "quantifier": "existence, for both build modes; the claims refuted range over all histories and handles", "why_tests_cant": "Uninitialised memory usually happens to be zero in tests.", "anchors": ["src/bdd_node.cpp: init_botsink, nr_nodes, nodes_bfs"]}
{"id": "C61", "title": "Destruction after a collection can fail", "statement": "With asserts on and with asserts off there is a history with a garbage collection after which destroying all handles and then the manager does not return all nodes: an assertion fails or nodes leak.", "quantifier": "existence, for both build modes; the claim refuted ranges over all histories with garbage collection", "why_tests_cant": "Depends on hash collisions of dead nodes.", "anchors": ["src/bdd_var.cpp: remove_dead_nodes, release_nodes", "src/bdd_mgr.cpp: ~bdd_mgr"]}
{"id": "C62", "title": "Mark bits", "statement": "Between API calls no inner node is marked. node_struct::mark marks exactly the inner nodes below its argument, is idempotent and is undone by unmark_rec; node_ref::mark changes only the mark of that node and is undone by unmark or unmark_rec; all leave everything but mark bits unchanged. With asserts on, nr_nodes and nodes_postorder of a marked root fail an assertion.", "quantifier": "all client histories (any number of manager operations and handle creations, copies, assignments and destructions), all operands, all node addresses, hash keys and argument-evaluation orders, asserts on or off; all nodes", "why_tests_cant": "All shared shapes.", "anchors": ["include/bdd_node.h: node_ref::mark, unmark, unmark_rec, marked", "src/bdd_node.cpp: mark, unmark_rec"]}
{"id": "C63", "title": "Size of results", "statement": "In order-preserving histories: the negation has exactly as many nodes as the operand; a conjunction or disjunction of handles with a and b nodes has at most (a+1)(b+1)-1 nodes; an if-then-else of handles with a, b and c nodes at most (a+2)(b+2)(c+2).", "quantifier": "all client histories (any number of manager operations and handle creations, copies, assignments and destructions), all operands, all node addresses, hash keys and argument-evaluation orders, asserts on or off", "why_tests_cant": "All handles and orders; a bound on the size of every result.", "anchors": ["src/bdd_mgr.cpp: and_rec, or_rec, negate, ite_rec"]}
{"id": "C64", "title": "Size of counting constraints", "statement": "In order-preserving histories, over k variables in any order: cardinality(b) has at most k(b+1) nodes, simplex and at_most_one at most 2k, at_least(b) at most kb, at_most(b) (b <= k) at most k(b+1); every function of the number of true variables that is constant from B on has at most kB nodes; projection has one. A BDD has at least one node for every variable its value depends on, a non-constant function of the number of true variables at least one for each of its variables, and all_false and at_least_one over k different variables have exactly k.", "quantifier": "all client histories (any number of manager operations and handle creations, copies, assignments and destructions), all operands, all node addresses, hash keys and argument-evaluation orders, asserts on or off; all numbers of variables and bounds", "why_tests_cant": "Unbounded families of inputs.", "anchors": ["include/bdd_mgr.h: simplex, at_most_one, at_least, cardinality"]}
{"id": "C65", "title": "Rerouting arcs", "statement": "set_lo_arc/set_hi_arc of an inner node of a stored BDD to a later node of the same BDD changes the BDD's value exactly at the assignments that come by the rerouted arc, to the value of the target, and changes no other BDD; set_{lo,hi}_to_{0,1}_terminal do the same with the constant for every BDD stored by add_bdd. For results of bdd_and the latter fail an assertion or, without asserts, lead to the wrong constant. Rerouting to an earlier node from which the node is reached again makes evaluate run forever, and a node both of whose arcs lead to a terminal makes bdd_and wrong. is_bdd accepts the rerouted BDD exactly if the new arc leads forward, the other arc of the node leads elsewhere and no other node has the same variable and arcs, and then everything said about stored BDDs applies to it.", "quantifier": "all collections the API can build, all nodes, targets and assignments", "why_tests_cant": "All graphs and assignments; the failures need particular shapes.", "anchors": ["src/bdd_collection.cpp: bdd_collection_node::set_lo_arc, set_hi_arc, set_lo_to_0_terminal, set_lo_to_1_terminal, set_hi_to_0_terminal, set_hi_to_1_terminal"]}
{"id": "C66", "title": "export_graphviz draws the BDD", "statement": "export_graphviz of a stored BDD writes, whatever the iteration order of the hash maps: one cluster per variable and one for the terminals, holding every entry exactly once with its label; invisible arrows through one node of every variable, in increasing order; one solid and one dashed arrow per inner entry. Following the arrows of the picture gives exactly the value evaluate returns. Without asserts, export of the BDD that bdd_and stores for a contradiction is undefined behaviour.", "quantifier": "all collections the API can build, all iteration orders of the hash maps, all assignments", "why_tests_cant": "Output order is unspecified; the picture must denote the function for every assignment.", "anchors": ["include/bdd_collection.h: export_graphviz"]}
{"id": "C67", "title": "Entry and node objects", "statement": "For entries of the same collection, operator& appends the conjunction and returns its entry (for jointly satisfiable BDDs; conjunctions of 2^62 or more entries are excepted); for contradictory ordered BDDs it fails an assertion or, without asserts, returns an entry that is true everywhere. collection[nr][k] is the k-th node, the root for k=0, a terminal exactly for the last two, and with asserts on k past the end fails an assertion; two nodes compare equal iff they are the same node.", "quantifier": "all collections the API can build and all indices", "why_tests_cant": "All contents.", "anchors": ["src/bdd_collection.cpp: bdd_collection_entry, bdd_collection_node::operator==, bdd_collection::operator[]"]}
{"id": "C68", "title": "Instruction ranges", "statement": "get_bdd_instructions(nr) is the range of the entries of BDD nr, in node order. get_reverse_bdd_instructions(nr) is the same range, for no stored BDD its reverse.", "quantifier": "all collections the API can build", "why_tests_cant": "Must hold for every stored BDD.", "anchors": ["include/bdd_collection.h: get_bdd_instructions, get_reverse_bdd_instructions"]}
{"id": "C69", "title": "The consistency check of debug builds is exact", "statement": "For any contents of a collection whose delimiters are increasing and in range, the check that debug builds assert after every operation that stores a BDD (is_bdd) returns, without assertion failure or undefined behaviour, whether BDD i has at least two entries, the last two are different and each has two equal arcs, and all others are pairwise different, with two different arcs each that lead forward and stay inside. All BDDs of a collection built by the API are accepted.", "quantifier": "all vectors of entries and delimiters", "why_tests_cant": "All graphs, including ill-formed ones.", "anchors": ["src/bdd_collection.cpp: is_bdd"]}
{"id": "C70", "title": "Pages of the unique tables never overlap and keep their contents", "statement": "In every history of reserve_page and free_page on the fifteen page caches of a manager and of writes to pages in use, where a page may be given back to any class not larger than the length asked for (as the unique tables do), down to memory words and with the free list threaded through the free pages themselves: reserve_page returns memory inside one allocated block, not null, overlapping no page in use, and zeroed; every word of a page in use is what its user last wrote; free_page succeeds and the next reserve_page on that class returns that page. If a single class is used, nr_pages() is at least the number of pages in use and less than the largest number ever in use plus one batch.", "quantifier": "all histories of reserve_page, free_page and writes, all addresses returned by new[]", "why_tests_cant": "All interleavings over fifteen classes; overlap needs a particular order of give and take.", "anchors": ["include/bdd_var.h: unique_table_page_cache::reserve_page, free_page, increase_cache, nr_pages", "src/bdd_var.cpp: new_page, free_page"]}
{"id": "C71", "title": "The node cache hands out every node once", "statement": "In every history of reserve_node (followed by init_new_node) and free_node of nodes no node in use points to: reserve_node always returns a node that is not in use, is none of the constants and lies in an allocated page, and changes no node; a node in use keeps variable and children whatever is reserved and freed; freeing an unreferenced node succeeds and the next reserve_node returns it; nr_nodes() is the number of nodes in use plus the two constants; reference counts are the number of children in nodes in use, plus one for the constants. A page is allocated only when more nodes are in use, with the constants, than the pages so far can hold.", "quantifier": "all histories of reserve and free, in any order, across any number of page allocations", "why_tests_cant": "All interleavings of reserve and free.", "anchors": ["src/bdd_node_cache.cpp: reserve_node, free_node, increase_cache", "include/bdd_node_cache.h: nr_nodes", "src/bdd_node.cpp: init_new_node"]}
{"id": "C72", "title": "Killing and reviving nodes", "statement": "After any history without garbage collection: node_struct::recursively_kill on an inner node kills exactly this node (its count becomes -1) although nodes below may be referenced from nowhere else: each child loses one reference and nothing else changes; recursively_revive then gives back all counts except that the node's own count is 0, so for an unreferenced node the two calls cancel. deref through a live handle does to the manager exactly what destroying that handle does. node_struct::hash_code returns, changes nothing and is 8 * (variable of the low child) xor 4 * (variable of the high child), with 2^41-1 and 2^41-2 for false and true, without overflow.", "quantifier": "all client histories (any number of manager operations and handle creations, copies, assignments and destructions), all operands, all node addresses, hash keys and argument-evaluation orders, asserts on or off; all inner nodes", "why_tests_cant": "All reference-count patterns and shared shapes.", "anchors": ["src/bdd_node.cpp: node_struct::recursively_revive, recursively_kill, deref, hash_code"]}
{"id": "C73", "title": "What a call creates", "statement": "After any history without garbage collection, when projection, neg_projection, negate, unique_find, and_rec, or_rec, xor_rec, ite_rec or one of the operators returns, every node it has created is a node of the BDD it returns: no intermediate node is left behind, and nr_nodes() of the manager grows by at most the size of the result. In an ordered manager conjunction, disjunction and and_rec_limited (also when it gives up) of BDDs with a and b nodes add at most (a+1)(b+1)-1 nodes to the manager and negation at most a; ite_rec of BDDs with a, b and c nodes adds at most (a+2)(b+2)(c+2); a projection or a unique_find adds at most one (in every manager). As long as the manager's node count plus that bound is at most 2^18 the call returns: no exception, no other failure.", "quantifier": "all client histories (any number of manager operations and handle creations, copies, assignments and destructions), all operands, all node addresses, hash keys and argument-evaluation orders, asserts on or off; all operands", "why_tests_cant": "The growth depends on all earlier calls and on the memo table; the bound must hold for all shapes.", "anchors": ["src/bdd_mgr.cpp: projection, neg_projection, negate, and_rec, or_rec, xor_rec, ite_rec; src/bdd_var.cpp: unique_find, double_cache; include/bdd_mgr.h: nr_nodes"]}
{"id": "C74", "title": "Recursion depth", "statement": "In an ordered manager with n variables no call recurses deeper than its number of variables allows, whatever the history: negate, nr_nodes, nodes_postorder, exactly_one_solution, find_bdd_mgr and evaluate need at most n+1 nested activations, ite_rec likewise at most n+1 of itself, and and_rec, or_rec and and_rec_limited at most 2n+2 (one call may only exchange its arguments). Stack use is linear in n and does not depend on the number of nodes. In every history, ordered or not, the number of nodes of the operands bounds the depth: negate, nr_nodes, nodes_postorder, exactly_one_solution, find_bdd_mgr and evaluate of a BDD with n nodes need at most n+1 nested activations, and_rec, and_rec_limited, or_rec and xor_rec of BDDs with n and m nodes at most 2(n+m)+2, ite_rec at most n+m+o+1.", "quantifier": "all client histories (any number of manager operations and handle creations, copies, assignments and destructions), all operands, all node addresses, hash keys and argument-evaluation orders, asserts on or off; all live handles", "why_tests_cant": "Stack depth depends on the deepest shared path; a test sees only its own graphs.", "anchors": ["src/bdd_mgr.cpp: negate, and_rec, and_rec_limited, or_rec, xor_rec, ite_rec; src/bdd_node.cpp: nr_nodes_impl, nodes_postorder, exactly_one_solution, find_bdd_mgr; include/bdd_node.h: evaluate"]}
{"id": "C75", "title": "Work done by negate and by the traversals", "statement": "negate keeps no record of the nodes it has already negated: if there are P paths from the node of its argument to a constant, a call that returns enters negate exactly 2P-1 times. In an ordered manager with n variables that is less than 2^(n+1), and this growth is real: for every n with 0 < n < 2^16 some history with n variables creates a BDD of at most 2n nodes on which negate enters itself at least 2^n times and returns. The traversals in contrast are linear, whatever the history: for a non-constant BDD with n nodes nr_nodes, variables and print enter their recursive functions (those of unmark included) at most 4n+2 times in total, nodes_postorder at most 8n+4 times and nodes_bfs at most 7n+4 times (tests of its queue included); the last two include the call of nr_nodes with which debug builds check the result.", "quantifier": "all client histories (any number of manager operations and handle creations, copies, assignments and destructions), all operands, all node addresses, hash keys and argument-evaluation orders, asserts on or off; all live handles; all n", "why_tests_cant": "The number of calls depends on the sharing in the graph; the exponential case only shows on graphs no unit test would finish on.", "anchors": ["src/bdd_mgr.cpp: negate; src/bdd_node.cpp: nr_nodes, nr_nodes_impl, nodes_postorder, nodes_bfs, variables, unmark; include/bdd_node.h: print"]}
{"id": "C76", "title": "Size of stored BDDs", "statement": "In collections built from order-preserving histories by add_bdd, bdd_and with satisfiable result, rebase with increasing maps and remove: two stored BDDs (of one or of two collections) with the same function have the same number of entries, two more than the nr_nodes of a handle with that function, and no ordered decision graph for the function has fewer inner nodes. bdd_and of 2..49 jointly satisfiable ordered BDDs with n1, n2, ... entries (terminals included) has at most (n1-1)(n2-1)...+1 entries, and every limit of at least that is enough (products of 2^62-3 or more, which no memory holds, are excepted): the call does not give up. The last part also holds with bdd_or_var and rerouting that keep the order.", "quantifier": "all histories of collections; all operands and limits", "why_tests_cant": "The size must be bounded for all shapes of operands and all orders of construction; that a limit is always enough cannot be tested.", "anchors": ["src/bdd_collection.cpp: bdd_and, bdd_and_impl, add_bdd; include/bdd_collection.h: bdd_and, bdd_and_impl, nr_bdd_nodes"]}
{"id": "C77", "title": "Work done by bdd_and on stored BDDs", "statement": "bdd_and remembers a pair (tuple) of entries only when the call for it has stored a new entry, not when its result is a constant, one of its two branches or an entry stored before. For ordered BDDs over variables below n a bdd_and of 2..49 operands with any limit (below 2^62) enters its recursive function fewer than 2^(n+1) times, whether it finds the result or gives up, and never has more than n+1 activations of it open at once. No bound polynomial in the operands' sizes and no bound through the limit exists: for every n with 0 < n < 2^16-1 there is a collection of two jointly satisfiable BDDs with at most 2n+6 entries each, both added from a manager, such that bdd_and of the two enters its recursive function more than 2^n times under every limit, even under limit 3, and returns a BDD of 3 entries.", "quantifier": "all histories of collections; all operands and limits; all n", "why_tests_cant": "The number of calls depends on the shape of the operands; the exponential case only shows on inputs no unit test would finish on.", "anchors": ["src/bdd_collection.cpp: bdd_and, bdd_and_impl; include/bdd_collection.h: bdd_and, bdd_and_impl"]}
{"id": "C78", "title": "Work done by and_rec, or_rec and ite_rec", "statement": "In an ordered manager with n variables a call of and_rec or or_rec that returns has entered itself fewer than 2^(n+2) times, and a call of ite_rec has entered itself fewer than 2^(n+1) times, whatever the history, the contents of the memo cache and the collisions in it (activations of the and_rec, or_rec and xor_rec that ite_rec falls back on are not counted). Without order the exponent is the number of nodes of the operands instead: fewer than 2^(n+m+2) for and_rec and or_rec of n and m nodes, 2^(n+m+l+1) for ite_rec of n, m and l nodes. Asking again for a conjunction or disjunction that has just been computed, in either order of the operands and in every kind of history, enters and_rec (or_rec) at most twice, gives the same node and changes nothing in the manager.", "quantifier": "all client histories (any number of manager operations and handle creations, copies, assignments and destructions), all operands, all node addresses, hash keys and argument-evaluation orders, asserts on or off; all live handles; all cache contents", "why_tests_cant": "The number of calls depends on the shape of the graphs and on which earlier results the cache has overwritten; a test sees only its own.", "anchors": ["src/bdd_mgr.cpp: and_rec, or_rec, ite_rec; src/bdd_memo_cache.cpp: cache_lookup, cache_insert, double_cache"]}
{"id": "C79", "title": "The memo cache loses nothing when it grows, and and/or take product time when nothing collides", "statement": "In every history each occupied slot of the memo cache is the slot its operands and tag hash to, so a lookup for them finds the entry. Enlarging the cache keeps every entry and leaves each where a lookup searches it: no result is lost or becomes unreachable. If, for operands with n and m nodes, no two different pairs of nodes share a slot of the cache, then a call of and_rec or or_rec that returns has entered itself at most 4*n*m + 2 times, whatever else the cache contains (compare the exponential bound of C78, which holds with collisions).", "quantifier": "all reachable worlds; all live handles; all cache contents, including an enlargement during the call", "why_tests_cant": "Which slots collide depends on random node hashes and the whole history; the loss of an entry only shows as lost time.", "anchors": ["src/bdd_mgr.cpp: and_rec, or_rec; src/bdd_memo_cache.cpp: cache_lookup, cache_insert, double_cache, cache_hash"]}
{"id": "C80", "title": "Memory held by a manager", "statement": "After any successful history of API calls without garbage collection: the unique table of a variable has the initial 64 slots or fewer than 4 times as many slots as the variable has nodes; all unique tables together have at most 64 slots per variable plus 4 per node; the node cache has exactly as many pages of 4096 nodes as the nodes ever made (constants included) need; the memo cache has a power of two of slots, at most 2^22.", "quantifier": "all reachable worlds of histories without collect_garbage; every variable; both build modes", "why_tests_cant": "How far tables have grown depends on the whole history and on which doublings happened when; a test sees a few sizes of a few histories.", "anchors": ["src/bdd_var.cpp: unique_find, double_cache; src/bdd_node_cache.cpp: reserve_node, increase_cache; src/bdd_memo_cache.cpp: cache_insert, double_cache"]}
{"id": "C81", "title": "The work of xor_rec", "statement": "A call of xor_rec that returns has entered itself fewer than 2^(n + m + 2) times for operands with n and m nodes, whatever the cache contains; at most 4*n*m + 2 times if no two different pairs of nodes of the operands share a slot of the cache (calls of negate, made when an operand is the constant true, come on top, see C75). An exclusive or of two functions that are not constant, asked again right after it was computed, in either order, is answered with at most two activations and changes nothing.", "quantifier": "all reachable worlds of histories that use xor (with or without or), ordered or not; all live handles; all cache contents", "why_tests_cant": "xor_rec splits at the larger variable, so its results are not ordered and the level bound of and/or does not apply; which slots collide depends on random hashes and the whole history.", "anchors": ["src/bdd_mgr.cpp: xor_rec; src/bdd_memo_cache.cpp: cache_lookup, cache_insert"]}
