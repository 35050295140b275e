#!/usr/bin/env python3
"""Regenerates properties.jsonl."""
import json
P=[]
def p(id,title,st,q,why,*anch):
    P.append(dict(id=id,title=title,statement=st,quantifier=q,why_tests_cant=why,anchors=list(anch)))
HIST="all client histories (any number of manager operations and handle creations, copies, assignments and destructions), all operands, all node addresses, hash keys and argument-evaluation orders, asserts on or off"
NOGC="after any history without garbage collection in which no call threw"
p("C01","and_rec is conjunction","After any history without garbage collection in which no call threw (whatever mixture of and, or, xor, ite, rebase, ... it used), and_rec(f,g) on two live handles terminates without assertion failure or undefined behaviour and returns a new handle that evaluates to f(x) && g(x) on every assignment x covering the manager's variables; the only other outcome is the table-size exception of C26.",HIST,"The result depends on memo-table contents, pointer order and hash collisions accumulated over the whole history; tests see one allocation pattern.","src/bdd_mgr.cpp: bdd_mgr::and_rec(node_ref,node_ref)","src/bdd_memo_cache.cpp: cache_lookup, cache_insert","src/bdd_var.cpp: var_struct::unique_find")
p("C02","or_rec is disjunction","After any history without garbage collection and without xor, or_rec(f,g) returns a handle that evaluates to f(x) || g(x) on every assignment (or throws the exception of C26). The restriction is needed: or and xor share one memo tag, and there is a history with a single earlier xor_rec(f,g) after which or_rec(f,g) is not the disjunction.",HIST,"As C01; moreover correctness depends on which operations ran before on the same operands.","src/bdd_mgr.cpp: bdd_mgr::or_rec","include/bdd_memo_cache.h: or_symb")
p("C03","negate is complement","After any history without garbage collection negate(f) returns a handle evaluating to !f(x) on every assignment, and negating the result again returns the very same handle f.",HIST,"Quantifies over every function and every state of the unique tables.","src/bdd_mgr.cpp: bdd_mgr::negate")
p("C04","ite_rec is if-then-else","After any history of order-preserving operations, ite_rec(f,g,h) either returns a handle evaluating to f(x)?g(x):h(x) on every assignment (or throws the exception of C26), or never returns normally at all (undefined behaviour: the manager object is dereferenced as a node). Which of the two is decided exactly by the functions: it is the second iff for some values of the variables below the manager's last variable, f still depends on the last variable and either g is false and h equals !f there, or h is true and g equals !f there. In every xor-free history, ordered or not, ite_rec is correct whenever f does not mention the last variable.",HIST,"The failure depends on which variable happens to be last in the manager; tests in the repository never use it that way.","src/bdd_mgr.cpp: bdd_mgr::ite_rec")
p("C05","xor_rec is exclusive or","After any history without garbage collection and without or (and the operations built on or), xor_rec(f,g) returns a handle evaluating to f(x) != g(x) on every assignment, and xor_rec over a range or an argument list gives the parity of all operands. The restriction is needed: there is a history with a single earlier or_rec(f,g) after which xor_rec(f,g) is not the exclusive or.",HIST+"; all list lengths of at least two","Memo poisoning needs a particular earlier operation on the same two nodes.","src/bdd_mgr.cpp: bdd_mgr::xor_rec","include/bdd_memo_cache.h: xor_symb")
p("C06","Variables and literals","projection(v) evaluates to x[v] and afterwards the manager has exactly max(old number, v+1) variables; neg_projection(v) of an existing variable evaluates to !x[v]; add_variable adds exactly one variable; topsink/botsink evaluate to true/false; finding or inserting a node (v,f,g) gives the function x[v]?g(x):f(x).",HIST+"; all variable numbers below 2^41-2","Every variable number and every prior state.","src/bdd_mgr.cpp: bdd_mgr::projection, bdd_mgr::neg_projection, bdd_mgr::add_variable","src/bdd_var.cpp: unique_find")
p("C07","Handles are canonical","In a history of order-preserving operations (everything except xor, rebase that does not preserve the order, and garbage collection) operator== on two live handles is true if and only if they evaluate alike on every assignment; in particular a handle is the constant iff its function is. The restriction is needed: after xor_rec, which builds unordered BDDs, two handles with equal functions can differ.",HIST,"Equality of functions quantifies over all assignments; equality of addresses over all construction orders.","src/bdd_var.cpp: var_struct::unique_find","src/bdd_mgr.cpp: bdd_mgr::xor_rec","include/bdd_node.h: node_ref::operator==")
p("C08","n-ary and/or over ranges and argument packs","and_rec over an iterator range of at least two handles or over an argument list equals the conjunction of all of them, in every history without garbage collection; or_rec likewise the disjunction, in every such history without xor.",HIST+"; all list lengths of at least two","Unbounded list lengths and splits.","include/bdd_mgr.h: and_rec/or_rec templates")
p("C09","all_false, at_least_one, at_most_one, simplex","For every non-empty list of handles: all_false(fs) is true iff no f is true, at_least_one iff some is (every history without garbage collection); at_most_one iff at most one is, simplex iff exactly one is (every such history without xor).",HIST+"; all list lengths","Recursive halving over arbitrary list lengths.","include/bdd_mgr.h: all_false, simplex, at_most_one, at_least_one")
p("C10","at_least is a threshold","In every history without xor and garbage collection, at_least(fs,b) is true iff at least b of the functions are true, for every non-empty list and every b.",HIST+"; all list lengths and bounds","All lengths, all thresholds.","include/bdd_mgr.h: at_least")
p("C11","at_most is a threshold up to the list length","In every history without xor and garbage collection and for every non-empty list fs: for b <= length, at_most(fs,b) is true iff at most b of the functions are true; for every b > length it returns constant false, although the claim \"at most b are true\" holds always.",HIST+"; all list lengths and bounds","The wrong case needs a bound larger than the list.","include/bdd_mgr.h: at_most")
p("C12","cardinality is exact count","In every history without xor and garbage collection, cardinality(fs,b) is true iff exactly b of the functions are true, for every non-empty list and every b.",HIST+"; all list lengths and bounds","All lengths, all bounds.","include/bdd_mgr.h: cardinality")
p("C13","and_rec_limited","For every limit below SIZE_MAX (and if the constants' uninitialised mark bits happen to be unset), and_rec_limited returns either (null, SIZE_MAX) or a non-null handle which is the conjunction and, in order-preserving histories, the same handle that and_rec returns. Raising the limit changes no non-null answer. With a non-null result the returned number is at most the limit unless an operand is constant, and in order-preserving histories it is below 2^k, k being the number of variables the operands depend on; there a limit of at least 2^k-1 never gives null. The documented limit contract ('return conjunction if it has fewer than node_limit nodes, otherwise null') does not hold in either direction, and the returned number is not always the number of nodes.",HIST+"; all limits","Interaction of limit, sharing and memo hits.","src/bdd_mgr.cpp: bdd_mgr::and_rec_limited","include/bdd_mgr.h: and_rec_limited comment")
p("C14","rebase renames variables","rebase(p,map), for a hash map or a vector that maps every variable of p and maps nothing to 2^41-2 or above (for a constant p: the hash map only, and mark bits unset), returns a handle whose function is p's function with every variable v read as map[v] (the map need not be injective or monotone); this terminates without assertion failure.",HIST+"; all variable maps","All maps (injective or not), all BDDs.","include/bdd_mgr.h: bdd_mgr::rebase")
p("C15","evaluate is total and pure","evaluate on any live handle with an assignment covering the handle's own variables terminates, changes nothing, and its result depends only on the values of the handle's own variables.",HIST+"; all assignments","All graphs and assignments.","include/bdd_node.h: node_struct::evaluate")
p("C16","nr_nodes counts distinct inner nodes","nr_nodes of a non-constant handle equals the number of distinct inner nodes reachable from it and leaves the manager state exactly as it was.",HIST,"Depends on mark bits left behind by every earlier traversal.","src/bdd_node.cpp: node_struct::nr_nodes, nr_nodes_impl, unmark")
p("C17","nodes_postorder","nodes_postorder of a non-constant handle lists every reachable inner node exactly once, children before parents, ends with the handle itself, and leaves the state unchanged.",HIST,"All shared graph shapes.","src/bdd_node.cpp: node_struct::nodes_postorder")
p("C18","nodes_bfs","nodes_bfs of a non-constant handle lists every reachable inner node exactly once, starts with the handle itself, lists every other node after at least one of its parents, and leaves the state unchanged.",HIST,"All shared graph shapes.","src/bdd_node.cpp: node_struct::nodes_bfs")
p("C19","variables is the support","In order-preserving histories variables() returns, strictly increasing, exactly the variables on which the handle's function depends; in every history without garbage collection the list is strictly increasing and contains at least those.",HIST,"Semantic dependence quantifies over all assignments.","src/bdd_node.cpp: node_struct::variables")
p("C20","exactly_one_solution","In order-preserving histories exactly_one_solution() is true iff exactly one assignment of the variables the function depends on makes it true.",HIST,"Quantifies over all assignments.","src/bdd_node.cpp: node_struct::exactly_one_solution")
p("C21","Reference counts are exact","After any history without garbage collection, every node's reference_count equals the number of live handles on it plus the number of arcs from stored nodes to it (plus one for the two constants); so it is non-negative and smaller than the number of nodes plus the number of handles.",HIST,"A count over the whole heap after arbitrary histories.","src/bdd_node.cpp: node_ref constructors, destructor, operator=","src/bdd_node.cpp: init_new_node")
p("C22","Operations are total and handles persistent","Every call whose preconditions are met ends normally or with the exception of C26 -- never in a failed assertion, undefined behaviour or an endless loop -- and (garbage collection excluded) changes neither the address nor the function nor the reachable nodes nor the node count of any existing live handle other than the one it assigns or destroys.",HIST,"All pairs of handle and later operation sequence.","src/bdd_mgr.cpp","src/bdd_var.cpp: var_struct::double_cache")
p("C23","Unique table finds every node","After any history without garbage collection, looking up (variable, low, high) in the table finds the node if one exists and otherwise terminates with 'absent'; no two nodes share variable, low and high; no node has equal children; asking for an existing node returns it and creates none; doubling the table changes the result of no lookup.",HIST+"; all hash keys including fully colliding ones","Linear probing with wrap-around under arbitrary collisions and table sizes.","src/bdd_var.cpp: unique_table_lookup, double_cache, next_free_slot")
p("C24","Node cache hands out distinct memory","The memory handed out for a new node belongs to no existing node, every node lies in an allocated page at a multiple of the node size, and manager.nr_nodes() equals 2 plus the number of inner nodes (without collection).",HIST+"; any number of pages","Page boundaries after 4096 nodes, arbitrary histories.","src/bdd_node_cache.cpp: reserve_node, increase_cache","include/bdd_mgr.h: nr_nodes")
p("C25","Table pages are large enough","The page a variable's table lives in always has at least mask+1 cells (mask+1 a power of two between 2^6 and 2^19), and one of those cells is free, through every sequence of doublings and page reuse across variables. The pages of different tables never overlap, nor does a table's page overlap one that is available for reuse, nor do two available ones; and no page is lost: every page of every allocated block is used by a table or available for reuse.",HIST,"Page reuse crosses size classes: pages are requested from one class and returned to another.","src/bdd_var.cpp: new_page, free_page","include/bdd_var.h: unique_table_page_cache")
p("C26","Capacity and the exception","A permitted call throws only when one variable labels more than 2^18 nodes, and no variable ever labels more than 2^18+1; such a history exists. After the exception every existing handle has kept its address and still evaluates to the same value under every assignment, every reference count still equals the number of handles and arcs to the node, and every further program that creates no nodes (copying, moving, assigning and destroying handles, low/high, all queries and traversals, adding BDDs to a collection) gives call by call the same results and handles as if the failed call had not been made (except that the number of variables may have grown). But the manager is not usable: destroying it never succeeds.",HIST,"Needs 2^18 nodes on one variable; the failure shows after the catch.","src/bdd_var.cpp: double_cache, new_page")
p("C27","The memo table is transparent","In histories that do not mix or with xor, emptying the memo table before a call changes neither that the call succeeds nor the function of its result; every memo entry whose operands and result are held by handles is a true equation (also in mixed histories, for and; for or/xor entries in unmixed ones).",HIST,"All memo states, collisions and doublings.","src/bdd_memo_cache.cpp")
p("C28","Garbage collection preserves live handles","For the first collect_garbage after an order-preserving history: if it returns, every live handle still evaluates to the same function, every node reachable from one keeps its variable and children, and no node was created; it never throws; it fails an assertion or has undefined behaviour only if some variable labels more than 32 nodes. After a collection that returned, every further program that creates no nodes (copying, moving, assigning and destroying handles, low/high, all queries and traversals, adding BDDs to a collection) gives call by call the same results and handles as it would have given without the collection. If no node is garbage, collect_garbage returns and changes nothing at all.",HIST+"; all patterns of dead nodes","All combinations of dead/live nodes and hash clusters.","src/bdd_mgr.cpp: collect_garbage","src/bdd_var.cpp: remove_dead_nodes")
p("C29","Operations after garbage collection can be wrong","There is a history x0, x1, r=x0&x1, drop r, collect_garbage, x2 after which and_rec(x0,x1) does not evaluate to the conjunction: the purge keeps memo entries that point to freed nodes.","existence; the claim refuted ranges over all histories with garbage collection","Needs a freed result node, reused, and a memo hit.","src/bdd_memo_cache.cpp: purge, can_be_purged")
p("C30","Garbage collection can run forever","There is a history without xor after which collect_garbage does not return, whatever bound is put on its number of steps: re-stored live nodes keep their old slot, the table fills up and the slot search cycles.","all step bounds, for one history; the claim refuted ranges over all histories","Non-termination cannot be observed by a test.","src/bdd_var.cpp: remove_dead_nodes, next_free_slot")
p("C31","Garbage collection can leak","There is a history after which no handle is live, collect_garbage returns, and nr_nodes() is not 2: only the first dead node of a cluster is returned.","existence; the claim refuted ranges over all histories","Depends on hash collisions.","src/bdd_var.cpp: remove_dead_nodes")
p("C32","Shrinking a table fails","With asserts on and with asserts off there is a history after which collect_garbage fails an assertion or has undefined behaviour: a table that became sparse is to be shrunk, and the page requested for it does not exist.","existence, for both build modes; the claim refuted ranges over all histories","Needs a table that has grown and then been emptied.","src/bdd_var.cpp: remove_dead_nodes lines 241-276")
p("C33","Destruction is clean","After an order-preserving history without collection, destroying all handles and then the manager triggers no assertion and no undefined behaviour, and all nodes but the constants are returned. The restriction is needed: after a single xor_rec(x0,x1) destruction fails.",HIST,"All reference-count patterns at exit.","src/bdd_mgr.cpp: ~bdd_mgr","src/bdd_var.cpp: release_nodes","src/bdd_node_cache.cpp: free_node")
p("C34","Results independent of addresses and hash keys","For a fixed program, run in two environments that differ in node addresses, random hash keys, argument evaluation order and NDEBUG: if the program preserves the variable order, the functions of all handles, which handles are equal, and the answers of exactly_one_solution, variables and nr_nodes are the same; if it does not but does not mix or with xor, every handle still has the same function; if it mixes or with xor, the functions can differ.","all programs; all pairs of environments","Nondeterminism sources cannot be enumerated by tests.","src/bdd_mgr.cpp: f.ref > g.ref comparisons","src/bdd_node.cpp: hash key generator")
p("C35","Node count is minimal","In order-preserving histories nr_nodes() of a non-constant handle is at most the number of nodes of any other ordered decision graph over the manager's variables that computes the same function.",HIST+"; all decision graphs","Minimality quantifies over all other representations.","src/bdd_var.cpp: unique_find")
p("C36","low/high are cofactors","In order-preserving histories variable() of a non-constant handle is the smallest variable the function depends on, and low()/high() evaluate to the function with that variable fixed to false/true.",HIST,"All handles.","include/bdd_node.h: node_ref::low, high, variable")
p("C40","Collection add_bdd","add_bdd of a non-constant handle appends one BDD with nr_nodes+2 entries which evaluates like the handle for every assignment; earlier BDDs of the collection are untouched. add_bdd of a constant is undefined behaviour (whenever the constants' mark bits happen to be unset).",HIST+"; all collections","All shared shapes and prior collections.","src/bdd_collection.cpp: add_bdd")
p("C41","Collection bdd_and (two operands)","bdd_and(i,j) of jointly satisfiable BDDs with a limit above 2 either returns SIZE_MAX and changes nothing, or appends exactly one BDD, evaluating to the conjunction for every assignment, and leaves every other BDD identical. (Conjunctions of 2^62 or more entries, which no memory holds, are excepted.)","all collections the API can build and all index pairs","Memo/unique tables over arbitrary graphs.","src/bdd_collection.cpp: bdd_and, bdd_and_impl")
p("C42","Collection bdd_and (ranges)","bdd_and over an iterator range of 2..49 jointly satisfiable BDDs does the same for the conjunction of all of them; of one BDD it returns that BDD and changes nothing; of none or of more than 49 it throws.","all collections the API can build, all ranges","As C41, for every arity.","include/bdd_collection.h: bdd_and(range)","src/bdd_collection.cpp: bdd_and<N>")
p("C43","bdd_and node limit","If bdd_and of 2..49 jointly satisfiable BDDs succeeds under some limit and its result has n entries (terminals included), then n is at most that limit and for every other limit above 2 the call gives the same result if n <= limit and otherwise returns SIZE_MAX and leaves the collection unchanged.","all collections the API can build and all limits","Early abort during construction versus size of the finished BDD.","src/bdd_collection.cpp: bdd_and, bdd_and_impl")
p("C44","bdd_and of a contradiction","bdd_and of 2..49 ordered BDDs that are not jointly satisfiable fails an assertion when asserts are on, and without asserts appends a BDD that evaluates to true everywhere (it should be false).","all collections built from ordered BDDs and all unsatisfiable ranges","Needs an unsatisfiable conjunction.","src/bdd_collection.cpp: bdd_and lines 30-42")
p("C45","Stored BDDs are reduced and ordered","Every stored BDD consists of inner entries followed by one false and one true terminal; arcs go forward and stay inside; children are distinct; no entry occurs twice. If the collection was built without bdd_or_var and without rerouting arcs, every entry is reachable from the first; if only BDDs from order-preserving histories are added, maps are increasing, arcs are only rerouted to nodes with a larger variable (or a terminal) and bdd_or_var drops fewer than 128 entries, variables increase along every arc, even of unreachable entries.","all collections the API can build (add_bdd, bdd_and, injective rebase, remove; bdd_or_var and rerouting arcs, as long as is_bdd accepts the result)","Structural invariant over all histories.","src/bdd_collection.cpp: is_bdd, bdd_and_impl, add_bdd")
p("C46","export_bdd inverts add_bdd","export_bdd(mgr, add_bdd(p)) returns p itself; export_bdd of any stored BDD whose variables the manager has returns a handle evaluating like the stored BDD; in order-preserving histories it is the very handle with that function.",HIST+"; all collections","All graphs; round trip through two representations.","src/bdd_collection.cpp: export_bdd, add_bdd")
p("C47","bdd_mgr::add_bdd imports","In xor-free histories bdd_mgr::add_bdd(col, nr) creates the missing variables and returns a handle evaluating like the stored BDD, if asserts are off or the BDD ends before cell 1003, and either BDD and history are ordered or the manager has a variable above all of the BDD's. With asserts on it aborts for every BDD that ends at cell 1003 or later.",HIST+"; all collections","Relies on ite's special cases.","src/bdd_mgr.cpp: bdd_mgr::add_bdd")
p("C48","Collection rebase","rebase(nr,map) and rebase(nr,begin,end), for any map (or range indexed by the variable) defined on the variables of BDD nr, makes BDD nr evaluate as before with variable v read as map[v] and changes the function of no other BDD; an injective map keeps the collection well formed.","all collections the API can build, all maps","All maps and shapes.","include/bdd_collection.h: bdd_collection::rebase")
p("C49","Collection remove","remove of a strictly increasing list of BDDs that is empty or contains the last BDD deletes exactly those, and the remaining BDDs keep their functions, in order. For every other non-empty list remove is undefined behaviour (it dereferences the end iterator).","all collections the API can build and sorted index lists","Needs BDDs after the last removed one.","include/bdd_collection.h: bdd_collection::remove")
p("C50","bdd_or_var","bdd_or_var(i,pos,neg), whenever it returns, has appended one BDD, with at most as many entries as BDD i, and kept all other BDDs; in debug builds the result is, if it has an inner entry, a BDD like any other. That BDD is true exactly where BDD i is true or evaluation of BDD i at x looks at a variable on which a given literal is true, provided the root of BDD i stays distinct from all other entries and non-redundant and fewer than 128 entries are dropped; so it is the disjunction with the literals if every evaluation that satisfies a literal looks at its variable, in particular, for ordered BDDs, for one literal on the root variable if the root's other arc does not lead to true. It does return if every entry made redundant by the redirection was reached only through entries made redundant or arcs redirected to true, no two remaining entries become equal, and at most 127 entries go. Otherwise it is broken: for a literal on a variable that BDD i does not contain, the result is false wherever BDD i is; an entry made redundant that a remaining entry points to gives a failed assertion (undefined behaviour without asserts); literals that make the root redundant (x and not x for the root variable x; or x, if the root's other arc leads to true) return the function of the second entry instead of true; literals that make every entry redundant return a BDD without inner entries that is false (for BDDs stored by add_bdd) instead of true; entries that become unreachable are kept; 128 dropped entries overflow a char; merged duplicates can fail.","all collections the API can build and all literal sets","Needs a BDD with a path skipping the variable, or one of the failing shapes.","include/bdd_collection.h: bdd_or_var","src/bdd_collection.cpp: reduce")
p("C51","Builder interface is unusable","For every collection: with asserts on, add_bdd_node after new_bdd fails an assertion; with asserts off, new_bdd, any positive number of add_bdd_node calls and close_bdd store one more BDD, under the number new_bdd returned, and evaluating it is undefined behaviour.","all collections and variables","Undefined behaviour may appear to work in a test.","src/bdd_collection.cpp: new_bdd, add_bdd_node, close_bdd")
p("C52","Collection queries","variables(nr) is the strictly increasing list of variables of the stored BDD, nr_bdd_nodes(nr) its number of entries, nr_bdd_nodes(nr,v) the number of entries labelled v.","all collections the API can build","All contents.","src/bdd_collection.cpp: variables, nr_bdd_nodes")
p("C53","Entry traversal","first_node_postorder followed by next_postorder visits every inner node exactly once, children before parents, ending at the root; following lo()/hi() from the root by variable() arrives at the terminal that evaluate gives.","all collections the API can build","All sizes.","src/bdd_collection.cpp: bdd_collection_entry, bdd_collection_node")
p("C54","Entry terminals","entry.botsink()/topsink() return the false/true terminal of every BDD stored by add_bdd. For every result of bdd_and they fail an assertion, and without asserts return each other's terminal.","all collections the API can build","Depends on how the BDD was created.","src/bdd_collection.cpp: bdd_collection_entry::botsink, topsink, bdd_and")
p("C55","Collection evaluate","evaluate(nr,x) terminates for every stored BDD and every assignment, returns a value if the assignment covers the BDD's variables, and depends on no others.","all collections the API can build and all assignments","All graphs.","include/bdd_collection.h: evaluate")
p("C56","Number of variables","projection(v) is correct for every v below 2^41-2. The README's \"up to 2^41 variables\" does not hold: with 2^41-2 variables present, projection of the next one is wrong, because its index is read as that of a constant.","all variable numbers","Needs 2^41 variables.","include/bdd_node.h: botsink_index, topsink_index","README.md")
p("C57","Depth bookkeeping","If nodes are added with every child before its parents, bdd_node_depth reports for each node the length of the longest path to a constant; nodes_postorder is such an order.","all managers, all bottom-up insertion orders","All graphs.","src/bdd_node_depth.cpp")
p("C58","Operators find their manager","operators & | ^ ! on any live handle find the manager the node belongs to (also when the operand is a constant) and behave exactly like the member functions.",HIST,"Search path depends on node shape.","src/bdd_node.cpp: find_bdd_mgr","include/bdd_mgr.h: operators")
p("C59","print lists every arc","print of a non-constant handle writes, for every reachable inner node exactly once, its low arc and its high arc, and leaves the state unchanged.",HIST,"All shared shapes.","include/bdd_node.h: print, print_rec")
p("C60","Traversals of constants fail","nr_nodes of a constant handle can fail (it depends on an uninitialised mark bit), and nodes_bfs of a constant handle can have undefined behaviour with and without asserts.","existence, for both build modes; the claims refuted range over all histories and handles","Uninitialised memory usually happens to be zero in tests.","src/bdd_node.cpp: init_botsink, nr_nodes, nodes_bfs")
p("C61","Destruction after a collection can fail","With asserts on and with asserts off there is a history with a garbage collection after which destroying all handles and then the manager does not return all nodes: an assertion fails or nodes leak.","existence, for both build modes; the claim refuted ranges over all histories with garbage collection","Depends on hash collisions of dead nodes.","src/bdd_var.cpp: remove_dead_nodes, release_nodes","src/bdd_mgr.cpp: ~bdd_mgr")
p("C62","Mark bits","Between API calls no inner node is marked. node_struct::mark marks exactly the inner nodes below its argument, is idempotent and is undone by unmark_rec; node_ref::mark changes only the mark of that node and is undone by unmark or unmark_rec; all leave everything but mark bits unchanged. With asserts on, nr_nodes and nodes_postorder of a marked root fail an assertion.",HIST+"; all nodes","All shared shapes.","include/bdd_node.h: node_ref::mark, unmark, unmark_rec, marked","src/bdd_node.cpp: mark, unmark_rec")
p("C63","Size of results","In order-preserving histories: the negation has exactly as many nodes as the operand; a conjunction or disjunction of handles with a and b nodes has at most (a+1)(b+1)-1 nodes; an if-then-else of handles with a, b and c nodes at most (a+2)(b+2)(c+2).",HIST,"All handles and orders; a bound on the size of every result.","src/bdd_mgr.cpp: and_rec, or_rec, negate, ite_rec")
p("C64","Size of counting constraints","In order-preserving histories, over k variables in any order: cardinality(b) has at most k(b+1) nodes, simplex and at_most_one at most 2k, at_least(b) at most kb, at_most(b) (b <= k) at most k(b+1); every function of the number of true variables that is constant from B on has at most kB nodes; projection has one. A BDD has at least one node for every variable its value depends on, a non-constant function of the number of true variables at least one for each of its variables, and all_false and at_least_one over k different variables have exactly k.",HIST+"; all numbers of variables and bounds","Unbounded families of inputs.","include/bdd_mgr.h: simplex, at_most_one, at_least, cardinality")
p("C65","Rerouting arcs","set_lo_arc/set_hi_arc of an inner node of a stored BDD to a later node of the same BDD changes the BDD's value exactly at the assignments that come by the rerouted arc, to the value of the target, and changes no other BDD; set_{lo,hi}_to_{0,1}_terminal do the same with the constant for every BDD stored by add_bdd. For results of bdd_and the latter fail an assertion or, without asserts, lead to the wrong constant. Rerouting to an earlier node from which the node is reached again makes evaluate run forever, and a node both of whose arcs lead to a terminal makes bdd_and wrong. is_bdd accepts the rerouted BDD exactly if the new arc leads forward, the other arc of the node leads elsewhere and no other node has the same variable and arcs, and then everything said about stored BDDs applies to it.","all collections the API can build, all nodes, targets and assignments","All graphs and assignments; the failures need particular shapes.","src/bdd_collection.cpp: bdd_collection_node::set_lo_arc, set_hi_arc, set_lo_to_0_terminal, set_lo_to_1_terminal, set_hi_to_0_terminal, set_hi_to_1_terminal")
p("C66","export_graphviz draws the BDD","export_graphviz of a stored BDD writes, whatever the iteration order of the hash maps: one cluster per variable and one for the terminals, holding every entry exactly once with its label; invisible arrows through one node of every variable, in increasing order; one solid and one dashed arrow per inner entry. Following the arrows of the picture gives exactly the value evaluate returns. Without asserts, export of the BDD that bdd_and stores for a contradiction is undefined behaviour.","all collections the API can build, all iteration orders of the hash maps, all assignments","Output order is unspecified; the picture must denote the function for every assignment.","include/bdd_collection.h: export_graphviz")
p("C67","Entry and node objects","For entries of the same collection, operator& appends the conjunction and returns its entry (for jointly satisfiable BDDs; conjunctions of 2^62 or more entries are excepted); for contradictory ordered BDDs it fails an assertion or, without asserts, returns an entry that is true everywhere. collection[nr][k] is the k-th node, the root for k=0, a terminal exactly for the last two, and with asserts on k past the end fails an assertion; two nodes compare equal iff they are the same node.","all collections the API can build and all indices","All contents.","src/bdd_collection.cpp: bdd_collection_entry, bdd_collection_node::operator==, bdd_collection::operator[]")
p("C68","Instruction ranges","get_bdd_instructions(nr) is the range of the entries of BDD nr, in node order. get_reverse_bdd_instructions(nr) is the same range, for no stored BDD its reverse.","all collections the API can build","Must hold for every stored BDD.","include/bdd_collection.h: get_bdd_instructions, get_reverse_bdd_instructions")
p("C69","The consistency check of debug builds is exact","For any contents of a collection whose delimiters are increasing and in range, the check that debug builds assert after every operation that stores a BDD (is_bdd) returns, without assertion failure or undefined behaviour, whether BDD i has at least two entries, the last two are different and each has two equal arcs, and all others are pairwise different, with two different arcs each that lead forward and stay inside. All BDDs of a collection built by the API are accepted.","all vectors of entries and delimiters","All graphs, including ill-formed ones.","src/bdd_collection.cpp: is_bdd")
p("C70","Pages of the unique tables never overlap and keep their contents","In every history of reserve_page and free_page on the fifteen page caches of a manager and of writes to pages in use, where a page may be given back to any class not larger than the length asked for (as the unique tables do), down to memory words and with the free list threaded through the free pages themselves: reserve_page returns memory inside one allocated block, not null, overlapping no page in use, and zeroed; every word of a page in use is what its user last wrote; free_page succeeds and the next reserve_page on that class returns that page. If a single class is used, nr_pages() is at least the number of pages in use and less than the largest number ever in use plus one batch.","all histories of reserve_page, free_page and writes, all addresses returned by new[]","All interleavings over fifteen classes; overlap needs a particular order of give and take.","include/bdd_var.h: unique_table_page_cache::reserve_page, free_page, increase_cache, nr_pages","src/bdd_var.cpp: new_page, free_page")
p("C71","The node cache hands out every node once","In every history of reserve_node (followed by init_new_node) and free_node of nodes no node in use points to: reserve_node always returns a node that is not in use, is none of the constants and lies in an allocated page, and changes no node; a node in use keeps variable and children whatever is reserved and freed; freeing an unreferenced node succeeds and the next reserve_node returns it; nr_nodes() is the number of nodes in use plus the two constants; reference counts are the number of children in nodes in use, plus one for the constants. A page is allocated only when more nodes are in use, with the constants, than the pages so far can hold.","all histories of reserve and free, in any order, across any number of page allocations","All interleavings of reserve and free.","src/bdd_node_cache.cpp: reserve_node, free_node, increase_cache","include/bdd_node_cache.h: nr_nodes","src/bdd_node.cpp: init_new_node")
p("C72","Killing and reviving nodes","After any history without garbage collection: node_struct::recursively_kill on an inner node kills exactly this node (its count becomes -1) although nodes below may be referenced from nowhere else: each child loses one reference and nothing else changes; recursively_revive then gives back all counts except that the node's own count is 0, so for an unreferenced node the two calls cancel. deref through a live handle does to the manager exactly what destroying that handle does. node_struct::hash_code returns, changes nothing and is 8 * (variable of the low child) xor 4 * (variable of the high child), with 2^41-1 and 2^41-2 for false and true, without overflow.",HIST+"; all inner nodes","All reference-count patterns and shared shapes.","src/bdd_node.cpp: node_struct::recursively_revive, recursively_kill, deref, hash_code")
p("C73","What a call creates","After any history without garbage collection, when projection, neg_projection, negate, unique_find, and_rec, or_rec, xor_rec, ite_rec or one of the operators returns, every node it has created is a node of the BDD it returns: no intermediate node is left behind, and nr_nodes() of the manager grows by at most the size of the result. In an ordered manager conjunction, disjunction and and_rec_limited (also when it gives up) of BDDs with a and b nodes add at most (a+1)(b+1)-1 nodes to the manager and negation at most a; ite_rec of BDDs with a, b and c nodes adds at most (a+2)(b+2)(c+2); a projection or a unique_find adds at most one (in every manager). As long as the manager's node count plus that bound is at most 2^18 the call returns: no exception, no other failure.",HIST+"; all operands","The growth depends on all earlier calls and on the memo table; the bound must hold for all shapes.","src/bdd_mgr.cpp: projection, neg_projection, negate, and_rec, or_rec, xor_rec, ite_rec; src/bdd_var.cpp: unique_find, double_cache; include/bdd_mgr.h: nr_nodes")
p("C74","Recursion depth","In an ordered manager with n variables no call recurses deeper than its number of variables allows, whatever the history: negate, nr_nodes, nodes_postorder, exactly_one_solution, find_bdd_mgr and evaluate need at most n+1 nested activations, ite_rec likewise at most n+1 of itself, and and_rec, or_rec and and_rec_limited at most 2n+2 (one call may only exchange its arguments). Stack use is linear in n and does not depend on the number of nodes. In every history, ordered or not, the number of nodes of the operands bounds the depth: negate, nr_nodes, nodes_postorder, exactly_one_solution, find_bdd_mgr and evaluate of a BDD with n nodes need at most n+1 nested activations, and_rec, and_rec_limited, or_rec and xor_rec of BDDs with n and m nodes at most 2(n+m)+2, ite_rec at most n+m+o+1.",HIST+"; all live handles","Stack depth depends on the deepest shared path; a test sees only its own graphs.","src/bdd_mgr.cpp: negate, and_rec, and_rec_limited, or_rec, xor_rec, ite_rec; src/bdd_node.cpp: nr_nodes_impl, nodes_postorder, exactly_one_solution, find_bdd_mgr; include/bdd_node.h: evaluate")
p("C75","Work done by negate and by the traversals","negate keeps no record of the nodes it has already negated: if there are P paths from the node of its argument to a constant, a call that returns enters negate exactly 2P-1 times. In an ordered manager with n variables that is less than 2^(n+1), and this growth is real: for every n with 0 < n < 2^16 some history with n variables creates a BDD of at most 2n nodes on which negate enters itself at least 2^n times and returns. The traversals in contrast are linear, whatever the history: for a non-constant BDD with n nodes nr_nodes, variables and print enter their recursive functions (those of unmark included) at most 4n+2 times in total, nodes_postorder at most 8n+4 times and nodes_bfs at most 7n+4 times (tests of its queue included); the last two include the call of nr_nodes with which debug builds check the result.",HIST+"; all live handles; all n","The number of calls depends on the sharing in the graph; the exponential case only shows on graphs no unit test would finish on.","src/bdd_mgr.cpp: negate; src/bdd_node.cpp: nr_nodes, nr_nodes_impl, nodes_postorder, nodes_bfs, variables, unmark; include/bdd_node.h: print")
p("C76","Size of stored BDDs","In collections built from order-preserving histories by add_bdd, bdd_and with satisfiable result, rebase with increasing maps and remove: two stored BDDs (of one or of two collections) with the same function have the same number of entries, two more than the nr_nodes of a handle with that function, and no ordered decision graph for the function has fewer inner nodes. bdd_and of 2..49 jointly satisfiable ordered BDDs with n1, n2, ... entries (terminals included) has at most (n1-1)(n2-1)...+1 entries, and every limit of at least that is enough (products of 2^62-3 or more, which no memory holds, are excepted): the call does not give up. The last part also holds with bdd_or_var and rerouting that keep the order.","all histories of collections; all operands and limits","The size must be bounded for all shapes of operands and all orders of construction; that a limit is always enough cannot be tested.","src/bdd_collection.cpp: bdd_and, bdd_and_impl, add_bdd; include/bdd_collection.h: bdd_and, bdd_and_impl, nr_bdd_nodes")
p("C77","Work done by bdd_and on stored BDDs","bdd_and remembers a pair (tuple) of entries only when the call for it has stored a new entry, not when its result is a constant, one of its two branches or an entry stored before. For ordered BDDs over variables below n a bdd_and of 2..49 operands with any limit (below 2^62) enters its recursive function fewer than 2^(n+1) times, whether it finds the result or gives up, and never has more than n+1 activations of it open at once. No bound polynomial in the operands' sizes and no bound through the limit exists: for every n with 0 < n < 2^16-1 there is a collection of two jointly satisfiable BDDs with at most 2n+6 entries each, both added from a manager, such that bdd_and of the two enters its recursive function more than 2^n times under every limit, even under limit 3, and returns a BDD of 3 entries.","all histories of collections; all operands and limits; all n","The number of calls depends on the shape of the operands; the exponential case only shows on inputs no unit test would finish on.","src/bdd_collection.cpp: bdd_and, bdd_and_impl; include/bdd_collection.h: bdd_and, bdd_and_impl")
p("C78","Work done by and_rec, or_rec and ite_rec","In an ordered manager with n variables a call of and_rec or or_rec that returns has entered itself fewer than 2^(n+2) times, and a call of ite_rec has entered itself fewer than 2^(n+1) times, whatever the history, the contents of the memo cache and the collisions in it (activations of the and_rec, or_rec and xor_rec that ite_rec falls back on are not counted). Without order the exponent is the number of nodes of the operands instead: fewer than 2^(n+m+2) for and_rec and or_rec of n and m nodes, 2^(n+m+l+1) for ite_rec of n, m and l nodes. Asking again for a conjunction or disjunction that has just been computed, in either order of the operands and in every kind of history, enters and_rec (or_rec) at most twice, gives the same node and changes nothing in the manager.",HIST+"; all live handles; all cache contents","The number of calls depends on the shape of the graphs and on which earlier results the cache has overwritten; a test sees only its own.","src/bdd_mgr.cpp: and_rec, or_rec, ite_rec; src/bdd_memo_cache.cpp: cache_lookup, cache_insert, double_cache")
p("C79","The memo cache loses nothing when it grows, and and/or take product time when nothing collides","In every history each occupied slot of the memo cache is the slot its operands and tag hash to, so a lookup for them finds the entry. Enlarging the cache keeps every entry and leaves each where a lookup searches it: no result is lost or becomes unreachable. If, for operands with n and m nodes, no two different pairs of nodes share a slot of the cache, then a call of and_rec or or_rec that returns has entered itself at most 4*n*m + 2 times, whatever else the cache contains (compare the exponential bound of C78, which holds with collisions).","all reachable worlds; all live handles; all cache contents, including an enlargement during the call","Which slots collide depends on random node hashes and the whole history; the loss of an entry only shows as lost time.","src/bdd_mgr.cpp: and_rec, or_rec; src/bdd_memo_cache.cpp: cache_lookup, cache_insert, double_cache, cache_hash")
p("C80","Memory held by a manager","After any successful history of API calls without garbage collection: the unique table of a variable has the initial 64 slots or fewer than 4 times as many slots as the variable has nodes; all unique tables together have at most 64 slots per variable plus 4 per node; the node cache has exactly as many pages of 4096 nodes as the nodes ever made (constants included) need; the memo cache has a power of two of slots, at most 2^22.","all reachable worlds of histories without collect_garbage; every variable; both build modes","How far tables have grown depends on the whole history and on which doublings happened when; a test sees a few sizes of a few histories.","src/bdd_var.cpp: unique_find, double_cache; src/bdd_node_cache.cpp: reserve_node, increase_cache; src/bdd_memo_cache.cpp: cache_insert, double_cache")
p("C81","The work of xor_rec","A call of xor_rec that returns has entered itself fewer than 2^(n + m + 2) times for operands with n and m nodes, whatever the cache contains; at most 4*n*m + 2 times if no two different pairs of nodes of the operands share a slot of the cache (calls of negate, made when an operand is the constant true, come on top, see C75). An exclusive or of two functions that are not constant, asked again right after it was computed, in either order, is answered with at most two activations and changes nothing.","all reachable worlds of histories that use xor (with or without or), ordered or not; all live handles; all cache contents","xor_rec splits at the larger variable, so its results are not ordered and the level bound of and/or does not apply; which slots collide depends on random hashes and the whole history.","src/bdd_mgr.cpp: xor_rec; src/bdd_memo_cache.cpp: cache_lookup, cache_insert")
if __name__=='__main__':
    with open('/verif/properties.jsonl','w') as f:
        for x in P: f.write(json.dumps(x)+"\n")
    print(len(P))
