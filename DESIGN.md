# Formal model of pawelswoboda/LBDD in Rocq (Coq 8.16.1)

## 1. Layout of `rocq/theories`

Model (every definition cites the lines of /repo it models):

| file | models |
|---|---|
| `Base.v` | environment (`Env`), machine state, outcomes, monad |
| `NodeModel.v` | `include/bdd_node.h`, `src/bdd_node.cpp` |
| `TableModel.v` | `src/bdd_node_cache.cpp`, `include/bdd_var.h`, `src/bdd_var.cpp` |
| `PageModel.v` | `unique_table_page_cache` of `include/bdd_var.h` again, at the level of memory words (`TableModel.v` keeps the cells of a table with its page, not in one common memory; C25_pages_private and C70 justify that) |
| `MemoModel.v` | `include/bdd_memo_cache.h`, `src/bdd_memo_cache.cpp` |
| `MgrModel.v` | `include/bdd_mgr.h`, `src/bdd_mgr.cpp` |
| `CollModel.v` | `include/bdd_collection.h`, `src/bdd_collection.cpp`, `bdd_mgr::add_bdd`, `src/bdd_node_depth.cpp` |
| `Client.v` | client programs: API calls (`op`) over a manager and a vector of `node_ref`s (`world`); `step` runs one call |

Specification vocabulary, independent of the proofs:

| file | contents |
|---|---|
| `Spec.v` | `val`/`evals` (what a handle evaluates to), `yields` (what a call returns), `keeps`, `subnode`, `dep`, `allowed` (preconditions of each call), `reach` (all histories), kinds of histories (`mode`), well-formed collections |
| `SpecColl.v` | the same for collections: `cval`, `cvar`, `cappends`, `built` (all collections the API can build: by add_bdd, bdd_and, rebase, remove, and by bdd_or_var and rerouting arcs as long as is_bdd accepts the result), `fbuilt` (without the last two), `obuilt` (those built from ordered managers, with increasing rebases, rerouting to larger variables and bdd_or_var while it drops fewer than 128 entries), `ofbuilt` (both) |

Theorems (named `Cnn_...` after the property): `PropsOps.v`, `PropsState.v`, `PropsState2.v`, `PropsColl.v` ... `PropsColl9.v`,
`PropsGc.v`, `PropsGc2.v`, `PropsPage.v`, `PropsAlloc.v`, `PropsMin.v`, `PropsEnv.v`, `PropsCap.v`, `PropsThrow.v`, `PropsThrow2.v`, `PropsKill.v`, `PropsGrow.v`, `PropsGrow2.v`, `PropsDepth.v`, `PropsCost.v` ... `PropsCost4.v`, `PropsCollSize.v`, `PropsCollCost.v`, `PropsSlot.v`, `PropsProd.v`, `PropsMem.v`, `PropsXor.v`, `PropsMark.v`, `PropsSize.v`, `Refute.v` ... `Refute4.v`.
`Witness.v` ... `Witness17.v` apply every theorem that has hypotheses to a concrete case (`ex_Cnn_...`).
`Assumptions.v` prints the axioms of all of them.

Proofs: `Tree.v` (canonicity), `Wp.v` (triples), `Probe.v` (linear probing), `Inv.v` (the invariant), `UniqueFind.v`, `Memo.v`,
`Ops.v`, `Ite.v`, `IteExact.v`, `Nary.v`, `Trav.v`, `Trav2.v`, `Api.v`, `Handle.v`, `Rebase.v`, `Limited.v`, `Destroy.v`,
`Gc.v`, `Coll.v`, `CollAdd.v`, `CollExp.v`, `CollAnd.v`, `CollAnd2.v`, `CollMisc.v`, `CollRem.v`, `CollBase.v`, `OrVar.v`, `World.v`, `World2.v`,
`World3.v`; `Check.v` and `TestEnv.v` (one concrete environment) serve the examples and counterexamples.

## 2. The model
* Pointers are byte addresses (`N`); `size_t` is `N` with explicit wrap-around where the code can wrap.
* Everything the program does not determine is in the class `Env`: NDEBUG or not, order of evaluation of
  function arguments, addresses returned by `new`, the random hash keys, the uninitialised fields of the two
  sinks. Theorems quantify over every `Env` satisfying `env_ok` (pages disjoint, not in the zero page, keys in range).
* Outcomes: `Ok`, or `Fail` with a failed assert, undefined behaviour, a C++ exception, or "did not finish
  within the bound". UB is an observable outcome, never assumed away. The recursion bounds are a
  function of the heap size; the theorems prove them sufficient, so no positive theorem relies on them. Garbage collection
  takes its bound as an argument, and C30 is about every bound.
* The heap holds real nodes (lo, hi, index, hash key, mark bit, reference count); the unique tables are open
  addressing arrays with linear probing; the memo table, page caches and node cache are modelled as they are.
* A history (`reach md w`) is any list of permitted calls that all returned. `md` says which kinds of calls may occur:
  `MOrd` (everything that keeps variables ordered), `MOr` (also unordered rebase), `MXor` (xor instead of or), `MMix`
  (everything except garbage collection).

## 3. How the properties are proved
1. *Trees.* `repr h p t`: address `p` represents tree `t` in heap `h`; `evalt t` is its function. Reduced ordered
   trees with equal functions are equal (classical canonicity, by induction).
2. *Invariant* of a manager state: sinks intact, nodes acyclic with distinct children, every variable's table is a
   correct linear-probing table holding exactly its nodes, free counter exact, page capacity sufficient, every memo
   entry a true equation, node cache fresh, reference counts exact. Parameterised by the mode: what memo tag 64 means (the code
   uses one tag for or and xor; in mixed histories it means nothing) and whether all nodes are ordered.
3. *Total correctness triples* for each function: from the invariant the function ends in `Ok` with the invariant, the
   heap extended, and the result representing the specified function -- or throws with a table of more than 2^18
   nodes. Induction on fuel; fuel bounded by tree height; height bounded by heap size (pigeonhole on a path).
4. *Traversals* (nr_nodes, postorder, variables, print, unmark) are shown equal to one pure depth-first search over a
   set of marked nodes; bfs separately.
5. *Reachability*: every world reached by client programs satisfies the invariant (induction over the program).
   Property theorems are stated about such worlds, in terms of what `evaluate` and the other queries return.
6. *Collections*: a stored BDD is well formed; `bdd_and` is proved by an invariant over stack / generated / reduction tables.
7. What one would expect and is false of the code: the expected claim is stated in full and disproved
   (`..._refuted`), by a concrete program run in the model by `vm_compute` or, where possible, for every case.
   The property lists both what holds and what does not.

## 4. Per property
* C01-C06, C08-C15, C27, C36, C58: step 3, then step 5. C02, C04, C05, C11, C13 have a refuted half.
* C04: `Ite.v` under the exact safety condition; `IteExact.v` shows that without it the call cannot return.
* C07, C19, C20, C34, C35: step 1 + step 3 in ordered modes. C07 refuted with xor. C34: two runs of one program in two
  environments, related by induction over the program.
* C16-C18, C59, C60, C62: step 4.
* C63, C64: by counting the distinct cofactors of the functions (Myhill-Nerode style), using canonicity.
* C61: a concrete run in both build modes.
* C21, C22, C23, C24, C25: parts of the invariant, exported as theorems about reachable worlds. Pages have identities (block, offset, length), so C25 also says that no two tables overlap and no page is lost.
* C26: positive half from step 3; that the exception is reachable by an inductive construction of a history with 2^18
  nodes; that destruction then fails by an argument about the state after the throw.
  That handles survive a throw is proved syntactically (`PropsThrow.v`): every manager function except collection and destruction, however it ends, keeps children, variable and key of every stored node. `PropsThrow2.v` does the same for exact reference counts; with the specification of the throwing state (no marks left) this starts the simulation of C28, so that programs which create no nodes cannot tell that the failed call was made.
* C28: invariant for the scanning loops of the collector; a simulation between the run with and the run without the collection (same nodes outside the freed set, reference counts shifted by a constant) for programs that create no nodes. C29-C32: counterexamples.
* C33: loop invariant over the variables released so far, using exact reference counts and the variable order.
* C40-C55, C65-C69: step 6 (`CollModel2.v` models rerouting, entries, ranges and `export_graphviz`). C56: bit-field collision, by induction up to 2^41-2 variables. C57: induction over insertion order.
* C72 (`PropsKill.v`): by evaluation in a state described by its counts; the invariant gives every child a count of at least one.
* C73 (`PropsGrow.v`, `PropsGrow2.v`): no-garbage holds for every state and argument (a frame argument over all operations: new nodes are below the result); for calls that throw, an induction shows that every node created so far has the function `op a b` for sub-BDDs a, b of the operands; canonicity makes these distinct, which bounds the heap, and C26 says a throw needs more than 2^18 nodes of one variable. For ite_rec the created functions are `if a then b else c` for sub-BDDs a, b, c of the operands or sinks.
* C74 (`PropsDepth.v`; `PropsDepth2.v` for histories without order, where the depth of a diagram is bounded by its nodes): the model's recursive functions carry the number of activations left; running out is the failure `ELoop`. The limited function agrees with any less limited one unless it runs out (a syntactic monotonicity argument), and the specifications of step 3 need only as much as the paths are long.
* C75 (`PropsCost.v`): counting versions of negate, nr_nodes_impl, unmark and nr_nodes return, besides the result, how often they were entered; `counted` theorems say that otherwise they are the same code. negate follows the unfolded tree, so its count is that tree's size (2P-1 for P paths); the traversals are bounded by the number of marks set and cleared. The exponential family is the pair of parity functions built bottom-up with `unique_find`. `PropsCost3.v` does the same for nodes_postorder, variables and print (each walks as nr_nodes_impl does, shown by simulation) and for nodes_bfs (every test of its queue but the last lists a node). Finding: negate, unlike and_rec, or_rec and ite_rec, is not memoised.
* C76 (`PropsCollSize.v`): the entries of a stored BDD are in bijection with the inner subtrees of its tree (every entry reachable, none twice), so canonicity fixes their number. For bdd_and an invariant over the run: every node ever pushed, also by a run that then hits the limit, is the conjunction of a tuple of subtrees of the operands; canonicity makes the tuples distinct.
* C77 (`PropsCollCost.v`): counting versions of the two bdd_and_impl functions, shown to be the same code (`C77_and_counted`). Upper bound by induction on the variable of the call. Exponential family: `if x0 then 1 else parity` and `if x0 then 1 else not parity`; in the 0-branch every pair of nodes has the conjunction 0, so nothing is ever recorded and the whole unfolded tree is walked. Finding: generated_nodes is only filled when a node is pushed (bdd_collection.cpp:94-107, 266-279), so the limit does not bound the work either.
* C78 (`PropsCost2.v`): counting versions of and_rec, or_rec and ite_rec (`C78_*_counted`: the same code). For and/or an invariant of the call: with m variables from the smallest one on, at most 4*2^m - 3 activations, one more if the arguments have to be exchanged; ite by C74's depth. Without order (`PropsCost4.v`): heights instead of levels, a diagram being no deeper than it has nodes. Repeating: the last line of a call that missed the cache stores its result, taking the handle changes neither the cache nor the node hashes, so the lookup of the next call hits the stored slot.
* C79 (`PropsSlot.v`, `PropsProd.v`): in every history an occupied slot of the memo cache is the slot its operands hash to; double_cache therefore moves an entry from slot k only to k or to k + size, where nothing lives. For the product bound a potential argument on the counting versions of C78: activations made so far <= 2 + 4 * (pairs of nodes whose result is in the cache). A call that misses the cache stores a new pair and, the slots of all pairs being different, overwrites none; pairs stay in different slots when the cache is enlarged (the new mask extends the old).
* C80 (`PropsMem.v`): the table bound is part of the invariant of World.v (a table beyond 64 slots is more than a quarter full); summed over the variables by counting the nodes of each. The other two are an invariant of their own, preserved by every function of the model: pages of the node cache are filled one after the other and a new one is added only when the last is full; the memo cache only doubles, below 2^22. Not bounded: the capacity of the pages behind the tables, which are requested in a class twice as large (finding 21).
* C81 (`PropsXor.v`): counting version of xor_rec, the potential argument of C79 with negate leaving the cache alone, and the argument of C78 by heights in place of levels (xor results are not ordered): a diagram is no deeper than it has nodes. The answer to a repeated call is found as in C78; constant operands are left out because negate is computed anew.
* C70, C71: the two allocators as components, invariants over all histories of reserve and free (free lists as chains through memory). The manager
  uses the page caches within C70's protocol: a page is given back to a class not larger than its length (C25_page_large_enough).
  Observed while modelling: 128-slot tables take their page from cache_256 and give it back to cache_128, from which only a shrinking table (C32) takes.

Every property can be expressed in the model; none is marked not applicable.

## 5. Trusted base
* Coq 8.16.1 kernel, including `vm_compute` for the witnesses and counterexamples.
* `Print Assumptions` says "Closed under the global context" for every property theorem (checked for each separately with
  `tools/assumptions.py -each`, and for all together in `Assumptions.v`): no axioms at all. (The libraries loaded declare
  `Coq.ssr.ssrunder.Under_rel.*`, which no theorem uses.)
* Library code used: the Coq standard library and std++ (lists, finite maps, tactics).
* The reading of the C++ source (nothing is extracted or run): each definition cites the lines it models.

### Not modelled or simplified
* Temporaries' reference counts inside one API call (constructed and destroyed in pairs); `int` overflow of `xref` (by C21_count_range it cannot happen while nodes and handles together are fewer than 2^31).
* Freeing of the caches' own memory; moves of `var_struct`s on vector growth (which never run the destructor's asserts).
* `std::hash`; iteration order of unordered containers (observed only by `export_graphviz`, where it is an arbitrary permutation);
  stdout messages. The text written by `export_graphviz` is a list of statements, not of characters.
* `char` is signed (x86): `reduce` sums removals in a `std::vector<char>`.
* `bdd_collection::bdd_or(i, j)` and `bdd_mgr::transform_to_base` are declared in the headers and defined nowhere.
* Exceptions from memory exhaustion; threads (the library is single threaded). Histories (`reach`) contain
  no user calls of `node_ref::mark/unmark`, which let a client corrupt the traversal bits; C62 treats them as single calls.
* `new` returning addresses that were freed before (pages are only freed at destruction, so it cannot within one manager's life).

## 6. Testing the theorems
`seeded/mutants.py` lists realistic bugs as edits of the model; `tools/mutate.py` applies each in a scratch copy, rebuilds, replaces
proofs that no longer check by an appeal to a scratch axiom so that the build goes on, and records in `seeded/LOG.jsonl` which
property theorems depend on a broken proof. `missed` lists expected theorems that still proved; each of those led
to a tightened theorem (`theorems_tightened`).
