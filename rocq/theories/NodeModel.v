(** * NodeModel.v -- model of include/bdd_node.h and src/bdd_node.cpp *)
From Verif Require Export Base.
From stdpp Require Export sorting.

Open Scope N_scope.

Section node_model.
Context {E : Env}.

(** bdd_node.cpp:123-127 *)
Definition is_botsink (p : ptr) : M bool :=
  let* n := getN p in
  assert_ (Bool.eqb ((n_idx n =? topsink_index) || (n_idx n =? botsink_index)) (n_lo n =? n_hi n)) ;;*
  ret (n_idx n =? botsink_index).

(** bdd_node.cpp:138-142 *)
Definition is_topsink (p : ptr) : M bool :=
  let* n := getN p in
  assert_ (Bool.eqb ((n_idx n =? topsink_index) || (n_idx n =? botsink_index)) (n_lo n =? n_hi n)) ;;*
  ret (n_idx n =? topsink_index).

(** include/bdd_node.h:47 *)
Definition is_terminal (p : ptr) : M bool :=
  let* t := is_topsink p in if t then ret true else is_botsink p.

(** The C++ constructor node_ref(node* ) dereferences any non-null pointer to bump xref
    (bdd_node.cpp:264-269), so creating a temporary from a wild pointer is UB.
    Simplification used throughout: temporaries that are created and destroyed within one
    API call are not counted (RAII balances them and nothing observes the count in
    between); only the validity check remains. *)
Definition touch (p : ptr) : M ptr := if p =? 0 then ret 0 else getN p ;;* ret p.

(** include/bdd_node.h:93-94 *)
Definition low (p : ptr) : M ptr := let* n := getN p in touch (n_lo n).
Definition high (p : ptr) : M ptr := let* n := getN p in touch (n_hi n).
(** include/bdd_node.h:109 *)
Definition variable (p : ptr) : M N := let* n := getN p in ret (n_idx n).

(** include/bdd_node.h:133-147.  The assignment [var_begin, var_end) is a list of booleans;
    reading past its end is caught by the assert, or is UB when asserts are off. *)
Fixpoint evaluate_fuel (fuel : nat) (p : ptr) (x : list bool) : M bool :=
  match fuel with
  | O => fail ELoop
  | S fuel =>
    let* b := is_botsink p in if b then ret false else
    let* t := is_topsink p in if t then ret true else
    let* n := getN p in
    assert_ (n_idx n <? N.of_nat (length x)) ;;*
    match x !! N.to_nat (n_idx n) with
    | None => fail EUB
    | Some true => evaluate_fuel fuel (n_hi n) x
    | Some false => evaluate_fuel fuel (n_lo n) x
    end
  end.
(** include/bdd_node.h:106-107 *)
Definition evaluate (p : ptr) (x : list bool) : M bool := with_fuel (fun f => evaluate_fuel f p x).

(** bdd_node.cpp:163-173 *)
Fixpoint unmark_fuel (fuel : nat) (p : ptr) : M unit :=
  match fuel with
  | O => fail ELoop
  | S fuel =>
    let* t := is_terminal p in if t then ret tt else
    let* n := getN p in
    if n_mark n then
      modN p (with_mark false) ;;*
      unmark_fuel fuel (n_lo n) ;;*
      let* n' := getN p in
      unmark_fuel fuel (n_hi n')
    else ret tt
  end.
Definition unmark (p : ptr) : M unit := with_fuel (fun f => unmark_fuel f p).

(** bdd_node.cpp:151-161 (node_struct::mark, never called by the library itself) *)
Fixpoint mark_fuel (fuel : nat) (p : ptr) : M unit :=
  match fuel with
  | O => fail ELoop
  | S fuel =>
    let* t := is_terminal p in if t then ret tt else
    let* n := getN p in
    if n_mark n then ret tt else
      modN p (with_mark true) ;;*
      mark_fuel fuel (n_lo n) ;;*
      let* n' := getN p in
      mark_fuel fuel (n_hi n')
  end.
Definition mark (p : ptr) : M unit := with_fuel (fun f => mark_fuel f p).

(** bdd_node.cpp:219-231 (called only from cache_lookup, bdd_memo_cache.cpp:84) *)
Fixpoint recursively_revive_fuel (fuel : nat) (p : ptr) : M unit :=
  match fuel with
  | O => fail ELoop
  | S fuel =>
    modN p (with_xref (fun _ => 0%Z)) ;;*
    let* n := getN p in
    let* l := getN (n_lo n) in
    (if (n_xref l <? 0)%Z then recursively_revive_fuel fuel (n_lo n) else xref_inc (n_lo n)) ;;*
    let* n := getN p in
    let* h := getN (n_hi n) in
    if (n_xref h <? 0)%Z then recursively_revive_fuel fuel (n_hi n) else xref_inc (n_hi n)
  end.
Definition recursively_revive (p : ptr) : M unit := with_fuel (fun f => recursively_revive_fuel f p).

(** bdd_node.cpp:233-245 (called only from deref) *)
Fixpoint recursively_kill_fuel (fuel : nat) (p : ptr) : M unit :=
  match fuel with
  | O => fail ELoop
  | S fuel =>
    modN p (with_xref (fun _ => (-1)%Z)) ;;*
    let* n := getN p in
    let* l := getN (n_lo n) in
    (if (n_xref l =? 0)%Z then recursively_kill_fuel fuel (n_lo n) else xref_dec (n_lo n)) ;;*
    let* n := getN p in
    let* h := getN (n_hi n) in
    if (n_xref h =? 0)%Z then recursively_kill_fuel fuel (n_hi n) else xref_dec (n_hi n)
  end.
Definition recursively_kill (p : ptr) : M unit := with_fuel (fun f => recursively_kill_fuel f p).

(** bdd_node.cpp:247-253 (never called by the library itself) *)
Definition deref (p : ptr) : M unit :=
  let* n := getN p in
  if (n_xref n =? 0)%Z then recursively_kill p else xref_dec p.

(** bdd_node.cpp:144-149, node_struct::hash_code (never called by the library itself); shifts of
    std::size_t drop high bits *)
Definition node_hash_code (p : ptr) : M N :=
  let* n := getN p in
  assert_ (negb (n_lo n =? 0)) ;;*
  assert_ (negb (n_hi n =? 0)) ;;*
  let* l := getN (n_lo n) in
  let* h := getN (n_hi n) in
  ret (N.lxor ((n_idx l * 8) mod 2 ^ 64) ((n_idx h * 4) mod 2 ^ 64)).

Definition marked (p : ptr) : M bool := let* n := getN p in ret (n_mark n).

(** bdd_node.cpp:41-56 *)
Fixpoint nr_nodes_impl (fuel : nat) (p : ptr) : M N :=
  match fuel with
  | O => fail ELoop
  | S fuel =>
    let* t := is_terminal p in if t then ret 0 else
    let* n := getN p in
    assert_ (negb (n_mark n)) ;;*
    modN p (with_mark true) ;;*
    let* lm := marked (n_lo n) in
    let* c0 := (if lm then ret 0 else nr_nodes_impl fuel (n_lo n)) in
    let* hm := marked (n_hi n) in
    let* c1 := (if hm then ret 0 else nr_nodes_impl fuel (n_hi n)) in
    ret (1 + c0 + c1)
  end.

(** bdd_node.cpp:33-39.  When p is a sink its marked_ bit is uninitialised (bdd_node.cpp:115-136)
    and the assert reads it. *)
Definition nr_nodes (p : ptr) : M N :=
  let* m := marked p in
  assert_ (negb m) ;;*
  let* n := with_fuel (fun f => nr_nodes_impl f p) in
  unmark p ;;*
  ret n.

(** bdd_node.cpp:68-80; the output vector is threaded as an accumulator in push_back order *)
Fixpoint postorder_impl (fuel : nat) (p : ptr) (acc : list ptr) : M (list ptr) :=
  match fuel with
  | O => fail ELoop
  | S fuel =>
    let* t := is_terminal p in if t then ret acc else
    let* n := getN p in
    assert_ (negb (n_mark n)) ;;*
    modN p (with_mark true) ;;*
    let* lm := marked (n_lo n) in
    let* acc := (if lm then ret acc else postorder_impl fuel (n_lo n) acc) in
    let* hm := marked (n_hi n) in
    let* acc := (if hm then ret acc else postorder_impl fuel (n_hi n) acc) in
    ret (acc ++ [p])
  end.

(** bdd_node.cpp:58-66 *)
Definition nodes_postorder (p : ptr) : M (list ptr) :=
  let* m := marked p in
  assert_ (negb m) ;;*
  let* l := with_fuel (fun f => postorder_impl f p []) in
  unmark p ;;*
  assertM (let* n := nr_nodes p in ret (N.of_nat (length l) =? n)) ;;*
  ret l.

(** bdd_node.cpp:97-101 / 102-106: enqueue one child if it is an unmarked inner node *)
Definition bfs_child (c : ptr) (q : list ptr) : M (list ptr) :=
  let* t := is_terminal c in
  if t then ret q else
  let* m := marked c in
  if m then ret q else
  modN c (with_mark true) ;;* ret (q ++ [c]).

(** bdd_node.cpp:90-107 *)
Fixpoint bfs_loop (fuel : nat) (q nodes : list ptr) : M (list ptr) :=
  match fuel with
  | O => fail ELoop
  | S fuel =>
    match q with
    | [] => ret nodes
    | p :: q =>
      let* n := getN p in
      assert_ (n_mark n) ;;*
      let* q := bfs_child (n_lo n) q in
      let* q := bfs_child (n_hi n) q in
      bfs_loop fuel q (nodes ++ [p])
    end
  end.

(** bdd_node.cpp:82-112 *)
Definition nodes_bfs (p : ptr) : M (list ptr) :=
  let* m := marked p in
  assert_ (negb m) ;;*
  modN p (with_mark true) ;;*
  let* l := with_fuel (fun f => bfs_loop f [p] []) in
  unmark p ;;*
  assertM (let* n := nr_nodes p in ret (N.of_nat (length l) =? n)) ;;*
  ret l.

(** bdd_node.cpp:190-202 *)
Fixpoint variables_impl (fuel : nat) (p : ptr) (acc : list N) : M (list N) :=
  match fuel with
  | O => fail ELoop
  | S fuel =>
    let* t := is_terminal p in if t then ret acc else
    let* n := getN p in
    assert_ (negb (n_mark n)) ;;*
    modN p (with_mark true) ;;*
    let acc := acc ++ [n_idx n] in
    let* lm := marked (n_lo n) in
    let* acc := (if lm then ret acc else variables_impl fuel (n_lo n) acc) in
    let* hm := marked (n_hi n) in
    (if hm then ret acc else variables_impl fuel (n_hi n) acc)
  end.

(** std::unique + erase (bdd_node.cpp:186): drop adjacent duplicates *)
Fixpoint unique_adj (l : list N) : list N :=
  match l with
  | a :: ((b :: _) as r) => if a =? b then unique_adj r else a :: unique_adj r
  | _ => l
  end.
(** std::sort then std::unique + erase: bdd_node.cpp:185-186 *)
Definition sort_unique (l : list N) : list N := unique_adj (merge_sort N.le l).

(** bdd_node.cpp:180-188 *)
Definition variables (p : ptr) : M (list N) :=
  let* v := with_fuel (fun f => variables_impl f p []) in
  unmark p ;;*
  ret (sort_unique v).

(** bdd_node.cpp:204-216 *)
Fixpoint exactly_one_solution_fuel (fuel : nat) (p : ptr) : M bool :=
  match fuel with
  | O => fail ELoop
  | S fuel =>
    let* t := is_topsink p in if t then ret true else
    let* b := is_botsink p in if b then ret false else
    let* n := getN p in
    let* lb := is_botsink (n_lo n) in
    if lb then exactly_one_solution_fuel fuel (n_hi n) else
    let* hb := is_botsink (n_hi n) in
    if hb then exactly_one_solution_fuel fuel (n_lo n) else
    ret false
  end.
Definition exactly_one_solution (p : ptr) : M bool := with_fuel (fun f => exactly_one_solution_fuel f p).

(** bdd_node.cpp:255-262: returns the address of the manager *)
Fixpoint find_bdd_mgr_fuel (fuel : nat) (p : ptr) : M N :=
  match fuel with
  | O => fail ELoop
  | S fuel =>
    let* t := is_terminal p in
    let* n := getN p in
    if t then ret (n_lo n) else
    let* lt := is_terminal (n_lo n) in
    if lt then (let* l := getN (n_lo n) in ret (n_lo l)) else
    find_bdd_mgr_fuel fuel (n_hi n)
  end.
Definition find_bdd_mgr (p : ptr) : M N := with_fuel (fun f => find_bdd_mgr_fuel f p).

(** include/bdd_node.h:149-181: the arcs written to the stream, as
    (from, to, label) triples; sinks are written "bot"/"top" *)
Fixpoint print_rec (fuel : nat) (p : ptr) (out : list (ptr * ptr * bool)) : M (list (ptr * ptr * bool)) :=
  match fuel with
  | O => fail ELoop
  | S fuel =>
    let* t := is_terminal p in if t then ret out else
    let* n := getN p in
    assert_ (negb (n_mark n)) ;;*
    modN p (with_mark true) ;;*
    let out := out ++ [(p, n_lo n, false); (p, n_hi n, true)] in
    let* lm := marked (n_lo n) in
    let* out := (if lm then ret out else print_rec fuel (n_lo n) out) in
    let* hm := marked (n_hi n) in
    (if hm then ret out else print_rec fuel (n_hi n) out)
  end.
Definition print (p : ptr) : M (list (ptr * ptr * bool)) :=
  let* out := with_fuel (fun f => print_rec f p []) in
  unmark p ;;* ret out.

(** ** node_ref life cycle: bdd_node.cpp:264-304 *)
(** node_ref(node* ) and the copy constructor: bdd_node.cpp:264-276 *)
Definition ref_acquire (p : ptr) : M unit := if p =? 0 then ret tt else xref_inc p.
(** ~node_ref: bdd_node.cpp:278-285 *)
Definition ref_release (p : ptr) : M unit :=
  if p =? 0 then ret tt else
  let* n := getN p in assert_ (0 <? n_xref n)%Z ;;* xref_dec p.
(** operator= : bdd_node.cpp:296-304 (note: no assert on the decrement) *)
Definition ref_assign (old new : ptr) : M ptr :=
  (if old =? 0 then ret tt else xref_dec old) ;;*
  (if new =? 0 then ret tt else xref_inc new) ;;*
  ret new.
(** include/bdd_node.h:104: size_t reference_count() *)
Definition reference_count (p : ptr) : M Z := let* n := getN p in ret (n_xref n).

End node_model.
