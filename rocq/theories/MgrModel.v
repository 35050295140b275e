(** * MgrModel.v -- model of include/bdd_mgr.h and src/bdd_mgr.cpp

    Functions return the address held by the returned node_ref; the reference count of the
    returned handle is taken by the client model (Client.v).  Iterator ranges over node_refs
    are lists of addresses. *)
From Verif Require Export MemoModel.

Open Scope N_scope.

Section mgr_model.
Context {E : Env}.

(** bdd_mgr.cpp:8-11 *)
Definition mgr_init : mstate := MState heap_init nc_init (PCs ∅ 0) memo_init [] 0.

(** include/bdd_mgr.h:22-23 *)
Definition nr_variables (s : mstate) : N := N.of_nat (length (s_vars s)).
Definition mgr_nr_nodes (s : mstate) : N := nc_total (s_nc s).

(** bdd_mgr.cpp:19-24.  Growing the vector moves the var_structs (bdd_var.cpp:125-138), which
    preserves their contents. *)
Definition add_variable : M N :=
  let* s := get in
  assert_ (nr_variables s <? maxvarsize) ;;*
  let* t := new_var in
  set_vars (fun l => l ++ [t]) ;;*
  ret (nr_variables s).

Fixpoint add_variables (n : nat) : M unit :=
  match n with O => ret tt | S n => add_variable ;;* add_variables n end.

(** for(i = nr_variables(); i <= v; ++i) add_variable(): bdd_mgr.cpp:28-29, bdd_mgr.h:105-106 *)
Definition ensure_var (v : N) : M unit :=
  let* s := get in add_variables (N.to_nat (v + 1 - nr_variables s)).

(** bdd_mgr.cpp:26-33 *)
Definition projection (v : N) : M ptr :=
  ensure_var v ;;*
  let* s := get in
  assert_ (v <? nr_variables s) ;;*
  unique_find_v v botsink topsink.

(** bdd_mgr.cpp:35-39 *)
Definition neg_projection (v : N) : M ptr :=
  let* s := get in
  assert_ (v <? nr_variables s) ;;*
  unique_find_v v topsink botsink.

(** bdd_mgr.cpp:41-53 *)
Fixpoint negate_fuel (fuel : nat) (p : ptr) : M ptr :=
  match fuel with
  | O => fail ELoop
  | S fuel =>
    let* b := is_botsink p in if b then ret topsink else
    let* t := is_topsink p in if t then ret botsink else
    let* v := variable p in
    let* s := get in
    assert_ (v <? nr_variables s) ;;*
    let* (l, h) := args2 (let* q := low p in negate_fuel fuel q) (let* q := high p in negate_fuel fuel q) in
    unique_find_v v l h
  end.
Definition negate (p : ptr) : M ptr := with_fuel (fun n => negate_fuel n p).

(** bdd_mgr.cpp:55-59 *)
Definition mgr_unique_find (v : N) (lo hi : ptr) : M ptr :=
  let* s := get in
  assert_ (v <? nr_variables s) ;;*
  unique_find_v v lo hi.

(** bdd_mgr.cpp:61-101.  [&f_var < &g_var] compares addresses of elements of one vector,
    i.e. variable indices. *)
Fixpoint and_fuel (fuel : nat) (f g : ptr) : M ptr :=
  match fuel with
  | O => fail ELoop
  | S fuel =>
    if f =? g then ret f else
    if g <? f then and_fuel fuel g f else
    if f =? topsink then ret g else
    if f =? botsink then ret botsink else
    if g =? topsink then ret f else
    if g =? botsink then ret botsink else
    let* m := cache_lookup f g and_symb in
    if negb (m =? 0) then touch m else
    let* fv := variable f in
    let* gv := variable g in
    getV fv ;;* getV gv ;;*
    let v := if fv <? gv then fv else gv in
    let* f0 := (if v =? fv then low f else ret f) in
    let* g0 := (if v =? gv then low g else ret g) in
    let* r0 := and_fuel fuel f0 g0 in
    assert_ (negb (r0 =? 0)) ;;*
    let* f1 := (if v =? fv then high f else ret f) in
    let* g1 := (if v =? gv then high g else ret g) in
    let* r1 := and_fuel fuel f1 g1 in
    assert_ (negb (r1 =? 0)) ;;*
    let* r := unique_find_v v r0 r1 in
    assert_ (negb (r =? 0)) ;;*
    cache_insert f g and_symb r ;;*
    ret r
  end.
Definition and_rec (f g : ptr) : M ptr := with_fuel (fun n => and_fuel n f g).

(** bdd_mgr.cpp:164-216 *)
Fixpoint or_fuel (fuel : nat) (f g : ptr) : M ptr :=
  match fuel with
  | O => fail ELoop
  | S fuel =>
    if f =? g then ret f else
    if g <? f then or_fuel fuel g f else
    if f =? topsink then ret topsink else
    if f =? botsink then ret g else
    if g =? topsink then ret topsink else
    if g =? botsink then ret f else
    let* m := cache_lookup f g or_symb in
    if negb (m =? 0) then touch m else
    let* fv := variable f in
    let* gv := variable g in
    getV fv ;;* getV gv ;;*
    let v := if fv <? gv then fv else gv in
    let* f0 := (if v =? fv then low f else ret f) in
    let* g0 := (if v =? gv then low g else ret g) in
    let* r0 := or_fuel fuel f0 g0 in
    assert_ (negb (r0 =? 0)) ;;*
    let* f1 := (if v =? fv then high f else ret f) in
    let* g1 := (if v =? gv then high g else ret g) in
    let* r1 := or_fuel fuel f1 g1 in
    assert_ (negb (r1 =? 0)) ;;*
    let* r := unique_find_v v r0 r1 in
    (if negb (r =? 0) then cache_insert f g or_symb r else ret tt) ;;*
    ret r
  end.
Definition or_rec (f g : ptr) : M ptr := with_fuel (fun n => or_fuel n f g).

(** bdd_mgr.cpp:218-256.  Line 245: std::max, unlike the other operations. *)
Fixpoint xor_fuel (fuel : nat) (f g : ptr) : M ptr :=
  match fuel with
  | O => fail ELoop
  | S fuel =>
    if f =? g then ret botsink else
    if g <? f then xor_fuel fuel g f else
    if f =? botsink then ret g else
    if g =? botsink then ret f else
    if f =? topsink then negate g else
    if g =? topsink then negate f else
    let* m := cache_lookup f g xor_symb in
    if negb (m =? 0) then touch m else
    let* s := get in
    let* fv := variable f in
    assert_ (fv <? nr_variables s) ;;*
    let* gv := variable g in
    assert_ (gv <? nr_variables s) ;;*
    getV fv ;;* getV gv ;;*
    let v := if gv <? fv then fv else gv in
    let* f0 := (if v =? fv then low f else ret f) in
    let* g0 := (if v =? gv then low g else ret g) in
    let* r0 := xor_fuel fuel f0 g0 in
    assert_ (negb (r0 =? 0)) ;;*
    let* f1 := (if v =? fv then high f else ret f) in
    let* g1 := (if v =? gv then high g else ret g) in
    let* r1 := xor_fuel fuel f1 g1 in
    assert_ (negb (r1 =? 0)) ;;*
    let* r := unique_find_v v r0 r1 in
    (if negb (r =? 0) then cache_insert f g xor_symb r else ret tt) ;;*
    ret r
  end.
Definition xor_rec (f g : ptr) : M ptr := with_fuel (fun n => xor_fuel n f g).

(** bdd_mgr.cpp:258-306.  A terminal operand is given the *last* variable (lines 282-283), so
    when the split variable is the last one, low()/high() of a terminal is taken: its lo/hi
    word is the manager's address (bdd_node.cpp:117-118), hence [touch] yields UB. *)
Fixpoint ite_fuel (fuel : nat) (f g h : ptr) : M ptr :=
  match fuel with
  | O => fail ELoop
  | S fuel =>
    let* ft := is_topsink f in if ft then ret g else
    let* fb := is_botsink f in if fb then ret h else
    let* gt := (if g =? f then ret true else is_topsink g) in
    if gt then or_rec f h else
    let* hb := (if h =? f then ret true else is_botsink h) in
    if hb then and_rec f g else
    if g =? h then ret g else
    let* gb := is_botsink g in
    let* ht := (if gb then is_topsink h else ret false) in
    if ht then xor_rec topsink f else
    let* m := cache_lookup f g h in
    if negb (m =? 0) then touch m else
    let* s := get in
    let* vf := variable f in
    getV vf ;;*
    let* gterm := is_terminal g in
    let* vg := (if gterm then ret (nr_variables s - 1) else variable g) in
    getV vg ;;*
    let* hterm := is_terminal h in
    let* vh := (if hterm then ret (nr_variables s - 1) else variable h) in
    getV vh ;;*
    let v := N.min (N.min vf vg) vh in
    let* f0 := (if vf =? v then low f else ret f) in
    let* g0 := (if vg =? v then low g else ret g) in
    let* h0 := (if vh =? v then low h else ret h) in
    let* r0 := ite_fuel fuel f0 g0 h0 in
    assert_ (negb (r0 =? 0)) ;;*
    let* f1 := (if vf =? v then high f else ret f) in
    let* g1 := (if vg =? v then high g else ret g) in
    let* h1 := (if vh =? v then high h else ret h) in
    let* r1 := ite_fuel fuel f1 g1 h1 in
    assert_ (negb (r1 =? 0)) ;;*
    let* r := unique_find_v v r0 r1 in
    assert_ (negb (r =? 0)) ;;*
    cache_insert f g h r ;;*
    ret r
  end.
Definition ite_rec (f g h : ptr) : M ptr := with_fuel (fun n => ite_fuel n f g h).

(** bdd_mgr.cpp:104-162; the null node_ref is address 0, "no size" is [size_max] *)
Fixpoint and_limited_fuel (fuel : nat) (f g : ptr) (limit : N) : M (ptr * N) :=
  match fuel with
  | O => fail ELoop
  | S fuel =>
    if f =? g then
      let* n := nr_nodes f in
      if limit <? n then ret (0, size_max) else ret (f, n)
    else
    if g <? f then and_limited_fuel fuel g f limit else
    if f =? topsink then (let* n := nr_nodes g in ret (g, n)) else
    if f =? botsink then ret (botsink, 0) else
    if g =? topsink then (let* n := nr_nodes f in ret (f, n)) else
    if g =? botsink then ret (botsink, 0) else
    let* m := cache_lookup f g and_symb in
    if negb (m =? 0) then
      let* n := nr_nodes m in
      if n <=? limit then (let* m := touch m in ret (m, n)) else ret (0, size_max)
    else
    let* fv := variable f in
    let* gv := variable g in
    getV fv ;;* getV gv ;;*
    let v := if fv <? gv then fv else gv in
    let* f0 := (if v =? fv then low f else ret f) in
    let* g0 := (if v =? gv then low g else ret g) in
    let* (r0, n0) := and_limited_fuel fuel f0 g0 limit in
    assert_ (Bool.eqb (r0 =? 0) (n0 =? size_max)) ;;*
    assert_ (negb (r0 =? 0) || (n0 =? size_max)) ;;*
    if limit <? n0 then ret (0, size_max) else
    let* f1 := (if v =? fv then high f else ret f) in
    let* g1 := (if v =? gv then high g else ret g) in
    let* (r1, n1) := and_limited_fuel fuel f1 g1 limit in
    assert_ (Bool.eqb (r1 =? 0) (n1 =? size_max)) ;;*
    assert_ (negb (r1 =? 0) || (n1 =? size_max)) ;;*
    if (n0 =? size_max) || (n1 =? size_max) || (limit <? add64 n0 n1) then ret (0, size_max) else
    let* r := unique_find_v v r0 r1 in
    assert_ (negb (r =? 0)) ;;*
    cache_insert f g and_symb r ;;*
    ret (r, add64 n0 n1)
  end.
Definition and_rec_limited (f g : ptr) (limit : N) : M (ptr * N) :=
  with_fuel (fun n => and_limited_fuel n f g limit).

(** ** n-ary operations.  bdd_mgr.h:157-162, 179-184, 200-205 (variadic, at least two
    arguments; argument list given as head and tail) *)
Fixpoint nary_variadic (op : ptr -> ptr -> M ptr) (p : ptr) (tail : list ptr) : M ptr :=
  match tail with
  | [] => fail EUB (* no such overload: does not compile *)
  | [q] => op p q
  | q :: tail => let* t := nary_variadic op q tail in op p t
  end.
Definition and_variadic := nary_variadic and_rec.
Definition or_variadic := nary_variadic or_rec.
Definition xor_variadic := nary_variadic xor_rec.

(** bdd_mgr.h:164-177, 185-198, 206-219 (iterator range) *)
Fixpoint nary_range (op : ptr -> ptr -> M ptr) (fuel : nat) (l : list ptr) : M ptr :=
  match fuel with
  | O => fail ELoop
  | S fuel =>
    assert_ (2 <=? N.of_nat (length l)) ;;*
    match l with
    | [a; b] => op a b
    | [a; b; c] => let* t := op b c in op a t
    | _ =>
      let n := (length l / 2)%nat in
      let* a1 := nary_range op fuel (take n l) in
      let* a2 := nary_range op fuel (drop n l) in
      op a1 a2
    end
  end.
Definition and_range (l : list ptr) : M ptr := nary_range and_rec (S (length l)) l.
Definition or_range (l : list ptr) : M ptr := nary_range or_rec (S (length l)) l.
Definition xor_range (l : list ptr) : M ptr := nary_range xor_rec (S (length l)) l.

(** bdd_mgr.h:221-245: operator& | ^ ! locate the manager first *)
Definition via_mgr {A} (a : ptr) (m : M A) : M A :=
  let* g := find_bdd_mgr a in if g =? e_mgr then m else fail EUB.
Definition op_and (a b : ptr) := via_mgr a (and_rec a b).
Definition op_or (a b : ptr) := via_mgr a (or_rec a b).
Definition op_xor (a b : ptr) := via_mgr a (xor_rec a b).
Definition op_not (a : ptr) := via_mgr a (negate a).

(** ** Common functions *)

(** bdd_mgr.h:247-260 *)
Fixpoint all_false_fuel (fuel : nat) (l : list ptr) : M ptr :=
  match fuel with
  | O => fail ELoop
  | S fuel =>
    assert_ (0 <? N.of_nat (length l)) ;;*
    match l with
    | [a] => negate a
    | [a; b] => let* (x, y) := args2 (negate a) (negate b) in and_rec x y
    | _ =>
      let n := (length l / 2)%nat in
      let* (x, y) := args2 (all_false_fuel fuel (take n l)) (all_false_fuel fuel (drop n l)) in
      and_rec x y
    end
  end.
Definition all_false (l : list ptr) : M ptr := all_false_fuel (S (length l)) l.

(** or_rec(negate a, negate b): bdd_mgr.h:286, 289-291 *)
Definition not_both (a b : ptr) : M ptr :=
  let* (x, y) := args2 (negate a) (negate b) in or_rec x y.

(** bdd_mgr.h:278-302 *)
Fixpoint at_most_one_fuel (fuel : nat) (l : list ptr) : M ptr :=
  match fuel with
  | O => fail ELoop
  | S fuel =>
    assert_ (0 <? N.of_nat (length l)) ;;*
    match l with
    | [a] => ret topsink
    | [a; b] => not_both a b
    | [a; b; c] =>
      let* (x, y, z) := args3 (not_both a b) (not_both a c) (not_both b c) in
      and_variadic x [y; z]
    | _ =>
      let n := (length l / 2)%nat in
      let* amo1 := at_most_one_fuel fuel (take n l) in
      let* af1 := all_false (take n l) in
      let* amo2 := at_most_one_fuel fuel (drop n l) in
      let* af2 := all_false (drop n l) in
      let* (x, y) := args2 (and_rec amo1 af2) (and_rec amo2 af1) in
      or_rec x y
    end
  end.
Definition at_most_one (l : list ptr) : M ptr := at_most_one_fuel (S (length l)) l.

(** bdd_mgr.h:262-276 *)
Definition simplex (l : list ptr) : M ptr :=
  assert_ (0 <? N.of_nat (length l)) ;;*
  match l with
  | [a] => ret a
  | _ =>
    let* alo := or_range l in
    let* amo := at_most_one l in
    and_rec alo amo
  end.

(** bdd_mgr.h:304-308 *)
Definition at_least_one (l : list ptr) : M ptr := let* a := all_false l in negate a.

(** for(i = i0; i <= b; ++i) v.push_back(f(i)) -- bdd_mgr.h:326-327 etc. *)
Fixpoint tabulateM (f : nat -> M ptr) (is_ : list nat) : M (list ptr) :=
  match is_ with
  | [] => ret []
  | i :: is_ => let* x := f i in let* xs := tabulateM f is_ in ret (x :: xs)
  end.

(** vector element access left[i] *)
Definition vec_at (l : list ptr) (i : nat) : M ptr :=
  match l !! i with Some p => ret p | None => fail EUB end.

(** bdd_mgr.h:324-339 = 358-373 = 392-407 *)
Definition combine_halves (rec : list ptr -> nat -> M ptr) (l : list ptr) (b : nat) : M ptr :=
  let n := (length l / 2)%nat in
  let* lefts := tabulateM (rec (take n l)) (seq 0 (S b)) in
  let* rights := tabulateM (rec (drop n l)) (seq 0 (S b)) in
  let* comb := tabulateM (fun i => let* x := vec_at lefts i in
                                   let* y := vec_at rights (b - i) in and_rec x y) (seq 0 (S b)) in
  or_range comb.

(** bdd_mgr.h:310-340 *)
Fixpoint at_least_fuel (fuel : nat) (l : list ptr) (b : nat) : M ptr :=
  match fuel with
  | O => fail ELoop
  | S fuel =>
    assert_ (0 <? N.of_nat (length l)) ;;*
    if (length l <? b)%nat then ret botsink else
    match l, b with
    | [a], 1%nat => ret a
    | _, O => ret topsink
    | _, _ => combine_halves (at_least_fuel fuel) l b
    end
  end.
Definition at_least (l : list ptr) (b : nat) : M ptr := at_least_fuel (S (length l)) l b.

(** bdd_mgr.h:342-374 *)
Fixpoint at_most_fuel (fuel : nat) (l : list ptr) (b : nat) : M ptr :=
  match fuel with
  | O => fail ELoop
  | S fuel =>
    assert_ (0 <? N.of_nat (length l)) ;;*
    if (length l <? b)%nat then ret botsink else
    match l, b with
    | [a], 1%nat => ret topsink
    | [a], O => negate a
    | _, O => all_false l
    | _, _ => combine_halves (at_most_fuel fuel) l b
    end
  end.
Definition at_most (l : list ptr) (b : nat) : M ptr := at_most_fuel (S (length l)) l b.

(** bdd_mgr.h:376-408 *)
Fixpoint cardinality_fuel (fuel : nat) (l : list ptr) (b : nat) : M ptr :=
  match fuel with
  | O => fail ELoop
  | S fuel =>
    assert_ (0 <? N.of_nat (length l)) ;;*
    if (length l <? b)%nat then ret botsink else
    match l, b with
    | [a], 1%nat => ret a
    | [a], O => negate a
    | _, O => all_false l
    | _, _ => combine_halves (cardinality_fuel fuel) l b
    end
  end.
Definition cardinality (l : list ptr) (b : nat) : M ptr := cardinality_fuel (S (length l)) l b.

(** ** rebase *)

(** bdd_mgr.h:113-123 / 141-151: one node of the copy loop; [vm] is the variable lookup,
    [None] meaning the assert at 115 / 143 fails (and the access is UB without asserts) *)
Definition rebase_node (vm : N -> option N) (q : ptr) (nm : gmap N N) : M (gmap N N) :=
  let* n := getN q in
  match vm (n_idx n) with
  | None => assert_ false ;;* fail EUB
  | Some v =>
    match nm !! n_lo n, nm !! n_hi n with
    | Some l, Some h =>
      getV v ;;*
      let* r := unique_find_v v l h in
      (* std::unordered_map::insert does not overwrite *)
      ret (match nm !! q with Some _ => nm | None => <[q := r]> nm end)
    | _, _ => assert_ false ;;* fail EUB
    end
  end.
Fixpoint rebase_loop (vm : N -> option N) (qs : list ptr) (nm : gmap N N) : M (gmap N N) :=
  match qs with
  | [] => ret nm
  | q :: qs => let* nm := rebase_node vm q nm in rebase_loop vm qs nm
  end.
Definition rebase_copy (vm : N -> option N) (p : ptr) : M ptr :=
  let* po := nodes_postorder p in
  let* nm := rebase_loop vm po (<[topsink := topsink]> (<[botsink := botsink]> ∅)) in
  match nm !! p with Some r => touch r | None => fail EUB end.

(** bdd_mgr.h:99-126 *)
Definition rebase_map (p : ptr) (vm : gmap N N) : M ptr :=
  let last := map_fold (fun _ y acc => N.max y acc) 0 vm in
  ensure_var last ;;*
  rebase_copy (fun v => vm !! v) p.

(** bdd_mgr.h:128-154.  Line 132: variables().back() of a constant is UB (asserts on);
    line 133: *max_element of an empty range is UB. *)
Definition rebase_vec (p : ptr) (vm : list N) : M ptr :=
  assertM (let* vs := variables p in
           match last vs with Some b => ret (b <=? N.of_nat (length vm)) | None => fail EUB end) ;;*
  match vm with
  | [] => fail EUB
  | _ =>
    let last := foldr N.max 0 vm in
    ensure_var last ;;*
    rebase_copy (fun v => vm !! N.to_nat v) p
  end.

(** ** Garbage collection and destruction *)

(** bdd_mgr.cpp:389-395 *)
Fixpoint gc_vars (fuel : nat) (vs : list nat) : M unit :=
  match vs with
  | [] => ret tt
  | v :: vs => remove_dead_nodes fuel (N.of_nat v) ;;* gc_vars fuel vs
  end.
Definition collect_garbage (fuel : nat) : M unit :=
  let* s := get in
  gc_vars fuel (seq 0 (length (s_vars s))) ;;*
  purge.

(** bdd_mgr.cpp:13-17 *)
Fixpoint release_all (vs : list nat) : M unit :=
  match vs with
  | [] => ret tt
  | v :: vs => release_nodes (N.of_nat v) ;;* release_all vs
  end.
(** bdd_var.cpp:151-158: ~var_struct.  The loop only evaluates asserts. *)
Definition var_destroy (v : N) : M unit :=
  let* t := getV v in
  (if 63 <=? vt_mask t
   then assertM (let* l := liftR (cells t) in ret (forallb (fun p => p =? 0) l)) else ret tt) ;;*
  free_page (vt_page t) (vt_mask t).
Fixpoint destroy_vars (vs : list nat) : M unit :=
  match vs with
  | [] => ret tt
  | v :: vs => var_destroy (N.of_nat v) ;;* destroy_vars vs
  end.
(** ~bdd_mgr, then its members in reverse order of declaration (bdd_mgr.h:92-95): the var_structs;
    the memo vector, page caches (bdd_var.h:150-154) and node pages only return memory. *)
Definition mgr_destroy : M unit :=
  let* s := get in
  release_all (seq 0 (length (s_vars s))) ;;*
  destroy_vars (seq 0 (length (s_vars s))).

End mgr_model.
