(** * CollModel.v -- model of include/bdd_collection.h, src/bdd_collection.cpp,
    bdd_mgr::add_bdd (src/bdd_mgr.cpp:397-429) and src/bdd_node_depth.cpp

    A collection is the pair of vectors bdd_instructions / bdd_delimiters
    (bdd_collection.h:174-175).  The scratch members (stack, generated_nodes, reduction,
    node_ref_hash, lines 178-184) are empty between calls (they are cleared at the end of
    each function that fills them), so they are local values here.  std::unordered_map is a
    finite map (gmap): iteration order is never observed by the modelled functions.
    Vector indices out of range are UB. *)
From Verif Require Export MgrModel.

Open Scope N_scope.

(** bdd_collection.h:10-32 *)
Record instr := Instr { i_lo : N; i_hi : N; i_idx : N }.
Global Instance instr_eq_dec : EqDecision instr.
Proof. solve_decision. Defined.

(** bdd_collection.h:174-175 *)
Record coll := Coll { c_ins : list instr; c_del : list N }.
Definition coll_init : coll := Coll [] [0].

(** bdd_collection.h:15-21 *)
Definition cbot : N := 18446744073709551614. (* SIZE_MAX-1 *)
Definition ctop : N := 18446744073709551615. (* SIZE_MAX *)
Definition ci_botsink : instr := Instr cbot cbot cbot.
Definition ci_topsink : instr := Instr ctop ctop ctop.
Definition ci_is_bot (i : instr) : bool := i_idx i =? cbot.
Definition ci_is_top (i : instr) : bool := i_idx i =? ctop.
(** bdd_collection.h:23: a terminal is recognised by equal arcs *)
Definition ci_is_term (i : instr) : bool := i_lo i =? i_hi i.
(** bdd_collection.h:25 *)
Definition ci_eqb (a b : instr) : bool := (i_lo a =? i_lo b) && (i_hi a =? i_hi b) && (i_idx a =? i_idx b).
(** bdd_collection.h:29-31 *)
Definition temp_bot : N := 18446744073709551615.
Definition temp_top : N := 18446744073709551614.
Definition temp_undef : N := 18446744073709551613.

(** vector element access *)
Definition vecR {A} (l : list A) (i : N) : R A :=
  match l !! N.to_nat i with Some a => inr a | None => inl EUB end.

(** bdd_collection.h:134 *)
Definition nr_bdds (c : coll) : N := N.of_nat (length (c_del c)) - 1.
Definition back_del (c : coll) : N := default 0 (last (c_del c)).

Section coll_model.
Context {E : Env}.

(** evaluation of an assert whose condition reads memory *)
Definition assertRR (r : R bool) : R unit :=
  if e_ndebug then inr tt else letR* b := r in assertR b.

(** bdd_delimiters[i] *)
Definition del_at (c : coll) (i : N) : R N := vecR (c_del c) i.

(** bdd_collection.cpp:392-396 *)
Definition nr_bdd_nodes (c : coll) (i : N) : R N :=
  letR* _ := assertR (i <? nr_bdds c) in
  letR* a := del_at c i in
  letR* b := del_at c (i + 1) in
  inr (sub64 b a).

(** instructions [a, b) as read by the various for loops; an index past the end is UB *)
Definition slice (c : coll) (a b : N) : R (list instr) :=
  if b <=? a then inr [] else
  if b <=? N.of_nat (length (c_ins c))
  then inr (take (N.to_nat (b - a)) (drop (N.to_nat a) (c_ins c))) else inl EUB.

(** bdd_collection.cpp:398-406 *)
Definition nr_bdd_nodes_var (c : coll) (i v : N) : R N :=
  letR* _ := assertR (i <? nr_bdds c) in
  letR* a := del_at c i in
  letR* b := del_at c (i + 1) in
  letR* l := slice c a b in
  inr (N.of_nat (length (filter (fun x => i_idx x = v) l))).

(** bdd_collection.cpp:422-445: the loop over the inner nodes, [seen] is bdd_nodes *)
Fixpoint is_bdd_loop (l : list instr) (i first last_ : N) (seen : list instr) : bool :=
  match l with
  | [] => true
  | x :: l =>
    if ci_is_term x then false else
    if (i_lo x <=? i) || (i_hi x <=? i) then false else
    if (last_ <=? i_lo x) || (last_ <=? i_hi x) then false else
    if (i_lo x <? first) || (i_hi x <? first) then false else
    if existsb (ci_eqb x) seen then false else
    is_bdd_loop l (i + 1) first last_ (x :: seen)
  end.
(** bdd_collection.cpp:408-448 *)
Definition is_bdd (c : coll) (nr : N) : R bool :=
  letR* _ := assertR (nr <? nr_bdds c) in
  letR* n := nr_bdd_nodes c nr in
  if n <? 2 then inr false else
  letR* a := del_at c nr in
  letR* b := del_at c (nr + 1) in
  letR* t1 := vecR (c_ins c) (b - 1) in
  letR* t2 := vecR (c_ins c) (b - 2) in
  if negb (ci_is_term t1) then inr false else
  if negb (ci_is_term t2) then inr false else
  if ci_eqb t2 t1 then inr false else
  letR* l := slice c a (b - 2) in
  inr (is_bdd_loop l a a b []).

(** ** evaluate: bdd_collection.h:187-205.  Every arc of a stored BDD goes forward, so a
    walk makes at most |instructions| steps: fuel = |instructions| + 1. *)
Fixpoint c_eval_fuel (fuel : nat) (c : coll) (i : N) (x : list bool) : R bool :=
  match fuel with
  | O => inl ELoop
  | S fuel =>
    letR* b := vecR (c_ins c) i in
    if ci_is_top b then inr true else
    if ci_is_bot b then inr false else
    letR* _ := assertR (i_idx b <? N.of_nat (length x)) in
    match x !! N.to_nat (i_idx b) with
    | None => inl EUB
    | Some true => c_eval_fuel fuel c (i_hi b) x
    | Some false => c_eval_fuel fuel c (i_lo b) x
    end
  end.
Definition c_evaluate (c : coll) (nr : N) (x : list bool) : R bool :=
  letR* _ := assertR (nr <? nr_bdds c) in
  letR* a := del_at c nr in
  c_eval_fuel (S (length (c_ins c))) c a x.

(** ** bdd_and *)

(** stack, generated_nodes, reduction: bdd_collection.h:178-181 *)
Record cst := CSt { st_stack : list instr; st_gen : gmap (list N) N; st_red : gmap (N * N * N) N }.

(** lines 94-107 = 266-279: look up or create the node for (lo,hi,v).  The result
    [size_max] means "limit exceeded". *)
Definition meld (key : list N) (lo hi v limit : N) (st : cst) : N * cst :=
  if lo =? hi then (lo, st) else
  match st_red st !! (lo, hi, v) with
  | Some r => (r, st)
  | None =>
    let stk := st_stack st ++ [Instr lo hi v] in
    if limit <? N.of_nat (length stk) then (size_max, CSt stk (st_gen st) (st_red st)) else
    let m := N.of_nat (length stk) - 1 in
    (m, CSt stk
          (match st_gen st !! key with Some _ => st_gen st | None => <[key := m]> (st_gen st) end)
          (<[(lo, hi, v) := m]> (st_red st)))
  end.

(** bdd_collection.cpp:54-108.  Lines 65-75 as the compiler parses them: the [else if] of line
    73 belongs to the [if] of line 71 and is never taken. *)
Fixpoint bdd_and_impl2 (fuel : nat) (c : coll) (fi gi limit : N) (st : cst) : R (N * cst) :=
  match fuel with
  | O => inl ELoop
  | S fuel =>
    match st_gen st !! [fi; gi] with
    | Some r => inr (r, st)
    | None =>
      letR* f := vecR (c_ins c) fi in
      letR* g := vecR (c_ins c) gi in
      if ci_is_term f && ci_is_term g then
        inr ((if ci_is_top f && ci_is_top g then 1 else 0), st)
      else if ci_is_term f && negb (ci_is_term g) && ci_is_bot f then inr (0, st)
      else
        let v := N.min (i_idx f) (i_idx g) in
        letR* (lo, st) := bdd_and_impl2 fuel c (if v =? i_idx f then i_lo f else fi)
                                        (if v =? i_idx g then i_lo g else gi) limit st in
        if lo =? size_max then inr (size_max, st) else
        letR* (hi, st) := bdd_and_impl2 fuel c (if v =? i_idx f then i_hi f else fi)
                                        (if v =? i_idx g then i_hi g else gi) limit st in
        if hi =? size_max then inr (size_max, st) else
        inr (meld [fi; gi] lo hi v limit st)
    end
  end.

(** read one instruction per array element: bdd_collection.cpp:216-218 *)
Fixpoint vecsR (l : list instr) (is_ : list N) : R (list instr) :=
  match is_ with
  | [] => inr []
  | i :: is_ => letR* x := vecR l i in letR* xs := vecsR l is_ in inr (x :: xs)
  end.

(** bdd_collection.cpp:209-280 *)
Fixpoint bdd_and_implN (fuel : nat) (c : coll) (bs : list N) (limit : N) (st : cst) : R (N * cst) :=
  match fuel with
  | O => inl ELoop
  | S fuel =>
    match st_gen st !! bs with
    | Some r => inr (r, st)
    | None =>
      letR* fs := vecsR (c_ins c) bs in
      if forallb ci_is_top fs then inr (1, st) else
      if existsb ci_is_bot fs then inr (0, st) else
      let v := foldr N.min size_max (map i_idx fs) in
      letR* (lo, st) := bdd_and_implN fuel c
         (zip_with (fun f b => if i_idx f =? v then i_lo f else b) fs bs) limit st in
      if lo =? size_max then inr (size_max, st) else
      letR* (hi, st) := bdd_and_implN fuel c
         (zip_with (fun f b => if i_idx f =? v then i_hi f else b) fs bs) limit st in
      if hi =? size_max then inr (size_max, st) else
      inr (meld bs lo hi v limit st)
    end
  end.

(** bdd_collection.cpp:33-40 = 135-142: the stack is appended in reverse *)
Definition flush (off : N) (stk : list instr) : list instr :=
  let n := N.of_nat (length stk) in
  map (fun x => Instr (sub64 (sub64 (add64 off n) (i_lo x)) 1)
                      (sub64 (sub64 (add64 off n) (i_hi x)) 1) (i_idx x)) (reverse stk).

(** bdd_collection.cpp:25-51 = 126-153; result [size_max] = too many nodes *)
Definition and_finish (c : coll) (r : N * cst) : R (N * coll) :=
  let (root, st) := r in
  if root =? size_max then inr (size_max, c) else
  letR* _ := assertR (2 <? N.of_nat (length (st_stack st))) in
  let ins := c_ins c ++ flush (back_del c) (st_stack st) in
  let c' := Coll ins (c_del c ++ [N.of_nat (length ins)]) in
  letR* _ := assertRR (is_bdd c' (nr_bdds c)) in
  inr (nr_bdds c, c').

Definition st_init : cst := CSt [ci_botsink; ci_topsink] ∅ ∅.

(** bdd_collection.cpp:16-51.  Fuel: both indices only move forward. *)
Definition bdd_and2 (c : coll) (i j limit : N) : R (N * coll) :=
  letR* _ := assertR (i <? nr_bdds c) in
  letR* _ := assertR (j <? nr_bdds c) in
  letR* _ := assertR (2 <? limit) in
  letR* a := del_at c i in
  letR* b := del_at c j in
  letR* r := bdd_and_impl2 (S (2 * length (c_ins c))) c a b limit st_init in
  and_finish c r.

Fixpoint dels (c : coll) (bs : list N) : R (list N) :=
  match bs with
  | [] => inr []
  | b :: bs => letR* a := del_at c b in letR* l := dels c bs in inr (a :: l)
  end.

(** bdd_collection.cpp:110-153 *)
Definition bdd_andN (c : coll) (bs : list N) (limit : N) : R (N * coll) :=
  letR* _ := assertR (forallb (fun b => b <? nr_bdds c) bs) in
  letR* _ := assertR (2 <? limit) in
  letR* l := dels c bs in
  letR* r := bdd_and_implN (S (length bs * length (c_ins c))) c l limit st_init in
  and_finish c r.

(** bdd_collection.h:314-371 *)
Definition bdd_and_range (c : coll) (bs : list N) (limit : N) : R (N * coll) :=
  match bs with
  | [b] => inr (b, c)
  | [i; j] => bdd_and2 c i j limit
  | [] => inl EThrow
  | _ => if (length bs <=? 49)%nat then bdd_andN c bs limit else inl EThrow
  end.

(** ** add_bdd: bdd_collection.cpp:282-322 *)

(** lines 288-293: first pass, [hash] is node_ref_hash (insert does not overwrite) *)
Definition ins_new (k v : N) (m : gmap N N) : gmap N N :=
  match m !! k with Some _ => m | None => <[k := v]> m end.
Fixpoint add_pass1 (nodes : list ptr) (ins : list instr) (hash : gmap N N) : M (list instr * gmap N N) :=
  match nodes with
  | [] => ret (ins, hash)
  | p :: nodes =>
    (if e_ndebug then ret tt else let* t := is_terminal p in assert_ (negb t)) ;;*
    let* v := variable p in
    add_pass1 nodes (ins ++ [Instr size_max size_max v]) (ins_new p (N.of_nat (length ins)) hash)
  end.
(** lines 305-313: second pass over node i *)
Fixpoint add_pass2 (nodes : list ptr) (off i : N) (ins : list instr) (hash : gmap N N) : M (list instr) :=
  match nodes with
  | [] => ret ins
  | p :: nodes =>
    let* l := low p in
    let* h := high p in
    match hash !! l, hash !! h with
    | Some li, Some hi =>
      assert_ (i <? li) ;;* assert_ (i <? hi) ;;*
      let* old := liftR (vecR ins (off + i)) in
      add_pass2 nodes off (i + 1) (<[N.to_nat (off + i) := Instr li hi (i_idx old)]> ins) hash
    | _, _ => assert_ false ;;* fail EUB
    end
  end.
Definition c_add_bdd (c : coll) (root : ptr) : M (N * coll) :=
  assert_ (back_del c =? N.of_nat (length (c_ins c))) ;;*
  let* po := nodes_postorder root in
  let nodes := reverse po in
  let* (ins, hash) := add_pass1 nodes (c_ins c) ∅ in
  (* nodes.back() of an empty vector is UB (lines 296, 300).  node_ref::botsink()/topsink()
     (bdd_node.cpp:338-346) go through find_bdd_mgr. *)
  match last nodes with
  | None => fail EUB
  | Some q =>
    via_mgr q (ret tt) ;;*
    let hash := ins_new botsink (N.of_nat (length ins)) hash in
    let ins := ins ++ [ci_botsink] in
    let hash := ins_new topsink (N.of_nat (length ins)) hash in
    let ins := ins ++ [ci_topsink] in
    let* ins := add_pass2 nodes (back_del c) 0 ins hash in
    let c' := Coll ins (c_del c ++ [N.of_nat (length ins)]) in
    liftR (assertRR (is_bdd c' (nr_bdds c))) ;;*
    liftR (assertRR (letR* n := nr_bdd_nodes c' (nr_bdds c) in
                     inr (n =? N.of_nat (length nodes) + 2))) ;;*
    ret (nr_bdds c, c')
  end.

(** ** export_bdd: bdd_collection.cpp:324-363 *)
(** get_node_ref, lines 336-353 *)
Definition export_ref (c : coll) (a b i : N) (m : gmap N N) : M ptr :=
  assert_ (i <? N.of_nat (length (c_ins c))) ;;*
  let* x := liftR (vecR (c_ins c) i) in
  if ci_is_bot x then ret botsink else
  if ci_is_top x then ret topsink else
  assert_ (a <=? i) ;;* assert_ (i <? b) ;;*
  match m !! i with Some p => touch p | None => assert_ false ;;* fail EUB end.
(** the loop at 332-360 visits [is_] = b-3, b-4, ..., a *)
Fixpoint export_loop (c : coll) (a b : N) (is_ : list N) (m : gmap N N) : M (gmap N N) :=
  match is_ with
  | [] => ret m
  | i :: is_ =>
    let* x := liftR (vecR (c_ins c) i) in
    assert_ (negb (ci_is_term x)) ;;*
    let* lo := export_ref c a b (i_lo x) m in
    let* hi := export_ref c a b (i_hi x) m in
    let* r := mgr_unique_find (i_idx x) lo hi in
    export_loop c a b is_ (ins_new i r m)
  end.
Definition down_to (a b : N) : list N := (* b-1, ..., a *)
  map (fun k => b - 1 - N.of_nat k) (seq 0 (N.to_nat (b - a))).
Definition export_bdd (c : coll) (nr : N) : M ptr :=
  assert_ (nr <? nr_bdds c) ;;*
  liftR (assertRR (letR* n := nr_bdd_nodes c nr in inr (2 <? n))) ;;*
  let* a := liftR (del_at c nr) in
  let* b := liftR (del_at c (nr + 1)) in
  liftR (assertRR (letR* t := vecR (c_ins c) (b - 2) in inr (ci_is_term t))) ;;*
  liftR (assertRR (letR* t := vecR (c_ins c) (b - 1) in inr (ci_is_term t))) ;;*
  let* m := export_loop c a b (down_to a (b - 2)) ∅ in
  match m !! a with Some p => touch p | None => assert_ false ;;* fail EUB end.

(** ** bdd_mgr::add_bdd: src/bdd_mgr.cpp:397-429 *)
Fixpoint import_loop (c : coll) (is_ : list N) (m : gmap N N) : M (gmap N N) :=
  match is_ with
  | [] => ret m
  | i :: is_ =>
    let* x := liftR (vecR (c_ins c) i) in
    if ci_is_bot x then import_loop c is_ (ins_new i botsink m) else
    if ci_is_top x then import_loop c is_ (ins_new i topsink m) else
    assert_ (i <? 1000) ;;*
    match m !! i_lo x, m !! i_hi x with
    | Some lo, Some hi =>
      let* p := projection (i_idx x) in
      let* r := ite_rec p hi lo in
      import_loop c is_ (ins_new i r m)
    | _, _ => assert_ false ;;* fail EUB
    end
  end.
Definition mgr_add_bdd (c : coll) (nr : N) : M ptr :=
  assert_ (nr <? nr_bdds c) ;;*
  let* a := liftR (del_at c nr) in
  let* b := liftR (del_at c (nr + 1)) in
  let* m := import_loop c (down_to a b) ∅ in
  match m !! a with Some p => touch p | None => assert_ false ;;* fail EUB end.

(** ** rebase: bdd_collection.h:207-243; [vm] = None models the failing assert / wild read *)
Definition rebase_instr (vm : N -> option N) (x : instr) : R instr :=
  if ci_is_term x then inr x else
  match vm (i_idx x) with
  | Some v => inr (Instr (i_lo x) (i_hi x) v)
  | None => letR* _ := assertR false in inl EUB
  end.
Fixpoint rebase_instrs (vm : N -> option N) (l : list instr) : R (list instr) :=
  match l with
  | [] => inr []
  | x :: l => letR* y := rebase_instr vm x in letR* l := rebase_instrs vm l in inr (y :: l)
  end.
Definition c_rebase (c : coll) (nr : N) (vm : N -> option N) : R coll :=
  letR* _ := assertR (nr <? nr_bdds c) in
  letR* a := del_at c nr in
  letR* b := del_at c (nr + 1) in
  letR* l := slice c a b in
  letR* l' := rebase_instrs vm l in
  inr (Coll (take (N.to_nat a) (c_ins c) ++ l' ++ drop (N.to_nat (N.max a b)) (c_ins c)) (c_del c)).
Definition c_rebase_map (c : coll) (nr : N) (vm : gmap N N) := c_rebase c nr (fun v => vm !! v).
Definition c_rebase_vec (c : coll) (nr : N) (vm : list N) := c_rebase c nr (fun v => vm !! N.to_nat v).

(** ** variables: bdd_collection.cpp:527-542 (lines 533-534 only drop adjacent repetitions) *)
Definition c_variables (c : coll) (nr : N) : R (list N) :=
  letR* _ := assertR (nr <? nr_bdds c) in
  letR* a := del_at c nr in
  letR* b := del_at c (nr + 1) in
  letR* l := slice c a (sub64 b 2) in
  let vs := unique_adj (map i_idx l) in
  letR* _ := assertR (0 <? N.of_nat (length vs)) in
  inr (sort_unique vs).

(** ** remove: bdd_collection.h:245-301.  [rs] is the iterator range; reading [*bdd_it] once all
    of it has been consumed is UB (line 268). *)
Definition shift_instr (d : N) (x : instr) : R instr :=
  if ci_is_term x then inr x else
  letR* _ := assertR (d <=? i_lo x) in
  letR* _ := assertR (d <=? i_hi x) in
  inr (Instr (sub64 (i_lo x) d) (sub64 (i_hi x) d) (i_idx x)).
Fixpoint shift_instrs (d : N) (l : list instr) : R (list instr) :=
  match l with
  | [] => inr []
  | x :: l => letR* y := shift_instr d x in letR* l := shift_instrs d l in inr (y :: l)
  end.
Fixpoint remove_loop (c : coll) (nrs : list N) (rs : list N) (nc : coll) : R (list N * coll) :=
  match nrs with
  | [] => inr (rs, nc)
  | nr :: nrs =>
    match rs with
    | [] => inl EUB
    | r :: rs' =>
      if nr =? r then remove_loop c nrs rs' nc else
      letR* a := del_at c nr in
      letR* b := del_at c (nr + 1) in
      letR* _ := assertR (back_del nc <=? a) in
      letR* l := slice c a b in
      letR* l := shift_instrs (sub64 a (back_del nc)) l in
      let ins := c_ins nc ++ l in
      let n := N.of_nat (length ins) in
      letR* _ := assertR (2 <? sub64 n (back_del nc)) in
      remove_loop c nrs rs (Coll ins (c_del nc ++ [n]))
    end
  end.
Fixpoint strictly_sorted (l : list N) : bool :=
  match l with
  | a :: ((b :: _) as r) => (a <? b) && strictly_sorted r
  | _ => true
  end.
Fixpoint all_is_bdd (c : coll) (ns : list nat) : R bool :=
  match ns with
  | [] => inr true
  | n :: ns => letR* b := is_bdd c (N.of_nat n) in
               if b then all_is_bdd c ns else inr false
  end.
Definition c_remove (c : coll) (rs : list N) : R coll :=
  letR* _ := assertR (N.of_nat (length rs) <=? nr_bdds c) in
  letR* _ := assertR (strictly_sorted rs) in
  match rs with
  | [] => inr c
  | r0 :: _ =>
    if N.of_nat (length (c_del c)) <=? r0 then inl EUB else
    let nd := take (S (N.to_nat r0)) (c_del c) in
    letR* ni := slice c 0 (default 0 (last nd)) in
    letR* (rest, nc) := remove_loop c
        (map (fun k => r0 + N.of_nat k) (seq 0 (N.to_nat (nr_bdds c - r0)))) rs (Coll ni nd) in
    letR* _ := assertR (match rest with [] => true | _ => false end) in
    letR* _ := assertRR (all_is_bdd nc (seq 0 (N.to_nat (nr_bdds nc)))) in
    inr nc
  end.

(** ** bdd_or_var and reduce: bdd_collection.h:373-416, bdd_collection.cpp:450-525 *)

(** lines 458-472, index list [is_] going down; [rem] is the vector remove *)
Fixpoint reduce1 (a : N) (is_ : list N) (ins : list instr) (rem : list bool) : R (list instr * list bool) :=
  match is_ with
  | [] => inr (ins, rem)
  | i :: is_ =>
    letR* x := vecR ins i in
    letR* lo := vecR ins (i_lo x) in
    letR* hi := vecR ins (i_hi x) in
    (* lines 463 and 465: is_terminal() is lo == hi, so neither condition ever holds *)
    letR* nlo := (if negb (ci_is_term lo) && (i_lo lo =? i_hi lo)
                  then letR* y := vecR ins (i_lo lo) in inr (i_lo y) else inr (i_lo x)) in
    letR* nhi := (if negb (ci_is_term hi) && (i_lo hi =? i_hi hi)
                  then letR* y := vecR ins (i_hi hi) in inr (i_hi y) else inr (i_hi x)) in
    reduce1 a is_ (<[N.to_nat i := Instr nlo nhi (i_idx x)]> ins)
            (if nlo =? nhi then <[N.to_nat (i - a) := true]> rem else rem)
  end.

(** unordered_map<bdd_instruction, size_t> as an association list, first match = stored *)
Fixpoint imap_find (m : list (instr * N)) (x : instr) : option N :=
  match m with
  | [] => None
  | (k, v) :: m => if ci_eqb k x then Some v else imap_find m x
  end.
Definition imap_ins (x : instr) (v : N) (m : list (instr * N)) : list (instr * N) :=
  match imap_find m x with Some _ => m | None => (x, v) :: m end.

(** lines 478-495 *)
Fixpoint reduce2 (a : N) (is_ : list N) (ins : list instr) (rem : list bool) (m : list (instr * N))
  : R (list instr * list bool) :=
  match is_ with
  | [] => inr (ins, rem)
  | i :: is_ =>
    if nth (N.to_nat (i - a)) rem false then reduce2 a is_ ins rem m else
    letR* x := vecR ins i in
    let rem := match imap_find m x with None => rem | Some _ => <[N.to_nat (i - a) := true]> rem end in
    let m := imap_ins x i m in
    letR* lo := vecR ins (i_lo x) in
    match imap_find m lo with
    | None => letR* _ := assertR false in inl EUB
    | Some l =>
      let ins := <[N.to_nat i := Instr l (i_hi x) (i_idx x)]> ins in
      letR* hi := vecR ins (i_hi x) in
      match imap_find m hi with
      | None => letR* _ := assertR false in inl EUB
      | Some h => reduce2 a is_ (<[N.to_nat i := Instr l h (i_idx x)]> ins) rem m
      end
    end
  end.

(** lines 501-505: address_delta[j] = number of removed entries before j.  std::partial_sum adds up in the
    value type of the input, char (assumed to be signed, with 8 bits), which is then converted to size_t. *)
Definition char_to_size (n : N) : N := let m := n mod 256 in if m <? 128 then m else two64 - 256 + m.
Definition removed_before (rem : list bool) (j : N) : R N :=
  if j <? N.of_nat (length rem)
  then inr (char_to_size (N.of_nat (length (filter (fun b => b = true) (take (N.to_nat j) rem))))) else inl EUB.

(** lines 507-515 *)
Fixpoint reduce3 (a : N) (is_ : list N) (ins : list instr) (rem : list bool) : R (list instr) :=
  match is_ with
  | [] => inr []
  | i :: is_ =>
    if nth (N.to_nat (i - a)) rem false then reduce3 a is_ ins rem else
    letR* x := vecR ins i in
    letR* dl := removed_before rem (sub64 (i_lo x) a) in
    letR* dh := removed_before rem (sub64 (i_hi x) a) in
    letR* r := reduce3 a is_ ins rem in
    inr (Instr (sub64 (i_lo x) dl) (sub64 (i_hi x) dh) (i_idx x) :: r)
  end.

(** bdd_collection.cpp:450-525; the loops at 458 and 478 run down to the first instruction of
    the last BDD.  (They compare a signed index with an unsigned bound, which is harmless only
    because the last BDD never starts at 0 when called from bdd_or_var.) *)
Definition reduce (c : coll) : R coll :=
  letR* _ := assertR (0 <? nr_bdds c) in
  let nr := nr_bdds c - 1 in
  letR* a := del_at c nr in
  letR* b := del_at c (nr + 1) in
  letR* (ins, rem) := reduce1 a (down_to a (b - 2)) (c_ins c) (repeat false (N.to_nat (b - a))) in
  letR* t1 := vecR ins (b - 1) in
  letR* t2 := vecR ins (b - 2) in
  letR* (ins, rem) := reduce2 a (down_to a (b - 2)) ins rem (imap_ins t2 (b - 2) [(t1, b - 1)]) in
  letR* l := reduce3 a (reverse (down_to a (b - 2))) ins rem in
  let ins' := take (N.to_nat a) ins ++ l ++ [t2; t1] in
  let c' := Coll ins' (take (length (c_del c) - 1) (c_del c) ++ [N.of_nat (length ins')]) in
  letR* _ := assertRR (is_bdd c' nr) in
  inr c'.

(** bdd_collection.h:373-416; the two variable sets are given as boolean predicates *)
Definition or_var_reroute (pos neg : N -> bool) (top : N) (x : instr) : instr :=
  if ci_is_term x then x else
  Instr (if neg (i_idx x) then top else i_lo x) (if pos (i_idx x) then top else i_hi x) (i_idx x).
Definition bdd_or_var (c : coll) (nr : N) (pos neg : N -> bool) : R (N * coll) :=
  letR* _ := assertR (nr <? nr_bdds c) in
  letR* a := del_at c nr in
  letR* b := del_at c (nr + 1) in
  letR* l := slice c a b in
  let d := sub64 (back_del c) a in
  let l := map (fun x => if ci_is_term x then x
                         else Instr (add64 (i_lo x) d) (add64 (i_hi x) d) (i_idx x)) l in
  let n := N.of_nat (length (c_ins c) + length l) in
  letR* t1 := vecR (c_ins c ++ l) (n - 1) in
  letR* t2 := vecR (c_ins c ++ l) (n - 2) in
  letR* _ := assertR (ci_is_term t1 && ci_is_term t2 && negb (ci_eqb t1 t2)) in
  let bi := if ci_is_bot t1 then n - 1 else n - 2 in
  let ti := if ci_is_top t1 then n - 1 else n - 2 in
  letR* _ := assertR ((ci_is_bot (if ci_is_bot t1 then t1 else t2))
                      && (ci_is_top (if ci_is_top t1 then t1 else t2)) && negb (bi =? ti)) in
  let c' := Coll (c_ins c ++ map (or_var_reroute pos neg ti) l) (c_del c ++ [n]) in
  letR* c' := reduce c' in
  letR* _ := assertRR (is_bdd c' (nr_bdds c)) in
  inr (nr_bdds c, c').

(** ** bdd_collection_entry / bdd_collection_node.  A node is (index, bdd number); the
    constructor checks the range: bdd_collection.cpp:667-673 *)
Definition cnode := (N * N)%type.
Definition mk_cnode (c : coll) (i nr : N) : R cnode :=
  letR* _ := assertRR (letR* b := del_at c (nr + 1) in inr (i <? b)) in
  letR* _ := assertRR (letR* a := del_at c nr in inr (a <=? i)) in
  inr (i, nr).
Definition cn_instr (c : coll) (x : cnode) : R instr := vecR (c_ins c) (fst x).
(** bdd_collection.cpp:631-634 *)
Definition root_node (c : coll) (nr : N) : R cnode :=
  letR* a := del_at c nr in mk_cnode c a nr.
(** bdd_collection.cpp:636-640 *)
Definition first_node_postorder (c : coll) (nr : N) : R cnode :=
  letR* _ := assertRR (letR* n := nr_bdd_nodes c nr in inr (2 <? n)) in
  letR* b := del_at c (nr + 1) in mk_cnode c (sub64 b 3) nr.
(** bdd_collection.cpp:642-654 *)
Definition entry_botsink (c : coll) (nr : N) : R cnode :=
  letR* b := del_at c (nr + 1) in
  letR* x := mk_cnode c (sub64 b 2) nr in
  letR* _ := assertRR (letR* i := cn_instr c x in inr (ci_is_bot i)) in inr x.
Definition entry_topsink (c : coll) (nr : N) : R cnode :=
  letR* b := del_at c (nr + 1) in
  letR* x := mk_cnode c (sub64 b 1) nr in
  letR* _ := assertRR (letR* i := cn_instr c x in inr (ci_is_top i)) in inr x.
(** bdd_collection.cpp:675-685 *)
Definition cn_lo (c : coll) (x : cnode) : R cnode :=
  letR* i := cn_instr c x in
  letR* _ := assertR (negb (ci_is_term i)) in mk_cnode c (i_lo i) (snd x).
Definition cn_hi (c : coll) (x : cnode) : R cnode :=
  letR* i := cn_instr c x in
  letR* _ := assertR (negb (ci_is_term i)) in mk_cnode c (i_hi i) (snd x).
(** bdd_collection.cpp:687-705 *)
Definition cn_variable (c : coll) (x : cnode) : R N := letR* i := cn_instr c x in inr (i_idx i).
Definition cn_is_botsink (c : coll) (x : cnode) : R bool := letR* i := cn_instr c x in inr (ci_is_bot i).
Definition cn_is_topsink (c : coll) (x : cnode) : R bool := letR* i := cn_instr c x in inr (ci_is_top i).
Definition cn_is_terminal (c : coll) (x : cnode) : R bool := letR* i := cn_instr c x in inr (ci_is_term i).
(** bdd_collection.cpp:743-748 *)
Definition next_postorder (c : coll) (x : cnode) : R cnode :=
  letR* _ := assertRR (letR* t := cn_is_terminal c x in inr (negb t)) in
  letR* _ := assertRR (letR* r := root_node c (snd x) in inr (negb (fst r =? fst x))) in
  mk_cnode c (sub64 (fst x) 1) (snd x).

(** ** Builder: bdd_collection.cpp:549-596 *)
(** 549-553 *)
Definition new_bdd (c : coll) : N * coll :=
  (nr_bdds c, Coll (c_ins c) (c_del c ++ [N.of_nat (length (c_ins c))])).
(** 555-563.  The node keeps a reference to a bdd_collection_entry temporary (line 562,
    bdd_collection.h:88) that is destroyed when the function returns. *)
Definition add_bdd_node (c : coll) (v : N) : R (N * coll) :=
  let c' := Coll (c_ins c ++ [Instr temp_undef temp_undef v]) (c_del c) in
  letR* x := mk_cnode c' (N.of_nat (length (c_ins c))) (sub64 (N.of_nat (length (c_del c))) 2) in
  inr (fst x, c').
(** set_lo_arc, set_hi_arc, set_*_to_*_terminal (bdd_collection.cpp:707-741) on a node returned by
    add_bdd_node read through that dangling reference: undefined behaviour, not modelled further *)
(** 572-593: reroute instructions with indices [is_]; [n] = bdd_instructions.size() *)
Definition close_arc (n first x : N) : R N :=
  if x =? temp_undef then inl EThrow else
  if x =? temp_top then inr (n - 2) else
  if x =? temp_bot then inr (n - 1) else
  letR* _ := assertR ((x <? n) && (first <=? x)) in inr x.
Fixpoint close_loop (n first : N) (is_ : list N) (ins : list instr) : R (list instr) :=
  match is_ with
  | [] => inr ins
  | i :: is_ =>
    letR* x := vecR ins i in
    letR* l := close_arc n first (i_lo x) in
    letR* h := close_arc n first (i_hi x) in
    close_loop n first is_ (<[N.to_nat i := Instr l h (i_idx x)]> ins)
  end.
(** 565-596.  The loop bound of line 572 is the delimiter pushed by new_bdd minus 2. *)
Definition close_bdd (c : coll) : R coll :=
  let ins := c_ins c ++ [ci_topsink; ci_botsink] in
  let n := N.of_nat (length ins) in
  let nd := N.of_nat (length (c_del c)) in
  letR* first := del_at c (sub64 nd 2) in
  letR* lst := del_at c (sub64 nd 1) in
  let bound := N.min (sub64 lst 2) n in
  letR* ins := close_loop n first (map (fun k => first + N.of_nat k) (seq 0 (N.to_nat (bound - first)))) ins in
  (* the loop would go on past the end of the vector when the bound wrapped around *)
  if n <? sub64 lst 2 then inl EUB else
  inr (Coll ins (take (length (c_del c) - 1) (c_del c) ++ [n])).

(** ** bdd_node_depth: src/bdd_node_depth.cpp:7-30; the map from node address to depth *)
Definition depth_add_sink (bot : bool) (p : ptr) (d : gmap N N) : M (gmap N N) :=
  (if e_ndebug then ret tt
   else let* b := (if bot then is_botsink p else is_topsink p) in assert_ b) ;;*
  assert_ (bool_decide (d !! p = None)) ;;*
  ret (ins_new p 0 d).
Definition depth_add_node (p : ptr) (d : gmap N N) : M (N * gmap N N) :=
  (if e_ndebug then ret tt else let* t := is_terminal p in assert_ (negb t)) ;;*
  let* n := getN p in
  match d !! n_lo n, d !! n_hi n with
  | Some a, Some b =>
    assert_ (bool_decide (d !! p = None)) ;;*
    ret (N.max a b + 1, ins_new p (N.max a b + 1) d)
  | _, _ => assert_ false ;;* fail EUB
  end.

End coll_model.
