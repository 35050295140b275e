(** * TableModel.v -- model of src/bdd_node_cache.cpp, include/bdd_var.h, src/bdd_var.cpp *)
From Verif Require Export NodeModel.

Open Scope N_scope.

Section table_model.
Context {E : Env}.

(** ** Node cache *)

(** bdd_node.cpp:115-121, 129-136 and the default initialiser xref = 0 *)
Definition sink_node (idx key : N) (mrk : bool) : node := Node e_mgr e_mgr idx key mrk 1.

(** bdd_node_cache.cpp:6-21 *)
Definition nc_init : ncache :=
  NCache 1 (e_page 0%nat) (e_page 0%nat + 2 * node_size) 0 2.
Definition heap_init : heap :=
  <[botsink := sink_node botsink_index e_botkey e_botmark]>
    (<[topsink := sink_node topsink_index e_topkey e_topmark]> ∅).

(** bdd_node_cache.cpp:34-64 with increase_cache (23-32) inlined in the recursive case.  The
    recursion happens at most once: a fresh page always has room. *)
Fixpoint reserve_node_fuel (fuel : nat) : M ptr :=
  match fuel with
  | O => fail ELoop
  | S fuel =>
    let* s := get in
    let nc := s_nc s in
    let r := nc_avail nc in
    if negb (r =? 0) then
      let* n := getN r in
      set_nc (fun nc => NCache (nc_npages nc) (nc_base nc) (nc_ptr nc) (n_lo n) (nc_total nc + 1)) ;;*
      ret r
    else
      let p := nc_ptr nc in
      assert_ (nc_base nc <=? p) ;;*
      assert_ (p <=? nc_base nc + node_size * node_page_size) ;;*
      if (p - nc_base nc) / node_size <? node_page_size then
        set_nc (fun nc => NCache (nc_npages nc) (nc_base nc) (p + node_size) (nc_avail nc) (nc_total nc + 1)) ;;*
        ret p
      else
        set_nc (fun nc => NCache (S (nc_npages nc)) (e_page (nc_npages nc)) (e_page (nc_npages nc))
                                 (nc_avail nc) (nc_total nc)) ;;*
        reserve_node_fuel fuel
  end.
Definition reserve_node : M ptr := reserve_node_fuel 2.

(** bdd_node_cache.cpp:66-76 *)
Definition free_node (p : ptr) : M unit :=
  let* n := getN p in
  assert_ (n_xref n <=? 0)%Z ;;*
  let* l := getN (n_lo n) in
  assert_ (0 <? n_xref l)%Z ;;*
  xref_dec (n_lo n) ;;*
  let* n := getN p in
  let* h := getN (n_hi n) in
  assert_ (0 <? n_xref h)%Z ;;*
  xref_dec (n_hi n) ;;*
  let* s := get in
  modN p (with_lo (nc_avail (s_nc s))) ;;*
  set_nc (fun nc => NCache (nc_npages nc) (nc_base nc) (nc_ptr nc) p (nc_total nc - 1)).

(** bdd_node.cpp:14-31.  All fields are written; [index] is a 41-bit field. *)
Definition init_new_node (p : ptr) (v : N) (l h : ptr) : M unit :=
  assert_ (v <? maxvarsize) ;;*
  xref_inc h ;;*
  xref_inc l ;;*
  let* s := get in
  set_rnd S ;;*
  set_heap (<[p := Node l h (v mod maxvarsize) (e_rand (s_rnd s)) false 0]>).

(** ** Page caches *)

(** include/bdd_var.h:54-68: pages per allocation for each size class *)
Definition nr_simul (cls : N) : N := 1048576 / cls.

Definition avail (cls : N) (pcs : pcaches) : list pgid := default [] (pc_free pcs !! cls).

(** include/bdd_var.h:157-165: the pages of a new block, in order *)
Fixpoint pages_from (n : nat) (cls : N) (blk : nat) (off : N) : list pgid :=
  match n with
  | O => []
  | S n => PgId cls blk off :: pages_from n cls blk (off + cls)
  end.
Definition fresh_pages (cls : N) (blk : nat) : list pgid := pages_from (N.to_nat (nr_simul cls)) cls blk 0.

(** include/bdd_var.h:167-182 with increase_cache (157-165) inlined: pop a page (or allocate a
    batch first) and null its first PAGE_SIZE cells. *)
Definition reserve_page (cls : N) : M page :=
  let* s := get in
  let '(st, blk) := match avail cls (s_pcs s) with
                    | [] => (fresh_pages cls (pc_blk (s_pcs s)), S (pc_blk (s_pcs s)))
                    | l => (l, pc_blk (s_pcs s))
                    end in
  match st with
  | [] => fail ELoop
  | c :: rest =>
    set_pcs (fun pcs => PCs (<[cls := rest]> (pc_free pcs)) blk) ;;*
    if pi_cap c <? cls then fail EUB else ret (Page c (repeat 0 (N.to_nat cls)))
  end.

(** include/bdd_var.h:184-189 *)
Definition push_page (cls : N) (pg : page) : M unit :=
  set_pcs (fun pcs => PCs (<[cls := pg_id pg :: avail cls pcs]> (pc_free pcs)) (pc_blk pcs)).

(** bdd_var.cpp:37-58: size class requested for a given mask; [None] is the default branch *)
Definition new_page_class (mask : N) : option N :=
  if mask =? 63 then Some 128 else if mask =? 127 then Some 256 else
  if mask =? 255 then Some 512 else if mask =? 511 then Some 1024 else
  if mask =? 1023 then Some 2048 else if mask =? 2047 then Some 4096 else
  if mask =? 4095 then Some 8192 else if mask =? 8191 then Some 16384 else
  if mask =? 16383 then Some 32768 else if mask =? 32767 then Some 65536 else
  if mask =? 65535 then Some 131072 else if mask =? 131071 then Some 262144 else
  if mask =? 262143 then Some 262144 else if mask =? 524287 then Some 524288 else None.

(** bdd_var.cpp:37-58.  Default branch: assert(false), then control flows off the end of a
    value-returning function, which is UB. *)
Definition new_page (mask : N) : M page :=
  if mask =? 1048575 then fail EThrow else
  match new_page_class mask with
  | Some cls => reserve_page cls
  | None => assert_ false ;;* fail EUB
  end.

(** bdd_var.cpp:95-112: size class a page is returned to *)
Definition free_page_class (mask : N) : option N :=
  if (63 <=? mask) && (mask <=? 1048575) && (N.land mask (mask + 1) =? 0) then Some (mask + 1) else None.

(** bdd_var.cpp:89-114 *)
Definition free_page (pg : page) (mask : N) : M unit :=
  match free_page_class mask with
  | Some cls => push_page cls pg
  | None => assert_ false
  end.

(** ** var_struct: the unique table of one variable *)

Definition vt_size (t : vtab) : N := vt_mask t + 1. (* include/bdd_var.h:121 *)
Definition with_page (pg : page) (t : vtab) := VTab pg (vt_mask t) (vt_free t) (vt_timer t).
Definition with_mask (m : N) (t : vtab) := VTab (vt_page t) m (vt_free t) (vt_timer t).
Definition with_free (n : N) (t : vtab) := VTab (vt_page t) (vt_mask t) n (vt_timer t).
Definition with_timer (n : N) (t : vtab) := VTab (vt_page t) (vt_mask t) (vt_free t) n.

(** bdd_var.cpp:9-13 *)
Definition base_index (t : vtab) (k : N) : R N :=
  letR* _ := assertR (63 <=? vt_mask t) in inr (N.land k (vt_mask t)).

(** bdd_var.cpp:15-20; [base] is never null for a constructed variable *)
Definition fetch_node (t : vtab) (k : N) : R ptr :=
  letR* _ := assertR (k <=? vt_mask t) in
  match pg_slots (vt_page t) !! N.to_nat k with Some p => inr p | None => inl EUB end.

(** bdd_var.cpp:31-35 *)
Definition store_node (t : vtab) (k : N) (p : ptr) : R vtab :=
  letR* _ := assertR (k <=? vt_mask t) in
  if (N.to_nat k <? length (pg_slots (vt_page t)))%nat then
    inr (with_page (Page (pg_id (vt_page t)) (<[N.to_nat k := p]> (pg_slots (vt_page t)))) t)
  else inl EUB.

(** bdd_var.cpp:22-29.  The table does not change during the loop, so after one full sweep
    without a free slot the C++ loop runs forever: fuel = table size + 1. *)
Fixpoint next_free_loop (fuel : nat) (t : vtab) (l : N) : R N :=
  match fuel with
  | O => inl ELoop
  | S fuel =>
    letR* i := base_index t l in
    letR* p := fetch_node t i in
    if p =? 0 then inr i else next_free_loop fuel t (l + 1)
  end.
Definition next_free_slot (t : vtab) (k : N) : R N :=
  next_free_loop (S (N.to_nat (vt_size t))) t k.

(** bdd_var.cpp:166-169 *)
Definition hash_code2 (h : heap) (l r : ptr) : R N :=
  letR* nl := derefR h l in
  letR* nr := derefR h r in
  inr (N.lxor (n_key nl) (2 * n_key nr)).
(** bdd_var.cpp:160-164 *)
Definition hash_code (h : heap) (p : ptr) : R N :=
  letR* n := derefR h p in hash_code2 h (n_lo n) (n_hi n).

(** base[0..mask], as read by the loops at bdd_var.cpp:77-79, 142-148, 174-176, 253-255 *)
Definition cells (t : vtab) : R (list ptr) :=
  if (N.to_nat (vt_size t) <=? length (pg_slots (vt_page t)))%nat
  then inr (take (N.to_nat (vt_size t)) (pg_slots (vt_page t))) else inl EUB.

(** bdd_var.cpp:171-179 *)
Definition nr_free_slots_debug (t : vtab) : R N :=
  letR* l := cells t in inr (N.of_nat (length (filter (fun p => p = 0) l))).

(** bdd_var.cpp:181-193; same remark on the fuel as for next_free_slot *)
Fixpoint lookup_loop (fuel : nat) (h : heap) (t : vtab) (l r : ptr) (hash : N) : R ptr :=
  match fuel with
  | O => inl ELoop
  | S fuel =>
    letR* i := base_index t hash in
    letR* p := fetch_node t i in
    if p =? 0 then inr 0 else
    letR* n := derefR h p in
    if (n_lo n =? l) && (n_hi n =? r) then inr p else lookup_loop fuel h t l r (hash + 1)
  end.
Definition unique_table_lookup (h : heap) (t : vtab) (l r : ptr) : R ptr :=
  letR* _ := assertR (negb (l =? r)) in
  letR* hash := hash_code2 h l r in
  lookup_loop (S (N.to_nat (vt_size t))) h t l r hash.

(** occupied_rate() > max_unique_table_fill: bdd_var.cpp:195-198,317 and bdd_var.h:22.  The
    quotient is exact in double precision for power-of-two table sizes. *)
Definition over_half_full (t : vtab) : bool := vt_size t <? 2 * sub64 (vt_size t) (vt_free t).

(** bdd_var.cpp:77-82 *)
Fixpoint rehash (h : heap) (old : list ptr) (t : vtab) : R vtab :=
  match old with
  | [] => inr t
  | p :: old =>
    if p =? 0 then rehash h old t else
    letR* hc := hash_code h p in
    letR* i := base_index t hc in
    letR* k := next_free_slot t i in
    letR* t := store_node t k p in
    rehash h old t
  end.

(** bdd_var.cpp:60-87.  When new_page throws, mask has already been changed (line 70-71).
    Simplification: the old cells are read before the new page is reserved (they live in a
    different page). *)
Definition double_cache (v : N) : M unit :=
  let* t := getV v in
  if vt_mask t =? 1048575 then ret tt else
  assertM (let* n := liftR (nr_free_slots_debug t) in ret (vt_free t =? n)) ;;*
  let* old_cells := liftR (cells t) in
  let old := vt_page t in
  let old_mask := vt_mask t in
  let t := with_mask (vt_mask t + vt_mask t + 1) t in
  setV v t ;;*
  let* pg := new_page (vt_mask t) in
  let t := with_page pg t in
  assertM (let* l := liftR (cells t) in ret (forallb (fun p => p =? 0) l)) ;;*
  let* s := get in
  let* t := liftR (rehash (s_heap s) old_cells t) in
  let t := with_free (vt_free t + (old_mask + 1)) t in
  setV v t ;;*
  free_page old old_mask.

(** bdd_var.cpp:279-333.  The recursive call at line 312 happens only when the timer hits a
    multiple of 1024, so never twice in a row; fuel 2 is proved sufficient. *)
Fixpoint unique_find_fuel (fuel : nat) (v : N) (l h : ptr) : M ptr :=
  match fuel with
  | O => fail ELoop
  | S fuel =>
    if l =? h then ret l else
    let* t := getV v in
    let* s := get in
    let* p := liftR (unique_table_lookup (s_heap s) t l h) in
    if negb (p =? 0) then ret p else
    let tm := vt_timer t + 1 in
    setV v (with_timer tm t) ;;*
    if tm mod 1024 =? 0 then unique_find_fuel fuel v l h else
    let* t := getV v in
    (if over_half_full t then double_cache v else ret tt) ;;*
    let* p := reserve_node in
    init_new_node p v l h ;;*
    let* t := getV v in
    assert_ (0 <? vt_free t) ;;*
    let t := with_free (sub64 (vt_free t) 1) t in
    let* s := get in
    let* hc := liftR (hash_code (s_heap s) p) in
    let* k := liftR (next_free_slot t hc) in
    let* t := liftR (store_node t k p) in
    setV v t ;;*
    ret p
  end.
Definition unique_find_v (v : N) (l h : ptr) : M ptr := unique_find_fuel 2 v l h.

(** bdd_var.cpp:116-123 *)
Definition new_var : M vtab :=
  let* pg := reserve_page 64 in
  ret (VTab pg 63 64 0).

(** ** Garbage collection of one table: bdd_var.cpp:205-277 *)

(** node_struct::dead: include/bdd_node.h:32 *)
Definition dead (p : ptr) : M bool := let* n := getN p in ret (n_xref n <=? 0)%Z.

(** bdd_var.cpp:217-237: the inner loop from slot [j]; returns the table and the final [j] *)
Fixpoint rdn_inner (fuel : nat) (t : vtab) (j : N) : M (vtab * N) :=
  match fuel with
  | O => fail ELoop
  | S fuel =>
    let jj := N.land j (vt_mask t) in
    let* p := liftR (fetch_node t jj) in
    if p =? 0 then ret (t, j) else
    let* d := dead p in
    if d then
      let* t := liftR (store_node t jj 0) in
      rdn_inner fuel (with_free (vt_free t + 1) t) (j + 1)
    else
      let* s := get in
      let* hc := liftR (hash_code (s_heap s) p) in
      let* k := liftR (next_free_slot t hc) in
      let* t := liftR (store_node t k p) in
      rdn_inner fuel t (j + 1)
  end.

(** bdd_var.cpp:207-239 *)
Fixpoint rdn_outer (fuel : nat) (t : vtab) (k : N) : M vtab :=
  match fuel with
  | O => fail ELoop
  | S fuel =>
    if k <? vt_size t then
      let* p := liftR (fetch_node t k) in
      let* d := (if p =? 0 then ret false else dead p) in
      if d then
        free_node p ;;*
        let* t := liftR (store_node t k 0) in
        let t := with_free (vt_free t + 1) t in
        let* (t, j) := rdn_inner fuel t (k + 1) in
        rdn_outer fuel t (j + 1)
      else rdn_outer fuel t (k + 1)
    else ret t
  end.

(** bdd_var.cpp:244-249.  [n >= 63] guards the loop; (n - free) is size_t arithmetic. *)
Fixpoint shrink_mask (fuel : nat) (t : vtab) (n : N) : R N :=
  match fuel with
  | O => inl ELoop
  | S fuel =>
    if (63 <=? n) && (n <=? 8 * sub64 n (vt_free t))
    then shrink_mask fuel t (n / ((vt_mask t + 1) / 2 - 1))
    else inr n
  end.

(** bdd_var.cpp:258-267: note that the loop tests new_base[k], not new_base[l] *)
Fixpoint shrink_slot (fuel : nat) (nb : list ptr) (new_mask k l : N) : R N :=
  match fuel with
  | O => inl ELoop
  | S fuel =>
    let l := N.land l new_mask in
    match nb !! N.to_nat k with
    | None => inl EUB
    | Some p => if p =? 0 then inr l else shrink_slot fuel nb new_mask k (l + 1)
    end
  end.

(** bdd_var.cpp:253-271 *)
Fixpoint shrink_copy (old : list ptr) (k : N) (new_mask : N) (nb : list ptr) : R (list ptr) :=
  match old with
  | [] => inr nb
  | p :: old =>
    if p =? 0 then shrink_copy old (k + 1) new_mask nb else
    letR* i := shrink_slot (S (N.to_nat new_mask)) nb new_mask k k in
    if (N.to_nat i <? length nb)%nat then shrink_copy old (k + 1) new_mask (<[N.to_nat i := p]> nb)
    else inl EUB
  end.

(** bdd_var.cpp:205-277; [fuel] bounds the scanning loops only *)
Definition remove_dead_nodes (fuel : nat) (v : N) : M unit :=
  let* t := getV v in
  let* t := rdn_outer fuel t 0 in
  setV v t ;;*
  if (63 <? vt_mask t) && (8 * sub64 (vt_size t) (vt_free t) <=? vt_size t) then
    let* n := liftR (shrink_mask 3 t ((vt_mask t + 1) / 2 - 1)) in
    let* pg := new_page n in
    let* old := liftR (cells t) in
    let* nb := liftR (shrink_copy old 0 n (pg_slots pg)) in
    free_page (vt_page t) (vt_mask t) ;;*
    setV v (with_mask n (with_page (Page (pg_id pg) nb) t))
  else ret tt.

(** bdd_var.cpp:140-149 *)
Fixpoint release_loop (cells : list ptr) : M unit :=
  match cells with
  | [] => ret tt
  | p :: cells =>
    (if p =? 0 then ret tt else free_node p) ;;* release_loop cells
  end.
Definition release_nodes (v : N) : M unit :=
  let* t := getV v in
  let n := N.to_nat (vt_size t) in
  let* l := liftR (cells t) in
  release_loop l ;;*
  setV v (with_page (Page (pg_id (vt_page t))
            (repeat 0 n ++ drop n (pg_slots (vt_page t)))) t).

End table_model.
