(** * MemoModel.v -- model of include/bdd_memo_cache.h and src/bdd_memo_cache.cpp *)
From Verif Require Export TableModel.

Open Scope N_scope.

Section memo_model.
Context {E : Env}.

(** include/bdd_memo_cache.h:18-28: fake pointers nullptr+1, nullptr+2 (in units of
    sizeof(node)) tag the operation.  Line 28: xor_symb() calls or_symb_impl. *)
Definition and_symb : ptr := node_size.
Definition or_symb : ptr := 2 * node_size.
Definition xor_symb : ptr := 2 * node_size.

Definition empty_memo : memo := Memo 0 0 0 0. (* include/bdd_memo_cache.h:13-16 *)

(** bdd_memo_cache.cpp:8-11 *)
Definition memo_eqb (a b : memo) : bool :=
  (m_f a =? m_f b) && (m_g a =? m_g b) && (m_h a =? m_h b) && (m_r a =? m_r b).

(** one step of bdd_memo_cache.cpp:36-37 *)
Definition hash_mix (hash k : N) : N :=
  N.lxor hash (add64 (add64 (add64 k 2654435769) ((hash * 64) mod two64)) (hash / 4)).

(** bdd_memo_cache.cpp:24-40 *)
Definition cache_hash (h : heap) (f g hh : ptr) : R N :=
  letR* nf := derefR h f in
  letR* _ := assertR (negb (g =? 0)) in
  letR* ng := derefR h g in
  inr (hash_mix (hash_mix (n_key nf) (2 * n_key ng)) ((4 * hh) mod two64)).

(** bdd_memo_cache.cpp:42-49: index of the slot *)
Definition memo_slot (mc : mcache) (slot : N) : R N :=
  letR* _ := assertR (mc_mask mc + 1 =? N.of_nat (length (mc_tab mc))) in
  let n := N.land slot (mc_mask mc) in
  letR* _ := assertR (n <? N.of_nat (length (mc_tab mc))) in
  if n <? N.of_nat (length (mc_tab mc)) then inr n else inl EUB.
Definition memo_get (mc : mcache) (n : N) : memo := nth (N.to_nat n) (mc_tab mc) empty_memo.

(** bdd_memo_cache.cpp:51-91.  With asserts on, a negative xref fails assert(false) (line 83). *)
Definition cache_lookup (f g hh : ptr) : M ptr :=
  let* s := get in
  let* slot := liftR (cache_hash (s_heap s) f g hh) in
  let* n := liftR (memo_slot (s_memo s) slot) in
  let m := memo_get (s_memo s) n in
  if m_r m =? 0 then ret 0 else
  if (m_f m =? f) && (m_g m =? g) && (m_h m =? hh) then
    let* r := getN (m_r m) in
    if (n_xref r <? 0)%Z then (assert_ false ;;* recursively_revive (m_r m) ;;* ret (m_r m)) else ret (m_r m)
  else ret 0.

(** bdd_memo_cache.cpp:130-143: rehash the lower half; counts the occupied slots *)
Fixpoint memo_rehash (h : heap) (ks : list nat) (mc : mcache) (occ : N) : R (mcache * N) :=
  match ks with
  | [] => inr (mc, occ)
  | k :: ks =>
    let m := nth k (mc_tab mc) empty_memo in
    if m_r m =? 0 then memo_rehash h ks mc occ else
    letR* slot := cache_hash h (m_f m) (m_g m) (m_h m) in
    letR* n := memo_slot mc slot in
    if memo_eqb (memo_get mc n) m then memo_rehash h ks mc (occ + 1)
    else
      let tab := <[k := Memo (m_f m) (m_g m) (m_h m) 0]> (<[N.to_nat n := m]> (mc_tab mc)) in
      memo_rehash h ks (MCache tab (mc_mask mc) (mc_ins mc) (mc_thr mc)) (occ + 1)
  end.

(** bdd_memo_cache.cpp:116-145 *)
Definition memo_double (h : heap) (mc : mcache) : R mcache :=
  let n := N.of_nat (length (mc_tab mc)) in
  if 4194304 <=? n then inr mc else
  letR* _ := assertR (0 <? n) in
  let tab := mc_tab mc ++ repeat empty_memo (length (mc_tab mc)) in
  let mc1 := MCache tab (2 * n - 1) 0 (1 + n) in
  letR* (mc2, occ) := memo_rehash h (seq 0 (length (mc_tab mc))) mc1 0 in
  inr (MCache (mc_tab mc2) (mc_mask mc2) occ (mc_thr mc2)).

(** bdd_memo_cache.cpp:93-107 *)
Definition cache_insert (f g hh r : ptr) : M unit :=
  let* s := get in
  let* _ := liftR (cache_hash (s_heap s) f g hh) in
  let mc := s_memo s in
  let mc := MCache (mc_tab mc) (mc_mask mc) (mc_ins mc + 1) (mc_thr mc) in
  let* mc := liftR (if mc_thr mc <=? mc_ins mc then memo_double (s_heap s) mc else inr mc) in
  let* slot := liftR (cache_hash (s_heap s) f g hh) in
  let* n := liftR (memo_slot mc slot) in
  set_memo (fun _ => MCache (<[N.to_nat n := Memo f g hh r]> (mc_tab mc)) (mc_mask mc) (mc_ins mc) (mc_thr mc)).

(** bdd_memo_cache.cpp:109-114 *)
Definition memo_init : mcache := MCache [empty_memo] 0 0 0.

(** bdd_memo_cache.cpp:147-158 *)
Definition can_be_purged (h : heap) (m : memo) : R bool :=
  if m_r m =? 0 then inr true else
  letR* nr := derefR h (m_r m) in
  if (n_xref nr <? 0)%Z then inr true else
  letR* nf := derefR h (m_f m) in
  if (n_xref nf <? 0)%Z then inr true else
  if m_h m =? 0 then inr false else
  letR* ng := derefR h (m_g m) in
  inr (n_xref ng <? 0)%Z.

(** bdd_memo_cache.cpp:181-190; everything after the return statement is dead code *)
Fixpoint purge_tab (h : heap) (l : list memo) : R (list memo) :=
  match l with
  | [] => inr []
  | m :: l =>
    letR* b := can_be_purged h m in
    letR* l := purge_tab h l in
    inr ((if b then Memo (m_f m) (m_g m) (m_h m) 0 else m) :: l)
  end.
Definition purge : M unit :=
  let* s := get in
  let* tab := liftR (purge_tab (s_heap s) (mc_tab (s_memo s))) in
  set_memo (fun mc => MCache tab (mc_mask mc) (mc_ins mc) (mc_thr mc)).

End memo_model.
