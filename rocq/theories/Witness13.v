(** * Witness13.v -- the hypotheses of the C79 theorems hold in a concrete history *)
From Verif Require Export PropsProd Witness11.
Open Scope N_scope.
Local Notation "'!!!'" := ltac:(ok) (only parsing).
#[local] Opaque wo.
Definition nodesb (w : world) (i : nat) : list N := match step (QPost i) w with WOk (OutL l) _ => l | _ => [] end.
Definition slotb (s : mstate) (f g tag : N) : N := match cache_hash (s_heap s) f g tag with inr x => N.land x (mc_mask (s_memo s)) | _ => 0 end.
Definition okey (x : ptr * ptr) : ptr * ptr := (N.min x.1 x.2, N.max x.1 x.2).
Definition apartl (s : mstate) (lp lq : list ptr) (tag : ptr) : bool :=
  let l := List.filter (fun x => negb (x.1 =? x.2)) (list_prod lp lq) in
  forallb (fun x => forallb (fun y => negb (slotb s (okey x).1 (okey x).2 tag =? slotb s (okey y).1 (okey y).2 tag) || (((okey x).1 =? (okey y).1) && ((okey x).2 =? (okey y).2))) l) l.
Lemma slotb_eq s f g tag n : slot_of s f g tag n -> slotb s f g tag = n.
Proof. intros (x&Hx&Hn). unfold slotb. rewrite Hx. by destruct (slot_inv _ _ _ Hn) as [-> _]. Qed.
Lemma apartl_ok s p q lp lq tag : (forall x, x ∈ lp <-> subnode s p x) -> (forall x, x ∈ lq <-> subnode s q x) -> apartl s lp lq tag = true -> apart s p q tag.
Proof.
  intros Hp Hq Hap a b c d n Ha Hb Hc Hd Hab Hcd Hs Hs'.
  unfold apartl in Hap. rewrite forallb_forall in Hap.
  assert (Hin : forall x y, x <> y -> subnode s p x -> subnode s q y -> In (x, y) (List.filter (fun x => negb (x.1 =? x.2)) (list_prod lp lq))).
  { intros x y Hxy Hx Hy. apply Hp, elem_of_list_In in Hx. apply Hq, elem_of_list_In in Hy.
    apply filter_In. split; [exact (in_prod _ _ _ _ Hx Hy)|]. cbn [fst snd]. by apply negb_true_iff, N.eqb_neq. }
  specialize (Hap _ (Hin a b Hab Ha Hb)). rewrite forallb_forall in Hap. specialize (Hap _ (Hin c d Hcd Hc Hd)).
  unfold okey in Hap. cbn [fst snd] in Hap. rewrite (slotb_eq _ _ _ _ _ Hs), (slotb_eq _ _ _ _ _ Hs'), N.eqb_refl in Hap. cbn [negb orb] in Hap.
  by rewrite andb_true_iff, !N.eqb_eq in Hap.
Qed.
Lemma nodesb_eq md w i p : reach md w -> hnd w i = Some p -> p <> 0 -> constb w i = false -> forall q, q ∈ nodesb w i <-> subnode (w_s w) p q.
Proof. intros HR Hp H0 Hc%constb_ok. destruct (C17_postorder HE0 md w i p HR Hp H0 Hc) as (l&Hs&_&Hin&_). unfold nodesb. by rewrite Hs. Qed.
Lemma apartb_ok md w i j p q tag : reach md w -> hnd w i = Some p -> hnd w j = Some q -> negb (p =? 0) = true -> negb (q =? 0) = true ->
  negb (constb w i) = true -> negb (constb w j) = true -> apartl (w_s w) (nodesb w i) (nodesb w j) tag = true -> apart (w_s w) p q tag.
Proof.
  intros HR Hp Hq Hp0%negb_true_iff%N.eqb_neq Hq0%negb_true_iff%N.eqb_neq Hc%negb_true_iff Hd%negb_true_iff.
  apply apartl_ok; by eapply nodesb_eq.
Qed.
(** the nodes of x1 and the three nodes of (x0 & x1) | x2 make three pairs, which have the slots 2, 1 and 3 of a cache with four *)
Example ex_C79_pairs : map (fun x => slotb (w_s wo) (okey x).1 (okey x).2 and_symb) (list_prod (nodesb wo 1) (nodesb wo 4)) = [2; 1; 3].
Proof. by vm_compute. Qed.
(** seven activations, at most 4 * 1 * 3 + 2 *)
Definition ex_C79_and_product r s' := C79_and_product HE0 MOrd wo 1 4 _ _ 1 3 7 r s' wo_r (hnd_eq wo 1 !!!) (hnd_eq wo 4 !!!) (nn 1 1 !!!) (nn 4 3 !!!) (apartb_ok MOrd wo 1 4 _ _ and_symb wo_r (hnd_eq wo 1 !!!) (hnd_eq wo 4 !!!) !!! !!! !!! !!! !!!).
Definition ex_C79_or_product r s' := C79_or_product HE0 MOrd wo 2 4 _ _ 1 3 6 r s' eq_refl wo_r (hnd_eq wo 2 !!!) (hnd_eq wo 4 !!!) (nn 2 1 !!!) (nn 4 3 !!!) (apartb_ok MOrd wo 2 4 _ _ or_symb wo_r (hnd_eq wo 2 !!!) (hnd_eq wo 4 !!!) !!! !!! !!! !!! !!!).
(** slot 3 is in use *)
Definition entb (w : world) (k : nat) : memo := nth k (mc_tab (s_memo (w_s w))) empty_memo.
Definition enlarged (w : world) : mcache := match memo_double (s_heap (w_s w)) (s_memo (w_s w)) with inr mc => mc | _ => s_memo (w_s w) end.
Lemma entb_ok w k : negb (m_r (entb w k) =? 0) = true -> stored (w_s w) k (entb w k).
Proof. intros Hr%negb_true_iff%N.eqb_neq. split; [by apply nth_ent|done]. Qed.
Lemma enlarged_ok w : match memo_double (s_heap (w_s w)) (s_memo (w_s w)) with inr _ => true | _ => false end = true -> memo_double (s_heap (w_s w)) (s_memo (w_s w)) = inr (enlarged w).
Proof. unfold enlarged. by destruct (memo_double _ _). Qed.
Definition ex_C79_slots := C79_slots HE0 MOrd wo 3 _ wo_r (entb_ok wo 3 !!!).
Definition ex_C79_found := C79_found HE0 MOrd wo 3 _ wo_r (entb_ok wo 3 !!!).
(** doubling this cache of four slots gives eight, and the three entries remain *)
Example ex_C79_enlarge_size : (N.of_nat (length (mc_tab (enlarged wo))) =? 8) && (N.of_nat (length (List.filter (fun m => negb (m_r m =? 0)) (mc_tab (enlarged wo)))) =? 3) = true.
Proof. by vm_compute. Qed.
Definition ex_C79_enlarge := C79_enlarge HE0 MOrd wo _ wo_r (enlarged_ok wo !!!).
