(** * Memo.v -- the memo cache *)
From Verif Require Export UniqueFind.
Open Scope N_scope.

Section memo.
Context {E : Env} (HE : env_ok E).

Lemma land_le_r a b : N.land a b <= b.
Proof.
  assert (Hd : b = N.land a b + N.ldiff b a).
  { rewrite N.add_nocarry_lxor.
    - apply N.bits_inj. intros i. rewrite N.lxor_spec, N.land_spec, N.ldiff_spec.
      by destruct (N.testbit a i), (N.testbit b i).
    - apply N.bits_inj. intros i. rewrite !N.land_spec, N.ldiff_spec, N.bits_0.
      by destruct (N.testbit a i), (N.testbit b i). }
  rewrite Hd at 2. lia.
Qed.

Lemma memo_slot_spec mc x : mc_mask mc + 1 = N.of_nat (length (mc_tab mc)) ->
  exists n, memo_slot mc x = inr n /\ (N.to_nat n < length (mc_tab mc))%nat.
Proof.
  intros Hm. unfold memo_slot. rewrite assertR_true by (by apply N.eqb_eq). simpl.
  pose proof (land_le_r x (mc_mask mc)).
  assert (Hlt : N.land x (mc_mask mc) <? N.of_nat (length (mc_tab mc)) = true) by (apply N.ltb_lt; lia).
  rewrite assertR_true by done. simpl. rewrite Hlt. eexists. split; [done|]. apply N.ltb_lt in Hlt. lia.
Qed.

Lemma cache_hash_spec h f g hh : is_Some (h !! f) -> is_Some (h !! g) -> g <> 0 -> exists x, cache_hash h f g hh = inr x.
Proof.
  intros [a Ha] [b Hb] Hg. unfold cache_hash, derefR. rewrite Ha. simpl.
  rewrite assertR_true by (by apply negb_true_iff, N.eqb_neq). simpl. rewrite Hb. simpl. eauto.
Qed.

Lemma repr_is_Some md H s p t : Inv md H s -> repr (s_heap s) p t -> is_Some (s_heap s !! p) /\ p <> 0.
Proof.
  intros HI Hr. destruct (repr_in _ _ _ _ _ (i_heap _ _ _ HI) Hr) as [n Hn]. split; [eauto|].
  pose proof (inv_addr HE _ _ _ _ _ HI Hn). lia.
Qed.

Lemma cache_lookup_spec md H s f g hh tf tg : Inv md H s -> repr (s_heap s) f tf -> repr (s_heap s) g tg ->
  exists r, cache_lookup f g hh s = Ok r s /\
    (r = 0 \/ (r <> 0 /\ entry_ok md (length (s_vars s)) (s_heap s) (Memo f g hh r))).
Proof.
  intros HI Hf Hg. destruct (repr_is_Some _ _ _ _ _ HI Hf) as [Hf1 Hf2]. destruct (repr_is_Some _ _ _ _ _ HI Hg) as [Hg1 Hg2].
  destruct (cache_hash_spec (s_heap s) f g hh) as [x Hx]; auto.
  destruct (i_memo _ _ _ HI) as [Hmask Hent].
  destruct (memo_slot_spec (s_memo s) x Hmask) as (n&Hn&Hlt).
  unfold cache_lookup, bind, get, liftR. rewrite Hx, Hn.
  unfold memo_get. set (m := nth (N.to_nat n) (mc_tab (s_memo s)) empty_memo).
  destruct (N.eqb_spec (m_r m) 0) as [|Hr0]; [eexists; split; [done|by left]|].
  assert (Hm : entry_ok md (length (s_vars s)) (s_heap s) m).
  { apply Hent; [|done]. apply elem_of_list_In, nth_In. done. }
  destruct ((m_f m =? f) && (m_g m =? g) && (m_h m =? hh)) eqn:Heq; [|eexists; split; [done|by left]].
  rewrite !andb_true_iff, !N.eqb_eq in Heq. destruct Heq as [[<- <-] <-].
  destruct Hm as (tf'&tg'&tr&?&?&Hr&?). destruct (repr_in _ _ _ _ _ (i_heap _ _ _ HI) Hr) as [nr Hnr].
  rewrite (getN_eq _ _ _ Hnr). pose proof (inv_xref_nonneg _ _ _ _ _ HI Hnr) as Hx0.
  assert ((n_xref nr <? 0)%Z = false) as -> by (apply Z.ltb_ge; lia).
  eexists. split; [done|]. right. split; [done|]. exists tf', tg', tr. done.
Qed.

Definition tab_entries md nv h (l : list memo) := forall m, m ∈ l -> m_r m <> 0 -> entry_ok md nv h m.

Lemma tab_entries_insert md nv h l i m : tab_entries md nv h l -> (m_r m <> 0 -> entry_ok md nv h m) ->
  tab_entries md nv h (<[i := m]> l).
Proof.
  intros Hl Hm x Hx Hx0. apply elem_of_list_lookup in Hx as [j Hj].
  destruct (decide (i = j)) as [->|Hne].
  - destruct (decide (j < length l)%nat).
    + rewrite list_lookup_insert in Hj by done. simplify_eq. auto.
    + rewrite list_insert_ge in Hj by lia. apply Hl; [|done]. by eapply elem_of_list_lookup_2.
  - rewrite list_lookup_insert_ne in Hj by done. apply Hl; [|done]. by eapply elem_of_list_lookup_2.
Qed.

Lemma memo_rehash_spec md H s ks : Inv md H s -> forall mc occ,
  memo_ok md (length (s_vars s)) (s_heap s) mc ->
  exists mc' occ', memo_rehash (s_heap s) ks mc occ = inr (mc', occ') /\ memo_ok md (length (s_vars s)) (s_heap s) mc' /\
    length (mc_tab mc') = length (mc_tab mc).
Proof.
  intros HI. induction ks as [|k ks IH]; intros mc occ Hmc; simpl; [eauto|].
  destruct (N.eqb_spec (m_r (nth k (mc_tab mc) empty_memo)) 0) as [|Hr0]; [auto|].
  set (m := nth k (mc_tab mc) empty_memo) in *.
  destruct (decide (k < length (mc_tab mc))%nat) as [Hk|Hk].
  2:{ exfalso. apply Hr0. unfold m. rewrite nth_overflow by lia. done. }
  destruct Hmc as [Hmask Hent].
  assert (Hm : entry_ok md (length (s_vars s)) (s_heap s) m).
  { apply Hent; [|done]. apply elem_of_list_In, nth_In. done. }
  pose proof Hm as (tf'&tg'&tr&Hf&Hg&Hr&_).
  destruct (repr_is_Some _ _ _ _ _ HI Hf) as [Hf1 Hf2]. destruct (repr_is_Some _ _ _ _ _ HI Hg) as [Hg1 Hg2].
  destruct (cache_hash_spec (s_heap s) (m_f m) (m_g m) (m_h m)) as [x Hx]; auto. rewrite Hx. simpl.
  destruct (memo_slot_spec mc x Hmask) as (n&Hn&Hlt). rewrite Hn. simpl.
  destruct (memo_eqb (memo_get mc n) m).
  { apply IH. by split. }
  edestruct (IH (MCache (<[k:=Memo (m_f m) (m_g m) (m_h m) 0]> (<[N.to_nat n:=m]> (mc_tab mc))) (mc_mask mc) (mc_ins mc) (mc_thr mc)) (occ + 1))
    as (mc'&occ'&->&Hok&Hlen).
  { split; simpl; [by rewrite !insert_length|]. apply tab_entries_insert; [|done]. by apply tab_entries_insert. }
  exists mc', occ'. split_and!; auto. simpl in Hlen. by rewrite !insert_length in Hlen.
Qed.

Lemma memo_double_spec md H s mc : Inv md H s -> memo_ok md (length (s_vars s)) (s_heap s) mc ->
  exists mc', memo_double (s_heap s) mc = inr mc' /\ memo_ok md (length (s_vars s)) (s_heap s) mc'.
Proof.
  intros HI Hmc. unfold memo_double. destruct (4194304 <=? N.of_nat (length (mc_tab mc))); [eauto|].
  destruct Hmc as [Hmask Hent]. rewrite assertR_true by (apply N.ltb_lt; lia). simpl.
  edestruct (memo_rehash_spec md H s (seq 0 (length (mc_tab mc))) HI
    (MCache (mc_tab mc ++ repeat empty_memo (length (mc_tab mc))) (2 * N.of_nat (length (mc_tab mc)) - 1) 0
       (1 + N.of_nat (length (mc_tab mc)))) 0) as (mc'&occ'&->&[Hm1 Hm2]&Hlen).
  { split; simpl.
    - rewrite app_length, repeat_length. lia.
    - intros m Hm Hr. apply elem_of_app in Hm as [Hm|Hm]; [auto|].
      apply elem_of_list_In, repeat_spec in Hm as ->. done. }
  simpl. eexists. split; [done|]. split; simpl; auto.
Qed.

Lemma set_memo_inv md H s mc : Inv md H s -> memo_ok md (length (s_vars s)) (s_heap s) mc -> Inv md H (set_s_memo mc s).
Proof. intros [] Hm. constructor; auto. Qed.

Lemma cache_insert_spec md H s f g hh r : Inv md H s -> entry_ok md (length (s_vars s)) (s_heap s) (Memo f g hh r) ->
  exists mc, cache_insert f g hh r s = Ok tt (set_s_memo mc s) /\ Inv md H (set_s_memo mc s).
Proof.
  intros HI He. pose proof He as (tf&tg&tr&Hf&Hg&Hr&_). simpl in Hf, Hg, Hr.
  destruct (repr_is_Some _ _ _ _ _ HI Hf) as [Hf1 Hf2]. destruct (repr_is_Some _ _ _ _ _ HI Hg) as [Hg1 Hg2].
  destruct (cache_hash_spec (s_heap s) f g hh) as [x Hx]; auto.
  unfold cache_insert, bind, get, liftR. rewrite Hx. simpl.
  set (mc1 := MCache _ _ _ _).
  assert (Hok1 : memo_ok md (length (s_vars s)) (s_heap s) mc1) by (destruct (i_memo _ _ _ HI); by split).
  assert (exists mc2, (if mc_thr (s_memo s) <=? mc_ins (s_memo s) + 1 then memo_double (s_heap s) mc1 else inr mc1) = inr mc2 /\
     memo_ok md (length (s_vars s)) (s_heap s) mc2) as (mc2&->&Hm2&He2).
  { destruct (mc_thr (s_memo s) <=? mc_ins (s_memo s) + 1); [|eauto]. by eapply memo_double_spec. }
  destruct (memo_slot_spec mc2 x Hm2) as (n&Hn&Hlt). rewrite Hn.
  eexists. split; [reflexivity|]. apply set_memo_inv; [done|].
  split; simpl; [by rewrite insert_length|]. by apply tab_entries_insert.
Qed.
End memo.
