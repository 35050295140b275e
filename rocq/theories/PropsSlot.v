(** * PropsSlot.v -- enlarging the memo cache loses no result (C79)

    In every history each occupied slot of the memo cache is the one its operands hash to.  Therefore
    double_cache only moves an entry from slot k to k or k + size, and no entry is lost by it. *)
From Verif Require Export PropsCost2.
Open Scope N_scope.

Section slot.
Context {E : Env} (HE : env_ok E).

(** the cache has a power of two slots, and results are stored where lookups for them search *)
Definition mtab (h : heap) (mc : mcache) : Prop := exists j, N.of_nat (length (mc_tab mc)) = 2 ^ j /\ mc_mask mc = 2 ^ j - 1 /\
  forall k m, mc_tab mc !! k = Some m -> m_r m <> 0 -> exists x, cache_hash h (m_f m) (m_g m) (m_h m) = inr x /\ N.to_nat (N.land x (mc_mask mc)) = k.
Definition msl (s : mstate) : Prop := mtab (s_heap s) (s_memo s).
Definition lives (mc : mcache) (m : memo) : Prop := m ∈ mc_tab mc /\ m_r m <> 0.

Lemma hash_skel h h' f g hh x : skel h h' -> cache_hash h f g hh = inr x -> cache_hash h' f g hh = inr x.
Proof.
  intros Hk. unfold cache_hash, derefR. destruct (h !! f) as [nf|] eqn:Hf; [|done]. destruct (Hk _ _ Hf) as (nf'&->&_&_&_&Hkf). cbn.
  destruct (assertR _); [done|]. cbn. destruct (h !! g) as [ng|] eqn:Hg1; [|done]. destruct (Hk _ _ Hg1) as (ng'&->&_&_&_&Hkg). cbn. by rewrite Hkf, Hkg.
Qed.
Lemma mtab_skel h h' mc : skel h h' -> mtab h mc -> mtab h' mc.
Proof.
  intros Hk (j&H1&H2&H3). exists j. split_and!; auto. intros k m Hm Hr. destruct (H3 k m Hm Hr) as (x&Hx&Hl). exists x. split; [|done]. by eapply hash_skel.
Qed.
Lemma land_mod x j : N.land x (2 ^ j - 1) = x mod 2 ^ j.
Proof. rewrite <- N.land_ones. f_equal. rewrite N.ones_equiv. lia. Qed.
Lemma mod_dbl x j : x mod 2 ^ (N.succ j) = x mod 2 ^ j \/ x mod 2 ^ (N.succ j) = x mod 2 ^ j + 2 ^ j.
Proof.
  rewrite N.pow_succ_r'. rewrite (N.mul_comm 2). rewrite N.mod_mul_r; [|apply N.pow_nonzero; done|done].
  pose proof (N.mod_lt (x / 2 ^ j) 2 ltac:(done)). destruct (x / 2 ^ j mod 2) as [|[|[]|]]; lia.
Qed.
Lemma mod_mono x y j : x mod 2 ^ (N.succ j) = y mod 2 ^ (N.succ j) -> x mod 2 ^ j = y mod 2 ^ j.
Proof.
  intros H. assert (H0 : 2 ^ j <> 0) by (by apply N.pow_nonzero). pose proof (N.mod_lt x _ H0). pose proof (N.mod_lt y _ H0).
  destruct (mod_dbl x j) as [Hx|Hx], (mod_dbl y j) as [Hy|Hy]; rewrite Hx, Hy in H; clear Hx Hy H0; revert H H1 H2; generalize (x mod 2 ^ j); intros a; generalize (y mod 2 ^ j); intros b; generalize (2 ^ j); clear; intros; lia.
Qed.
Lemma slot_inv mc x n : memo_slot mc x = inr n -> n = N.land x (mc_mask mc) /\ (N.to_nat n < length (mc_tab mc))%nat.
Proof.
  intros Hn. unfold memo_slot in Hn. destruct (assertR _); [done|]. cbn in Hn. destruct (assertR _); [done|]. cbn in Hn.
  destruct (N.ltb_spec (N.land x (mc_mask mc)) (N.of_nat (length (mc_tab mc)))); [|done]. injection Hn as <-. split; [done|lia].
Qed.
Lemma nth_ent (l : list memo) k : m_r (nth k l empty_memo) <> 0 -> l !! k = Some (nth k l empty_memo).
Proof.
  intros Hr. destruct (l !! k) as [m|] eqn:Hm; [by rewrite (nth_lookup_Some _ _ _ _ Hm)|]. exfalso. apply Hr.
  apply lookup_ge_None in Hm. by rewrite nth_overflow.
Qed.
Lemma memo_eqb_eq a b : memo_eqb a b = true <-> a = b.
Proof.
  unfold memo_eqb. rewrite !andb_true_iff, !N.eqb_eq. destruct a, b. cbn. split; [intros [[[-> ->] ->] ->]; done|by intros [= -> -> -> ->]].
Qed.
(** state of double_cache before it looks at slot [k]: the slots below [k] are done, of the others the upper partner is free *)
Record dbl (h : heap) (j : N) (k : nat) (mc : mcache) : Prop := {
  d_len : N.of_nat (length (mc_tab mc)) = 2 ^ N.succ j;
  d_mask : mc_mask mc = 2 ^ N.succ j - 1;
  d_done : forall i m, mc_tab mc !! i = Some m -> m_r m <> 0 -> exists x, cache_hash h (m_f m) (m_g m) (m_h m) = inr x /\
     (if decide (k <= i < N.to_nat (2 ^ j))%nat then N.to_nat (x mod 2 ^ j) = i else N.to_nat (x mod 2 ^ N.succ j) = i);
  d_free : forall i m, (k <= i)%nat -> mc_tab mc !! (i + N.to_nat (2 ^ j))%nat = Some m -> m_r m = 0 }.
Lemma rehash_dbl h j n : forall k mc occ mc' occ', (k + n)%nat = N.to_nat (2 ^ j) -> dbl h j k mc -> memo_rehash h (seq k n) mc occ = inr (mc', occ') ->
  dbl h j (N.to_nat (2 ^ j)) mc' /\ forall m, lives mc' m <-> lives mc m.
Proof.
  induction n as [|n IH]; intros k mc occ mc' occ' Hkn Hd Hr; cbn [seq memo_rehash] in Hr.
  { injection Hr as <- <-. assert (k = N.to_nat (2 ^ j)) as -> by lia. done. }
  set (m := nth k (mc_tab mc) empty_memo) in *.
  destruct (N.eqb_spec (m_r m) 0) as [H0|H0].
  { refine (IH (S k) mc occ mc' occ' ltac:(lia) _ Hr). destruct Hd as [D1 D2 D3 D4]. split; auto.
    - intros i m' Hi Hr'. destruct (D3 i m' Hi Hr') as (x&Hx&Hc). exists x. split; [done|].
      destruct (decide (k <= i < N.to_nat (2 ^ j))%nat) as [Hd1|Hd1], (decide (S k <= i < N.to_nat (2 ^ j))%nat) as [Hd2|Hd2]; try done; [|lia].
      assert (i = k) as -> by lia. unfold m in H0. rewrite (nth_lookup_Some _ _ _ _ Hi) in H0. done.
    - intros i m' Hi. apply D4. lia. }
  pose proof (nth_ent _ _ H0) as Hk. fold m in Hk. destruct Hd as [D1 D2 D3 D4].
  destruct (D3 k m Hk H0) as (x&Hx&Hc). rewrite decide_True in Hc by lia. rewrite Hx in Hr. cbn in Hr.
  destruct (memo_slot mc x) as [|n'] eqn:Hn'; [done|]. cbn in Hr. apply slot_inv in Hn' as [Hn' Hlt].
  rewrite D2, land_mod in Hn'.
  pose proof (N.mod_lt x (2 ^ j) (N.pow_nonzero 2 j ltac:(done))) as Hmx.
  destruct (memo_eqb (memo_get mc n') m) eqn:Heq.
  - apply memo_eqb_eq in Heq. refine (IH (S k) mc (occ + 1) mc' occ' ltac:(lia) _ Hr). split; auto.
    + intros i m' Hi Hr'. destruct (D3 i m' Hi Hr') as (y&Hy&Hcy). exists y. split; [done|].
      destruct (decide (k <= i < N.to_nat (2 ^ j))%nat) as [Hd1|Hd1], (decide (S k <= i < N.to_nat (2 ^ j))%nat) as [Hd2|Hd2]; try done; [|lia].
      assert (i = k) as -> by lia. assert (m' = m) as -> by congruence. assert (y = x) as -> by congruence. rewrite <- Hn'.
      destruct (mod_dbl x j) as [Hx'|Hx']; [lia|]. exfalso. apply H0. apply (D4 k m); [lia|].
      replace (k + N.to_nat (2 ^ j))%nat with (N.to_nat n') by lia. rewrite <- Heq. apply nth_ent. unfold memo_get in Heq. by rewrite Heq.
    + intros i m' Hi. apply D4. lia.
  - assert (Hn2 : n' = x mod 2 ^ j + 2 ^ j).
    { destruct (mod_dbl x j) as [Hx'|Hx']; [|lia]. exfalso. assert (memo_get mc n' = m) as Hg; [|apply memo_eqb_eq in Hg; congruence].
      unfold memo_get. replace (N.to_nat n') with k by lia. done. }
    assert (Hnk : N.to_nat n' = (k + N.to_nat (2 ^ j))%nat) by lia.
    assert (Hk2 : (k < N.to_nat (2 ^ j))%nat) by lia.
    set (tab := <[k := Memo (m_f m) (m_g m) (m_h m) 0]> (<[N.to_nat n' := m]> (mc_tab mc))) in *.
    assert (Hkl : (k < length (mc_tab mc))%nat) by (by eapply lookup_lt_Some).
    assert (Htab : forall i, tab !! i = if decide (i = k) then Some (Memo (m_f m) (m_g m) (m_h m) 0) else if decide (i = N.to_nat n') then Some m else mc_tab mc !! i).
    { intros i. unfold tab. case_decide as Hik; [subst i; rewrite list_lookup_insert; [done|by rewrite insert_length]|].
      rewrite list_lookup_insert_ne by done. case_decide as Hin; [subst i; by rewrite list_lookup_insert|by rewrite list_lookup_insert_ne]. }
    destruct (IH (S k) (MCache tab (mc_mask mc) (mc_ins mc) (mc_thr mc)) (occ + 1) mc' occ' ltac:(lia)) as [Hd' Hl']; [|exact Hr|].
    { split; cbn [mc_tab mc_mask]; auto.
      - unfold tab. by rewrite !insert_length.
      - intros i m' Hi Hr'. rewrite Htab in Hi. case_decide as Hik; [by simplify_eq|]. case_decide as Hin.
        + injection Hi as <-. subst i. exists x. split; [done|]. rewrite decide_False; [by rewrite <- Hn'|]. rewrite Hnk. clear. lia.
        + destruct (D3 i m' Hi Hr') as (y&Hy&Hcy). exists y. split; [done|].
          destruct (decide (k <= i < N.to_nat (2 ^ j))%nat) as [Hd1|Hd1], (decide (S k <= i < N.to_nat (2 ^ j))%nat) as [Hd2|Hd2]; try done; lia.
      - intros i m' Hi Hm'. rewrite Htab in Hm'. case_decide; [lia|]. case_decide; [lia|]. apply (D4 i); [lia|done]. }
    split; [done|]. intros m'. rewrite Hl'. unfold lives. cbn [mc_tab]. rewrite !elem_of_list_lookup. split; intros [[i Hi] Hr']; (split; [|done]).
    + rewrite Htab in Hi. case_decide; [by simplify_eq|]. case_decide; [simplify_eq; eauto|eauto].
    + destruct (decide (i = k)) as [->|Hik].
      * assert (m' = m) as -> by congruence. exists (N.to_nat n'). rewrite Htab. rewrite decide_False by lia. by rewrite decide_True.
      * exists i. rewrite Htab. rewrite decide_False by done. case_decide as Hin; [|done]. subst i. exfalso. apply Hr'. rewrite Hnk in Hi. by apply (D4 k m').
Qed.
(** two hashes with the same slot in the larger cache have the same slot in the smaller *)
Definition finer (a b : mcache) : Prop := forall x y, N.land x (mc_mask b) = N.land y (mc_mask b) -> N.land x (mc_mask a) = N.land y (mc_mask a).
Lemma double_keeps h mc mc' : mtab h mc -> memo_double h mc = inr mc' -> mtab h mc' /\ (forall m, lives mc' m <-> lives mc m) /\ finer mc mc'.
Proof.
  intros (j&Hl&Hm&Hs) Hd. unfold memo_double in Hd. destruct (4194304 <=? _).
  { injection Hd as <-. split_and!; [exists j; done|done|by intros x y]. }
  destruct (assertR _); [done|]. cbn in Hd.
  destruct (memo_rehash _ _ _ _) as [|[mc2 occ]] eqn:Hr; [done|]. cbn in Hd. injection Hd as <-.
  replace (length (mc_tab mc)) with (N.to_nat (2 ^ j)) in Hr at 1 by lia.
  eapply (rehash_dbl h j (N.to_nat (2 ^ j)) 0) in Hr as [[D1 D2 D3 D4] Hlv]; [|lia|].
  - split_and!.
    + exists (N.succ j). cbn [mc_tab mc_mask]. split_and!; auto. intros k m Hk Hr0. destruct (D3 k m Hk Hr0) as (x&Hx&Hc). exists x. split; [done|].
      rewrite decide_False in Hc by lia. by rewrite D2, land_mod.
    + intros m. unfold lives in *. cbn [mc_tab] in *. rewrite Hlv, elem_of_app. split; intros [Hi Hr0]; (split; [|done]); [|by left].
      destruct Hi as [Hi|Hi]; [done|]. apply elem_of_list_In, repeat_spec in Hi as ->. done.
    + intros x y. cbn [mc_mask]. rewrite Hm, D2, !land_mod. apply mod_mono.
  - split; cbn [mc_tab mc_mask].
    + rewrite app_length, repeat_length, N.pow_succ_r'. lia.
    + rewrite N.pow_succ_r'. lia.
    + intros i m Hi Hr0. apply lookup_app_Some in Hi as [Hi|[Hi1 Hi]].
      * destruct (Hs i m Hi Hr0) as (x&Hx&Hc). exists x. split; [done|]. apply lookup_lt_Some in Hi. rewrite decide_True by lia. by rewrite Hm, land_mod in Hc.
      * apply elem_of_list_lookup_2, elem_of_list_In, repeat_spec in Hi as ->. done.
    + intros i m _ Hi. apply lookup_app_Some in Hi as [Hi|[Hi1 Hi]]; [apply lookup_lt_Some in Hi; lia|].
      apply elem_of_list_lookup_2, elem_of_list_In, repeat_spec in Hi as ->. done.
Qed.
Lemma insert_keeps f g hh r s u s' : msl s -> cache_insert f g hh r s = Ok u s' -> exists x, cache_hash (s_heap s) f g hh = inr x /\
  s_heap s' = s_heap s /\ s_nc s' = s_nc s /\ msl s' /\ finer (s_memo s) (s_memo s') /\
  (forall m, lives (s_memo s') m -> m = Memo f g hh r \/ lives (s_memo s) m) /\ (r <> 0 -> lives (s_memo s') (Memo f g hh r)) /\
  (forall m, lives (s_memo s) m -> lives (s_memo s') m \/ exists y, cache_hash (s_heap s) (m_f m) (m_g m) (m_h m) = inr y /\ N.land x (mc_mask (s_memo s)) = N.land y (mc_mask (s_memo s))).
Proof.
  intros Hms Hs. unfold cache_insert, bind, get, liftR in Hs. destruct (cache_hash (s_heap s) f g hh) as [|x] eqn:Hx; [done|]. exists x. split; [done|].
  set (mc0 := MCache _ _ _ _) in Hs.
  destruct (if _ <=? _ then _ else _) as [|mc] eqn:Hmc; [done|]. destruct (memo_slot mc x) as [|n] eqn:Hn; [done|].
  unfold set_memo in Hs. injection Hs as _ <-. cbn [s_heap s_nc s_memo]. split; [done|]. split; [done|].
  assert (H0 : mtab (s_heap s) mc /\ (forall m, lives mc m <-> lives (s_memo s) m) /\ finer (s_memo s) mc).
  { assert (Hm0 : mtab (s_heap s) mc0) by exact Hms. destruct (mc_thr mc0 <=? mc_ins mc0).
    - destruct (double_keeps _ _ _ Hm0 Hmc) as (H1&H2&H3). done.
    - injection Hmc as <-. split_and!; [done|done|by intros a b]. }
  destruct H0 as ((j&Hl&Hm&Hsl)&Hlv&Hfin). apply slot_inv in Hn as [-> Hlt].
  split_and!.
  - exists j. cbn [mc_tab mc_mask s_heap s_memo]. rewrite insert_length. split_and!; auto. intros k m Hk Hr0.
    destruct (decide (k = N.to_nat (N.land x (mc_mask mc)))) as [->|Hne].
    + rewrite list_lookup_insert in Hk by done. injection Hk as <-. exists x. done.
    + rewrite list_lookup_insert_ne in Hk by done. by apply Hsl.
  - exact Hfin.
  - intros m [Hi Hr0]. cbn [mc_tab] in Hi. apply elem_of_list_lookup in Hi as [k Hk].
    destruct (decide (k = N.to_nat (N.land x (mc_mask mc)))) as [->|Hne].
    + rewrite list_lookup_insert in Hk by done. injection Hk as <-. by left.
    + rewrite list_lookup_insert_ne in Hk by done. right. apply Hlv. split; [by eapply elem_of_list_lookup_2|done].
  - intros Hr0. split; [|done]. cbn [mc_tab]. apply elem_of_list_lookup_2 with (N.to_nat (N.land x (mc_mask mc))). by apply list_lookup_insert.
  - intros m Hm1. apply Hlv in Hm1 as [Hi Hr0]. apply elem_of_list_lookup in Hi as [k Hk]. destruct (Hsl k m Hk Hr0) as (y&Hy&Hc).
    destruct (decide (k = N.to_nat (N.land x (mc_mask mc)))) as [->|Hne].
    + right. exists y. split; [done|]. apply Hfin. lia.
    + left. split; [|done]. cbn [mc_tab]. apply elem_of_list_lookup_2 with k. by rewrite list_lookup_insert_ne.
Qed.

(** [ks m]: [m], if it returns, keeps this *)
Definition ks {A} (m : M A) : Prop := forall s, nc_ok (s_heap s) (s_nc s) -> msl s ->
  match m s with Ok _ s' => nc_ok (s_heap s') (s_nc s') /\ skel (s_heap s) (s_heap s') /\ msl s' | Fail _ _ => True end.
Lemma ks_bind {A B} (m : M A) (k : A -> M B) : ks m -> (forall a, ks (k a)) -> ks (bind m k).
Proof.
  intros Hm Hk s Hs Hl. unfold bind. specialize (Hm s Hs Hl). destruct (m s) as [a s1|e s1]; [|done].
  destruct Hm as (Hs1&H1&Hl1). specialize (Hk a s1 Hs1 Hl1). destruct (k a s1) as [b s2|e s2]; [|done].
  destruct Hk as (?&?&?). split_and!; [done|by eapply skel_trans|done].
Qed.
(** a function that does not touch the cache *)
Lemma ks_kp {A} (m : M A) : kp m -> (forall s a s', nc_ok (s_heap s) (s_nc s) -> m s = Ok a s' -> s_memo s' = s_memo s) -> ks m.
Proof.
  intros Hk Hm s Hs Hl. specialize (Hk s Hs). destruct (m s) as [a s1|e s1] eqn:Hr; [|done]. destruct Hk as [H1 H2]. split_and!; auto.
  unfold msl. rewrite (Hm _ _ _ Hs Hr). by eapply mtab_skel.
Qed.
Lemma ks_ret {A} (a : A) : ks (ret a).
Proof. intros s Hs Hm. split_and!; [done|apply skel_refl|done]. Qed.
Lemma ks_fail {A} e : ks (fail (A := A) e).
Proof. intros s Hs Hm. done. Qed.
Lemma ks_get : ks get.
Proof. intros s Hs Hm. split_and!; [done|apply skel_refl|done]. Qed.
Lemma ks_liftR {A} (r : R A) : ks (liftR r).
Proof. intros s Hs Hm. unfold liftR. destruct r; [done|]. split_and!; [done|apply skel_refl|done]. Qed.
Lemma ks_assert b : ks (assert_ b).
Proof. apply ks_liftR. Qed.
Lemma ks_assertM m : ks m -> ks (assertM m).
Proof. intros Hm. unfold assertM. destruct e_ndebug; [apply ks_ret|]. apply ks_bind; [done|]. intros. apply ks_assert. Qed.
Lemma ks_args2 {A B} (a : M A) (b : M B) : ks a -> ks b -> ks (args2 a b).
Proof. intros Ha Hb. unfold args2. destruct e_rtl; repeat (apply ks_bind; [done|intros ?]); apply ks_ret. Qed.
Lemma ks_args3 {A B C} (a : M A) (b : M B) (c : M C) : ks a -> ks b -> ks c -> ks (args3 a b c).
Proof. intros Ha Hb Hc. unfold args3. destruct e_rtl; repeat (apply ks_bind; [done|intros ?]); apply ks_ret. Qed.
Lemma ks_with_fuel {A} (m : nat -> M A) : (forall n, ks (m n)) -> ks (with_fuel m).
Proof. intros Hm s. apply Hm. Qed.
Lemma ks_getN p : ks (getN p).
Proof. intros s Hs Hm. unfold getN. destruct (_ !! _); [|done]. split_and!; [done|apply skel_refl|done]. Qed.
Lemma ks_getV v : ks (getV v).
Proof. intros s Hs Hm. unfold getV. destruct (_ !! _); [|done]. split_and!; [done|apply skel_refl|done]. Qed.
Lemma ks_set_vars f : ks (set_vars f).
Proof. intros s Hs Hm. split_and!; [done|apply skel_refl|done]. Qed.
Lemma ks_set_pcs f : ks (set_pcs f).
Proof. intros s Hs Hm. split_and!; [done|apply skel_refl|done]. Qed.
Lemma modN_memo p f s a s' : modN p f s = Ok a s' -> s_memo s' = s_memo s.
Proof. unfold modN, bind, getN, set_heap. destruct (s_heap s !! p); [|done]. by intros [= _ <-]. Qed.
Lemma ks_modN p f : (forall n, n_lo (f n) = n_lo n /\ n_hi (f n) = n_hi n /\ n_idx (f n) = n_idx n /\ n_key (f n) = n_key n) -> ks (modN p f).
Proof. intros Hf. apply ks_kp; [by apply kp_modN|]. intros s a s' _. apply modN_memo. Qed.
Lemma ks_mark p b : ks (modN p (with_mark b)).
Proof. by apply ks_modN. Qed.
Lemma ks_inc p : ks (xref_inc p).
Proof. by apply ks_modN. Qed.
Lemma ks_dec p : ks (xref_dec p).
Proof. by apply ks_modN. Qed.
Lemma ks_alloc {A} v l h (k : ptr -> M A) : (forall p, ks (k p)) -> ks (let* p := reserve_node in init_new_node p v l h ;;* k p).
Proof.
  intros Hk. set (m0 := let* p := reserve_node in init_new_node p v l h ;;* ret p).
  assert (H0 : ks m0).
  { apply ks_kp; [apply (kp_alloc HE); intros; apply kp_ret|]. intros s a s' Hnc Hr. unfold m0 in Hr.
    apply bind_okc in Hr as (p&s1&H1&Hr). apply bind_okc in Hr as (u&s2&H2&Hr). injection Hr as _ <-.
    assert (s_memo s1 = s_memo s) as <-.
    { destruct (reserve_node_spec HE s Hnc) as (p'&nc'&Hr'&_). rewrite Hr' in H1. by injection H1 as _ <-. }
    unfold init_new_node in H2. apply bind_okc in H2 as (u1&s3&H3&H2). apply liftR_ok in H3 as [_ ->].
    apply bind_okc in H2 as (u2&s4&H4&H2). apply modN_memo in H4 as <-. apply bind_okc in H2 as (u3&s5&H5&H2). apply modN_memo in H5 as <-.
    unfold bind, get, set_rnd, set_heap in H2. by injection H2 as _ <-. }
  intros s Hs Hl. pose proof (ks_bind m0 k H0 Hk s Hs Hl) as Hb.
  assert ((let* p := reserve_node in init_new_node p v l h ;;* k p) s = bind m0 k s) as ->; [|done].
  unfold m0, bind, ret. destruct (reserve_node s) as [p s1|]; [|done]. by destruct (init_new_node p v l h s1).
Qed.

Ltac ks0 := lazymatch goal with
  | |- ks (ret _) => apply ks_ret
  | |- ks (fail _) => apply ks_fail
  | |- ks get => apply ks_get
  | |- ks (assert_ _) => apply ks_assert
  | |- ks (liftR _) => apply ks_liftR
  | |- ks (getN _) => apply ks_getN
  | |- ks (getV _) => apply ks_getV
  | |- ks (set_vars _) => apply ks_set_vars
  | |- ks (set_pcs _) => apply ks_set_pcs
  | |- ks (modN _ (with_mark _)) => apply ks_mark
  | |- ks (xref_inc _) => apply ks_inc
  | |- ks (xref_dec _) => apply ks_dec
  end.
Ltac ks1 := lazymatch goal with
  | |- ks (bind reserve_node _) => apply ks_alloc; intros ?
  | |- ks (bind _ _) => apply ks_bind; [|intros ?]
  | |- ks (args2 _ _) => apply ks_args2
  | |- ks (args3 _ _ _) => apply ks_args3
  | |- ks (assertM _) => apply ks_assertM
  | |- ks (with_fuel _) => apply ks_with_fuel; intros ?
  | |- ks (match ?x with _ => _ end) => destruct x
  | |- ks (let _ := _ in _) => cbv zeta
  end.
Ltac kst := repeat first [ks0 | ks1 | solve [eauto 2 with ks nocore]].
Create HintDb ks discriminated.
#[local] Hint Constants Opaque : ks.
#[local] Hint Variables Opaque : ks.
Lemma ks_is_bot p : ks (is_botsink p). Proof. unfold is_botsink. kst. Qed.
Lemma ks_is_top p : ks (is_topsink p). Proof. unfold is_topsink. kst. Qed.
Hint Resolve ks_is_bot ks_is_top : ks.
Lemma ks_is_term p : ks (is_terminal p). Proof. unfold is_terminal. kst. Qed.
Lemma ks_touch p : ks (touch p). Proof. unfold touch. kst. Qed.
Hint Resolve ks_is_term ks_touch : ks.
Lemma ks_low p : ks (low p). Proof. unfold low. kst. Qed.
Lemma ks_high p : ks (high p). Proof. unfold high. kst. Qed.
Lemma ks_variable p : ks (variable p). Proof. unfold variable. kst. Qed.
Lemma ks_marked p : ks (marked p). Proof. unfold marked. kst. Qed.
Hint Resolve ks_low ks_high ks_variable ks_marked : ks.
Lemma ks_evaluate p x : ks (evaluate p x).
Proof. unfold evaluate. apply ks_with_fuel. intros n. revert p. induction n as [|n IH]; intros p; cbn [evaluate_fuel]; kst. Qed.
Lemma ks_unmark_fuel n : forall p, ks (unmark_fuel n p).
Proof. induction n as [|n IH]; intros p; cbn [unmark_fuel]; kst. Qed.
Hint Resolve ks_unmark_fuel : ks.
Lemma ks_unmark p : ks (unmark p). Proof. unfold unmark. kst. Qed.
Hint Resolve ks_unmark : ks.
Lemma ks_nr_impl n : forall p, ks (nr_nodes_impl n p).
Proof. induction n as [|n IH]; intros p; cbn [nr_nodes_impl]; kst. Qed.
Hint Resolve ks_nr_impl : ks.
Lemma ks_nr_nodes p : ks (nr_nodes p). Proof. unfold nr_nodes. kst. Qed.
Hint Resolve ks_nr_nodes : ks.
Lemma ks_post_impl n : forall p acc, ks (postorder_impl n p acc).
Proof. induction n as [|n IH]; intros p acc; cbn [postorder_impl]; kst. Qed.
Hint Resolve ks_post_impl : ks.
Lemma ks_postorder p : ks (nodes_postorder p). Proof. unfold nodes_postorder. kst. Qed.
Hint Resolve ks_postorder : ks.
Lemma ks_bfs_child c q : ks (bfs_child c q). Proof. unfold bfs_child. kst. Qed.
Hint Resolve ks_bfs_child : ks.
Lemma ks_bfs_loop n : forall q l, ks (bfs_loop n q l).
Proof. induction n as [|n IH]; intros q l; cbn [bfs_loop]; kst. Qed.
Hint Resolve ks_bfs_loop : ks.
Lemma ks_bfs p : ks (nodes_bfs p). Proof. unfold nodes_bfs. kst. Qed.
Hint Resolve ks_bfs : ks.
Lemma ks_vars_impl n : forall p acc, ks (variables_impl n p acc).
Proof. induction n as [|n IH]; intros p acc; cbn [variables_impl]; kst. Qed.
Hint Resolve ks_vars_impl : ks.
Lemma ks_variables p : ks (variables p). Proof. unfold variables. kst. Qed.
Lemma ks_one n : forall p, ks (exactly_one_solution_fuel n p).
Proof. induction n as [|n IH]; intros p; cbn [exactly_one_solution_fuel]; kst. Qed.
Lemma ks_find_fuel n : forall p, ks (find_bdd_mgr_fuel n p).
Proof. induction n as [|n IH]; intros p; cbn [find_bdd_mgr_fuel]; kst. Qed.
Hint Resolve ks_variables ks_one ks_find_fuel : ks.
Lemma ks_find p : ks (find_bdd_mgr p). Proof. unfold find_bdd_mgr. kst. Qed.
Lemma ks_print_rec n : forall p l, ks (print_rec n p l).
Proof. induction n as [|n IH]; intros p l; cbn [print_rec]; kst. Qed.
Hint Resolve ks_find ks_print_rec : ks.
Lemma ks_print p : ks (print p). Proof. unfold print. kst. Qed.
Lemma ks_acquire p : ks (ref_acquire p). Proof. unfold ref_acquire. kst. Qed.
Lemma ks_release p : ks (ref_release p). Proof. unfold ref_release. kst. Qed.
Lemma ks_assign p q : ks (ref_assign p q). Proof. unfold ref_assign. kst. Qed.
Hint Resolve ks_print ks_acquire ks_release ks_assign : ks.

Lemma ks_reserve_page cls : ks (reserve_page cls). Proof. unfold reserve_page. kst. Qed.
Hint Resolve ks_reserve_page : ks.
Lemma ks_new_page m : ks (new_page m). Proof. unfold new_page. kst. Qed.
Lemma ks_free_page pg m : ks (free_page pg m). Proof. unfold free_page, push_page. kst. Qed.
Hint Resolve ks_new_page ks_free_page : ks.
Lemma ks_setV v t : ks (setV v t). Proof. unfold setV. kst. Qed.
Hint Resolve ks_setV : ks.
Lemma ks_double v : ks (double_cache v). Proof. unfold double_cache. kst. Qed.
Hint Resolve ks_double : ks.
Lemma ks_uf n : forall v l h, ks (unique_find_fuel n v l h).
Proof. induction n as [|n IH]; intros v l h; cbn [unique_find_fuel]; kst. Qed.
Lemma ks_ufv v l h : ks (unique_find_v v l h). Proof. apply ks_uf. Qed.
Hint Resolve ks_ufv : ks.
Lemma ks_zero p : ks (modN p (with_xref (fun _ => 0%Z))).
Proof. by apply ks_modN. Qed.
Hint Resolve ks_zero ks_inc : ks.
Lemma ks_revive_fuel n : forall p, ks (recursively_revive_fuel n p).
Proof. induction n as [|n IH]; intros p; cbn [recursively_revive_fuel]; kst. Qed.
Hint Resolve ks_revive_fuel : ks.
Lemma ks_revive p : ks (recursively_revive p). Proof. unfold recursively_revive. kst. Qed.
Hint Resolve ks_revive : ks.
Lemma ks_lookup f g h : ks (cache_lookup f g h). Proof. unfold cache_lookup. kst. Qed.
Lemma ks_insert f g h r : ks (cache_insert f g h r).
Proof.
  intros s Hs Hl. destruct (cache_insert f g h r s) as [u s'|] eqn:Hr; [|done]. destruct (insert_keeps _ _ _ _ _ _ _ Hl Hr) as (x&_&H1&H2&H3&_).
  rewrite H1, H2. split_and!; [done|apply skel_refl|done].
Qed.
Hint Resolve ks_lookup ks_insert : ks.
Lemma ks_new_var : ks TableModel.new_var. Proof. unfold TableModel.new_var. kst. Qed.
Hint Resolve ks_new_var : ks.
Lemma ks_add_variable : ks add_variable. Proof. unfold add_variable. kst. Qed.
Hint Resolve ks_add_variable : ks.
Lemma ks_add_variables n : ks (add_variables n).
Proof. induction n as [|n IH]; cbn [add_variables]; kst. Qed.
Hint Resolve ks_add_variables : ks.
Lemma ks_ensure v : ks (ensure_var v). Proof. unfold ensure_var. kst. Qed.
Hint Resolve ks_ensure : ks.
Lemma ks_proj v : ks (projection v). Proof. unfold projection. kst. Qed.
Lemma ks_nproj v : ks (neg_projection v). Proof. unfold neg_projection. kst. Qed.
Lemma ks_negate_fuel n : forall p, ks (negate_fuel n p).
Proof. induction n as [|n IH]; intros p; cbn [negate_fuel]; kst. Qed.
Hint Resolve ks_proj ks_nproj ks_negate_fuel : ks.
Lemma ks_negate p : ks (negate p). Proof. unfold negate. kst. Qed.
Lemma ks_muf v l h : ks (mgr_unique_find v l h). Proof. unfold mgr_unique_find. kst. Qed.
Hint Resolve ks_negate ks_muf : ks.
Lemma ks_and_fuel n : forall f g, ks (and_fuel n f g).
Proof. induction n as [|n IH]; intros f g; cbn [and_fuel]; kst. Qed.
Lemma ks_or_fuel n : forall f g, ks (or_fuel n f g).
Proof. induction n as [|n IH]; intros f g; cbn [or_fuel]; kst. Qed.
Lemma ks_xor_fuel n : forall f g, ks (xor_fuel n f g).
Proof. induction n as [|n IH]; intros f g; cbn [xor_fuel]; kst. Qed.
Hint Resolve ks_and_fuel ks_or_fuel ks_xor_fuel : ks.
Lemma ks_and f g : ks (and_rec f g). Proof. unfold and_rec. kst. Qed.
Lemma ks_or f g : ks (or_rec f g). Proof. unfold or_rec. kst. Qed.
Lemma ks_xor f g : ks (xor_rec f g). Proof. unfold xor_rec. kst. Qed.
Hint Resolve ks_and ks_or ks_xor : ks.
Lemma ks_ite_fuel n : forall f g h, ks (ite_fuel n f g h).
Proof. induction n as [|n IH]; intros f g h; cbn [ite_fuel]; kst. Qed.
Hint Resolve ks_ite_fuel : ks.
Lemma ks_ite f g h : ks (ite_rec f g h). Proof. unfold ite_rec. kst. Qed.
Lemma ks_lim_fuel n : forall f g L, ks (and_limited_fuel n f g L).
Proof. induction n as [|n IH]; intros f g L; cbn [and_limited_fuel]; kst. Qed.
Hint Resolve ks_ite ks_lim_fuel : ks.
Lemma ks_lim f g L : ks (and_rec_limited f g L). Proof. unfold and_rec_limited. kst. Qed.
Hint Resolve ks_lim : ks.
Lemma ks_variadic op : (forall a b, ks (op a b)) -> forall l p, ks (nary_variadic op p l).
Proof. intros Hop l. induction l as [|q l IH]; intros p; cbn [nary_variadic]; [kst|]. destruct l; [apply Hop|]. kst. Qed.
Lemma ks_range op : (forall a b, ks (op a b)) -> forall n l, ks (nary_range op n l).
Proof. intros Hop n. induction n as [|n IH]; intros l; cbn [nary_range]; kst. Qed.
Lemma ks_via {A} a (m : M A) : ks m -> ks (via_mgr a m).
Proof. intros Hm. unfold via_mgr. kst. Qed.
Lemma ks_andv p l : ks (and_variadic p l). Proof. apply ks_variadic, ks_and. Qed.
Lemma ks_orv p l : ks (or_variadic p l). Proof. apply ks_variadic, ks_or. Qed.
Lemma ks_xorv p l : ks (xor_variadic p l). Proof. apply ks_variadic, ks_xor. Qed.
Lemma ks_andr l : ks (and_range l). Proof. apply ks_range, ks_and. Qed.
Lemma ks_orr l : ks (or_range l). Proof. apply ks_range, ks_or. Qed.
Lemma ks_xorr l : ks (xor_range l). Proof. apply ks_range, ks_xor. Qed.
Hint Resolve ks_andv ks_orv ks_xorv ks_andr ks_orr ks_xorr ks_via : ks.
Lemma ks_af_fuel n : forall l, ks (all_false_fuel n l).
Proof. induction n as [|n IH]; intros l; cbn [all_false_fuel]; kst. Qed.
Hint Resolve ks_af_fuel : ks.
Lemma ks_all_false l : ks (all_false l). Proof. unfold all_false. kst. Qed.
Lemma ks_not_both a b : ks (not_both a b). Proof. unfold not_both. kst. Qed.
Hint Resolve ks_all_false ks_not_both : ks.
Lemma ks_amo_fuel n : forall l, ks (at_most_one_fuel n l).
Proof. induction n as [|n IH]; intros l; cbn [at_most_one_fuel]; kst. Qed.
Hint Resolve ks_amo_fuel : ks.
Lemma ks_amo l : ks (at_most_one l). Proof. unfold at_most_one. kst. Qed.
Hint Resolve ks_amo : ks.
Lemma ks_simplex l : ks (simplex l). Proof. unfold simplex. kst. Qed.
Lemma ks_alo l : ks (at_least_one l). Proof. unfold at_least_one. kst. Qed.
Lemma ks_tabulate f l : (forall i, ks (f i)) -> ks (tabulateM f l).
Proof. intros Hf. induction l as [|i l IH]; cbn [tabulateM]; kst. Qed.
Lemma ks_vec l i : ks (vec_at l i). Proof. unfold vec_at. kst. Qed.
Hint Resolve ks_simplex ks_alo ks_vec : ks.
Lemma ks_halves r l b : (forall l b, ks (r l b)) -> ks (combine_halves r l b).
Proof. intros Hr. unfold combine_halves. kst; apply ks_tabulate; intros; kst. Qed.
Lemma ks_al_fuel n : forall l b, ks (at_least_fuel n l b).
Proof. induction n as [|n IH]; intros l b; cbn [at_least_fuel]; kst; by apply ks_halves. Qed.
Lemma ks_am_fuel n : forall l b, ks (at_most_fuel n l b).
Proof. induction n as [|n IH]; intros l b; cbn [at_most_fuel]; kst; by apply ks_halves. Qed.
Lemma ks_card_fuel n : forall l b, ks (cardinality_fuel n l b).
Proof. induction n as [|n IH]; intros l b; cbn [cardinality_fuel]; kst; by apply ks_halves. Qed.
Lemma ks_al l b : ks (at_least l b). Proof. apply ks_al_fuel. Qed.
Lemma ks_am l b : ks (at_most l b). Proof. apply ks_am_fuel. Qed.
Lemma ks_card l b : ks (cardinality l b). Proof. apply ks_card_fuel. Qed.
Lemma ks_rebase_node vm q nm : ks (rebase_node vm q nm). Proof. unfold rebase_node. kst. Qed.
Hint Resolve ks_al ks_am ks_card ks_rebase_node : ks.
Lemma ks_rebase_loop vm qs : forall nm, ks (rebase_loop vm qs nm).
Proof. induction qs as [|q qs IH]; intros nm; cbn [rebase_loop]; kst. Qed.
Hint Resolve ks_rebase_loop : ks.
Lemma ks_rebase_copy vm p : ks (rebase_copy vm p). Proof. unfold rebase_copy. kst. Qed.
Hint Resolve ks_rebase_copy : ks.
Lemma ks_rebase_map p vm : ks (rebase_map p vm). Proof. unfold rebase_map. kst. Qed.
Lemma ks_rebase_vec p vm : ks (rebase_vec p vm). Proof. unfold rebase_vec. kst. Qed.
Hint Resolve ks_rebase_map ks_rebase_vec : ks.
Lemma ks_pass1 nodes : forall ins hash, ks (add_pass1 nodes ins hash).
Proof. induction nodes as [|p nodes IH]; intros; cbn [add_pass1]; kst. Qed.
Lemma ks_pass2 nodes : forall off i ins hash, ks (add_pass2 nodes off i ins hash).
Proof. induction nodes as [|p nodes IH]; intros; cbn [add_pass2]; kst. Qed.
Hint Resolve ks_pass1 ks_pass2 : ks.
Lemma ks_c_add c p : ks (c_add_bdd c p). Proof. unfold c_add_bdd. kst; apply ks_via; kst. Qed.
Lemma ks_export_ref c a b i m : ks (export_ref c a b i m). Proof. unfold export_ref. kst. Qed.
Hint Resolve ks_export_ref : ks.
Lemma ks_export_loop c a b l : forall m, ks (export_loop c a b l m).
Proof. induction l as [|i l IH]; intros; cbn [export_loop]; kst. Qed.
Lemma ks_import_loop c l : forall m, ks (import_loop c l m).
Proof. induction l as [|i l IH]; intros; cbn [import_loop]; kst. Qed.
Hint Resolve ks_export_loop ks_import_loop : ks.
Lemma ks_export c nr : ks (export_bdd c nr). Proof. unfold export_bdd. kst. Qed.
Lemma ks_import c nr : ks (mgr_add_bdd c nr). Proof. unfold mgr_add_bdd. kst. Qed.
Lemma ks_acquire_all l : ks (acquire_all l).
Proof. induction l as [|p l IH]; cbn [acquire_all]; kst. Qed.
Hint Resolve ks_c_add ks_export ks_import ks_acquire_all ks_evaluate : ks.
Lemma ks_exactly p : ks (exactly_one_solution p). Proof. unfold exactly_one_solution. kst. Qed.
Hint Resolve ks_exactly : ks.


(** ** calls *)
Definition ksw (r : wres) : Prop := match r with WOk _ w' => msl (w_s w') | WFail _ _ => True end.
Lemma ksw_newh w m : nc_ok (s_heap (w_s w)) (s_nc (w_s w)) -> msl (w_s w) -> ks m -> ksw (newh w m).
Proof.
  intros Hs Hl Hm. unfold newh. specialize (Hm _ Hs Hl). destruct (m (w_s w)) as [p s|e s]; [|done].
  destruct Hm as (Hs1&_&H1). pose proof (ks_acquire p s Hs1 H1) as Ha. destruct (ref_acquire p s) as [[] s'|e s']; [apply Ha|done].
Qed.
Lemma ksw_query {A} w (f : A -> out) m : nc_ok (s_heap (w_s w)) (s_nc (w_s w)) -> msl (w_s w) -> ks m -> ksw (query w f m).
Proof. intros Hs Hl Hm. unfold query. specialize (Hm _ Hs Hl). destruct (m (w_s w)) as [p s|e s]; [apply Hm|done]. Qed.
Lemma ksw_newhs w m : nc_ok (s_heap (w_s w)) (s_nc (w_s w)) -> msl (w_s w) -> ks m -> ksw (newhs w m).
Proof.
  intros Hs Hl Hm. unfold newhs. assert (Hk : ks (let* l := m in acquire_all l ;;* ret l)) by kst. specialize (Hk _ Hs Hl).
  destruct (bind _ _ _) as [l s|e s]; [apply Hk|done].
Qed.
Lemma ksw_with1 w i k : (forall p, ksw (k p)) -> ksw (with1 w i k).
Proof. intros Hk. unfold with1. destruct (hnd w i); [apply Hk|done]. Qed.
Lemma ksw_with2 w i j k : (forall p q, ksw (k p q)) -> ksw (with2 w i j k).
Proof. intros Hk. unfold with2. apply ksw_with1. intros p. by apply ksw_with1. Qed.
Lemma ksw_withl w l k : (forall ps, ksw (k ps)) -> ksw (withl w l k).
Proof. intros Hk. unfold withl. destruct (hnds w l); [apply Hk|done]. Qed.
Lemma step_ksw o w : (forall fuel, o <> OGc fuel) -> nc_ok (s_heap (w_s w)) (s_nc (w_s w)) -> msl (w_s w) -> ksw (step o w).
Proof.
  intros Hgc Hs Hm. destruct o; try (by exfalso; eapply Hgc); cbn [step];
    repeat first [apply ksw_with1; intros ? | apply ksw_with2; intros ? ? | apply ksw_withl; intros ?];
    try (apply ksw_newh; [exact Hs|exact Hm|]; unfold op_and, op_or, op_xor, op_not; try apply ks_via; kst);
    try (apply ksw_query; [exact Hs|exact Hm|]; kst); try (apply ksw_newhs; [exact Hs|exact Hm|]; kst).
  - pose proof (ks_lim p p0 limit _ Hs Hm) as Hl. destruct (and_rec_limited p p0 limit (w_s w)) as [[r n] s|e s]; [|done].
    destruct Hl as (Hs1&_&H1). pose proof (ks_acquire r s Hs1 H1) as Ha. destruct (ref_acquire r s) as [[] s'|e s']; [apply Ha|done].
  - pose proof (ks_release p _ Hs Hm) as Hl. destruct (ref_release p (w_s w)) as [[] s|e s]; [apply Hl|done].
  - pose proof (ks_assign p p0 _ Hs Hm) as Hl. destruct (ref_assign p p0 (w_s w)) as [r s|e s]; [apply Hl|done].
  - unfold reference_count. kst.
  - done.
Qed.
Lemma reach_msl md w : reach md w -> msl (w_s w).
Proof.
  induction 1 as [|w o out w' HR IH Ha Hs].
  - exists 0. split_and!; [done|done|]. intros k m Hk Hr. cbn in Hk. destruct k as [|k]; [|done]. injection Hk as <-. done.
  - pose proof (reach_inv HE _ _ HR) as HW.
    assert (Hgc : forall fuel, o <> OGc fuel) by (intros fuel ->; exact Ha).
    pose proof (step_ksw o w Hgc (i_nc _ _ _ HW) IH) as Hk. by rewrite Hs in Hk.
Qed.
End slot.
