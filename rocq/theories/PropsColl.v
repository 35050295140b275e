(** * PropsColl.v -- theorems about bdd_collection (C40-C49, C52-C55) *)
From Verif Require Export OrVar.
Open Scope N_scope.

Section props_coll.
Context {E : Env} (HE : env_ok E).

Theorem by_CInv ed c : built_by ed c -> CInv c.
Proof.
  induction 1 as [|md w c i k c' w' _ HI HR Hl Hc Hsz Hst|c bs L k c' _ HI HF HL Hsat Heq Hsm|c nr vm c' _ HI Hn Hv Hinj Heq|c rs c' _ HI Hsm Hs HF Heq|c nr pos neg k c' _ _ HI Hsm Hn Heq Hb Hex|c nr k k' m n z c' _ _ HI Hsm Hn Hm Hmt Hn' Heq Hb].
  - apply CInv_init.
  - pose proof (reach_inv HE _ _ HR) as HW. destruct (live_hrep _ _ _ HW Hl) as (p&t&Hr).
    destruct (add_facts _ _ _ _ _ _ HW HI Hr Hc Hsz) as (po&l&_&H1&H2&_). rewrite Hst in H1. by injection H1 as -> -> ->.
  - destruct (roots_ex _ _ HI HF) as [ts Hr]. destruct (decide (length bs = 1%nat)) as [H1|H1].
    { destruct bs as [|b [|]]; [done| |done]. simpl in Heq. by injection Heq as <- <-. }
    assert (Hlen : (2 <= length bs <= 49)%nat).
    { destruct bs as [|b1 [|b2 [|b3 bs]]]; [done|done|simpl; lia|]. simpl in Heq.
      destruct (length bs <=? 46)%nat eqn:Hle; [|done]. apply Nat.leb_le in Hle. simpl. lia. }
    destruct (and_range_any c bs ts L k c' HI Hsm HF Hlen Hr HL (sat_conjf _ _ _ HI Hr Hsat) Heq) as [[_ ->]|(l&_&->&[Ho _]&_)]; done.
  - destruct (rebase_facts c nr vm HI Hn Hv) as (a&b&ins'&Hs&He&Hl&Ho&Hi). rewrite He in Heq. injection Heq as <-.
    eapply rebase_CInv; eauto.
    + intros x Hx. apply Hv. by exists x.
    + intros x y Hx Hy. apply Hinj; [by exists x|by exists y].
  - destruct (remove_facts c rs HI Hsm Hs HF) as [[_ He]|[(_&_&c2&He&HR)|(_&_&He)]]; rewrite He in Heq; [by injection Heq as <-| |done].
    injection Heq as <-. apply HR.
  - eapply or_var_CInv; eauto.
  - exact (set_arc_CInv c nr k k' m n z c' HI Hsm Hn Hm Hmt Hn' Heq Hb).
Qed.
Theorem built_CInv c : built c -> CInv c.
Proof. apply by_CInv. Qed.
(** every entry has a parent *)
Lemma by_cfull c : fbuilt c -> cfull c.
Proof.
  unfold fbuilt. induction 1 as [|md w c i k c' w' HB HF HR Hl Hc Hsz Hst|c bs L k c' HB HF HFa HL Hsat Heq Hsm|c nr vm c' HB HF Hn Hv Hinj Heq|c rs c' HB HF Hsm Hs HFa Heq| |]; try done; try pose proof (by_CInv _ _ HB) as HI.
  - intros nr a b [Ha Hb]. simpl in Hb. apply lookup_lt_Some in Hb. simpl in Hb. lia.
  - pose proof (reach_inv HE _ _ HR) as HW. destruct (live_hrep _ _ _ HW Hl) as (p&t&Hr).
    destruct (add_facts _ _ _ _ _ _ HW HI Hr Hc Hsz) as (po&l&_&H1&H2&_&_&_&_&_&Hs). cbv zeta in *. rewrite Hst in H1. injection H1 as -> -> ->.
    apply cfull_app; auto. apply Hs. by apply new_cseg.
  - destruct (roots_ex _ _ HI HFa) as [ts Hr]. destruct (decide (length bs = 1%nat)) as [H1|H1].
    { destruct bs as [|b [|]]; [done| |done]. simpl in Heq. by injection Heq as <- <-. }
    assert (Hlen : (2 <= length bs <= 49)%nat).
    { destruct bs as [|b1 [|b2 [|b3 bs]]]; [done|done|simpl; lia|]. simpl in Heq.
      destruct (length bs <=? 46)%nat eqn:Hle; [|done]. apply Nat.leb_le in Hle. simpl. lia. }
    destruct (and_range_any c bs ts L k c' HI Hsm HFa Hlen Hr HL (sat_conjf _ _ _ HI Hr Hsat) Heq) as [[_ ->]|(l&_&->&[Ho (t&_&_&_&_&_&_&_&_&_&_&Hsup)]&_)]; [done|].
    by apply cfull_app.
  - destruct (rebase_facts c nr vm HI Hn Hv) as (a&b&ins'&Hs&He&Hl&Ho&Hi). rewrite He in Heq. injection Heq as <-.
    intros nr' a' b' Hs'. change (cseg c nr' a' b') in Hs'. cbn [c_ins]. intros i Hii. destruct (HF _ _ _ Hs' i Hii) as (j&y&Hj&Hy&Harc).
    destruct (decide (a <= j < b)) as [Hjab|Hjab].
    + exists j, (reb vm y). rewrite (Hi j y Hjab Hy). unfold reb. destruct (ci_is_term y); done.
    + exists j, y. by rewrite Ho.
  - destruct (remove_facts c rs HI Hsm Hs HFa) as [[_ He]|[(_&_&c2&He&HR)|(_&_&He)]]; rewrite He in Heq; [by injection Heq as <-| |done].
    injection Heq as <-. by apply HR.
Qed.

(** ** C40: add_bdd *)
Theorem C40_add_bdd md w c i : reach md w -> built c -> live w i -> ~ isconst w i -> mgr_nr_nodes (w_s w) < 2 ^ 62 ->
  exists c' n, step (QCollAdd c i) w = WOk (OutC (nr_bdds c) c') w /\ built c' /\ cappends c c' (nr_bdds c) /\ ckeeps c c' /\
    (forall x, cval c' (nr_bdds c) x = val w i x) /\
    step (QNrNodes i) w = WOk (OutN n) w /\ nr_bdd_nodes c' (nr_bdds c) = inr (n + 2).
Proof.
  intros HR HB Hl Hc Hsz. pose proof (reach_inv HE _ _ HR) as HW. pose proof (built_CInv _ HB) as HI. destruct (live_hrep _ _ _ HW Hl) as (p&t&Hr).
  destruct (add_facts _ _ _ _ _ _ HW HI Hr Hc Hsz) as (po&l&Hpo&H1&H2&H3&H4&H5&_). cbv zeta in *.
  eexists _, (N.of_nat (length po)). split; [exact H1|]. split_and!.
  - by eapply built_add.
  - done.
  - by eapply cappends_keeps.
  - intros x. by rewrite (cval_croot _ _ _ _ H2 H4), (val_hrep _ _ _ _ _ _ HW Hr).
  - destruct (step_nr_nodes _ _ _ _ _ HW Hr) as (po'&He&Hpo'); [done|]. rewrite He. by rewrite (lists_reach_len _ _ _ _ Hpo Hpo').
  - destruct H4 as (a&Ha&_).
    assert (Hn : nr_bdds c < nr_bdds (Coll (c_ins c ++ l) (c_del c ++ [N.of_nat (length (c_ins c ++ l))]))) by (destruct H3 as (_&->&_); lia).
    destruct (cseg_ex _ _ H2 Hn) as (a'&b&Hs).
    assert (a' = N.of_nat (length (c_ins c)) /\ b = N.of_nat (length (c_ins c) + length l)) as [-> ->].
    { destruct Hs as [Hs1 Hs2]. simpl in *. pose proof (nr_bdds_len _ HI). pose proof (ci_last _ HI) as Hlst. rewrite last_lookup in Hlst. split.
      - rewrite lookup_app_l in Hs1 by lia. replace (pred (length (c_del c))) with (N.to_nat (nr_bdds c)) in Hlst by lia. congruence.
      - rewrite lookup_app_r in Hs2 by lia. replace (N.to_nat (nr_bdds c + 1) - length (c_del c))%nat with 0%nat in Hs2 by lia. simpl in Hs2. rewrite app_length in Hs2. congruence. }
    assert (Hle : N.of_nat (length po) < 2 ^ 62).
    { eapply N.le_lt_trans; [|exact Hsz]. eapply lists_reach_bound; [exact HW|exact Hpo]. }
    rewrite (nr_bdd_nodes_eq _ _ _ _ H2 Hs); [f_equal; lia|]. assert (two64 = 2 ^ 62 * 4) by done. lia.
Qed.

(** ** C41-C43: bdd_and *)
Theorem C42_and_range c bs L : built c -> csmall c -> Forall (fun b => b < nr_bdds c) bs -> (2 <= length bs <= 49)%nat -> 2 < L -> csatisfiable c bs ->
  bdd_and_range c bs L = inr (size_max, c) \/
  (exists c', bdd_and_range c bs L = inr (nr_bdds c, c') /\ cand_done c bs c' /\ CInv c' /\ (csmall c' -> built c')) \/
  (2 ^ 62 <= L /\ forall L', 2 < L' < 2 ^ 62 -> bdd_and_range c bs L' = inr (size_max, c)).
Proof.
  intros HB Hsm HF Hlen HL Hsat. pose proof (built_CInv _ HB) as HI. destruct (roots_ex _ _ HI HF) as [ts Hr].
  pose proof (sat_conjf _ _ _ HI Hr Hsat) as Hst.
  assert (Hok : forall L0 l, 2 < L0 -> bdd_and_range c bs L0 = inr (nr_bdds c, Coll (c_ins c ++ l) (c_del c ++ [N.of_nat (length (c_ins c ++ l))])) -> AndOut c ts l ->
    exists c', bdd_and_range c bs L0 = inr (nr_bdds c, c') /\ cand_done c bs c' /\ CInv c' /\ (csmall c' -> built c')).
  { intros L0 l HL0 He Ho. eexists. split; [exact He|]. destruct (AndOut_done _ _ _ _ HI Hr Ho) as [HI' Hd]. split_and!; [exact Hd|exact HI'|].
    intros Hsm'. eapply built_and; [exact HB|exact HF|exact HL0|done|exact He|done]. }
  destruct (decide (L < 2 ^ 62)) as [HL2|HL2].
  - destruct (cand_range_spec c bs ts L HI Hsm HF Hlen Hr ltac:(done) Hst) as [?|(l&He&Ho&_)]; [by left|right; left; eauto].
  - destruct (cand_range_spec c bs ts (2 ^ 62 - 1) HI Hsm HF Hlen Hr ltac:(lia) Hst) as [Hm|(l&He&Ho&Hll&Hst')].
    + right; right. split; [lia|]. intros L' HL'.
      destruct (cand_range_spec c bs ts L' HI Hsm HF Hlen Hr ltac:(lia) Hst) as [?|(l&He&Ho&Hll&Hst')]; [done|].
      rewrite <- (Hst' (2 ^ 62 - 1) ltac:(lia) ltac:(lia)), Hm in He. injection He as He _. exfalso.
      pose proof (nr_bdds_len _ HI). pose proof (del_len _ HI). unfold size_max in He. unfold csmall in Hsm. lia.
    + right; left. rewrite <- (Hst' L ltac:(lia) ltac:(lia)) in He. eauto.
Qed.
Theorem C42_one_operand c b L : bdd_and_range c [b] L = inr (b, c).
Proof. done. Qed.
Theorem C42_other_sizes c bs L : length bs = 0%nat \/ (49 < length bs)%nat -> bdd_and_range c bs L = inl EThrow.
Proof.
  destruct bs as [|b1 [|b2 [|b3 bs]]]; simpl; [done|lia|lia|]. intros [?|?]; [lia|]. by rewrite (proj2 (Nat.leb_gt _ _)) by lia.
Qed.
Theorem C41_and2 c i j L : built c -> csmall c -> i < nr_bdds c -> j < nr_bdds c -> 2 < L -> csatisfiable c [i; j] ->
  bdd_and2 c i j L = inr (size_max, c) \/
  (exists c', bdd_and2 c i j L = inr (nr_bdds c, c') /\ cand_done c [i; j] c' /\ CInv c' /\ (csmall c' -> built c')) \/
  (2 ^ 62 <= L /\ forall L', 2 < L' < 2 ^ 62 -> bdd_and2 c i j L' = inr (size_max, c)).
Proof. intros HB Hsm Hi Hj HL Hsat. apply (C42_and_range c [i; j] L); auto; simpl; lia. Qed.

(** the limit is exact: the number of entries of the conjunction, terminals included *)
Theorem C43_limit c bs L0 k c' n : built c -> csmall c' -> Forall (fun b => b < nr_bdds c) bs -> (2 <= length bs <= 49)%nat -> 2 < L0 -> csatisfiable c bs ->
  bdd_and_range c bs L0 = inr (k, c') -> k <> size_max -> nr_bdd_nodes c' k = inr n ->
  n <= L0 /\ forall L, 2 < L -> bdd_and_range c bs L = if n <=? L then inr (k, c') else inr (size_max, c).
Proof.
  intros HB Hsm HF Hlen HL0 Hsat He Hk Hn. pose proof (built_CInv _ HB) as HI. destruct (roots_ex _ _ HI HF) as [ts Hr].
  destruct (and_range_any c bs ts L0 k c' HI Hsm HF Hlen Hr HL0 (sat_conjf _ _ _ HI Hr Hsat) He) as [[? _]|(l&Hke&Hce&[HI' Ho]&H1&H2&H3)]; [done|].
  subst k. rewrite <- Hce in HI'.
  assert (Hs : cseg c' (nr_bdds c) (N.of_nat (length (c_ins c))) (N.of_nat (length (c_ins c) + length l))).
  { pose proof (nr_bdds_len _ HI). pose proof (ci_last _ HI) as Hl. rewrite last_lookup in Hl. rewrite Hce. split; simpl.
    - apply lookup_app_l_Some. rewrite <- Hl. f_equal. lia.
    - rewrite lookup_app_r by lia. replace (N.to_nat (nr_bdds c + 1) - length (c_del c))%nat with 0%nat by lia. simpl. by rewrite app_length. }
  assert (n = N.of_nat (length l)) as ->.
  { unfold csmall in Hsm. rewrite Hce in Hsm. simpl in Hsm. rewrite app_length in Hsm. assert (two64 = 2 ^ 62 * 4) by done.
    rewrite (nr_bdd_nodes_eq _ _ _ _ HI' Hs) in Hn by lia. injection Hn as <-. lia. }
  split; [done|]. intros L HL. destruct (N.leb_spec (N.of_nat (length l)) L); auto.
Qed.
End props_coll.
