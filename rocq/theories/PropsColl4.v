(** * PropsColl4.v -- bdd_or_var and reduce (C50) *)
From Verif Require Export PropsColl3.
Open Scope N_scope.

Section or_var.
Context {E : Env} (HE : env_ok E).

(** ** C50 *)
Lemma or_clean_run c nr pos neg : built c -> csmall c -> nr < nr_bdds c -> or_clean c nr pos neg ->
  exists T a b eT l, cseg c nr a b /\ length l = N.to_nat (b - a) /\ (forall i, (i < N.to_nat (b - a))%nat -> l !! i = ix (c_ins c) (a + N.of_nat i)) /\
    b - 2 <= T < b /\ ix (c_ins c) T = Some eT /\ i_idx eT = ctop /\ (forall y, centry c nr y -> i_lo (redirected pos neg T y) <> i_hi (redirected pos neg T y)) /\
    let a' := N.of_nat (length (c_ins c)) in let L := copied c a pos neg (a' + (T - a)) l in
    let c' := Coll (c_ins c ++ L) (c_del c ++ [N.of_nat (length (c_ins c ++ L))]) in
    pseg (c_ins c ++ L) a' (a' + (b - a)) /\ bdd_or_var c nr pos neg = inr (nr_bdds c, c') /\ is_bdd c' (nr_bdds c) = inr true.
Proof.
  intros HB Hsm Hn (T&a&b&eT&Hs&HT&HeT&HTt&Hc1&Hc2). pose proof (built_CInv HE _ HB) as HI. pose proof (ci_seg _ HI _ _ _ Hs) as Hg.
  pose proof (sg_ab _ _ _ Hg) as Hab. pose proof (sg_len _ _ _ Hg) as Hlen. pose proof (nr_bdds_len _ HI) as Hdl. unfold csmall in Hsm.
  assert (HT2 : b - 2 <= T < b).
  { split; [|lia]. destruct (N.le_gt_cases (b - 2) T); [done|]. destruct (sg_node _ _ _ Hg T eT) as (_&Hv&_); [lia|done|]. rewrite HTt in Hv. done. }
  destruct (slice_eq c a b) as (l&Hl&Hll&Hlk); [lia..|].
  set (a' := N.of_nat (length (c_ins c))). set (ti := a' + (T - a)).
  set (L := copied c a pos neg ti l).
  assert (HLL : N.of_nat (length (c_ins c ++ L)) = a' + (b - a)) by (eapply copied_len; eauto).
  assert (Hps : pseg (c_ins c ++ L) a' (a' + (b - a))) by (eapply copied_pseg; eauto).
  set (c' := Coll (c_ins c ++ L) (c_del c ++ [N.of_nat (length (c_ins c ++ L))])).
  assert (Hlast : ix (c_del c) (nr_bdds c) = Some a').
  { pose proof (ci_last _ HI) as Hla. rewrite last_lookup in Hla. unfold a'. rewrite <- Hla. f_equal. lia. }
  assert (Hrun : bdd_or_var c nr pos neg = inr (nr_bdds c, c')).
  { unfold bdd_or_var. rewrite assertR_true by (by apply N.ltb_lt). cbn [bindR].
    rewrite (del_at_eq _ _ _ (proj1 Hs)). cbn [bindR]. rewrite (del_at_eq _ _ _ (proj2 Hs)). cbn [bindR]. rewrite Hl. cbn [bindR].
    fold (oshift (sub64 (back_del c) a)). rewrite map_length.
    replace (N.of_nat (length (c_ins c) + length l)) with (a' + (b - a)) by lia.
    assert (Hterm : forall i x, b - 2 <= i < b -> ix (c_ins c) i = Some x -> vecR (c_ins c ++ map (oshift (sub64 (back_del c) a)) l) (a' + (i - a)) = inr x).
    { intros i x Hi Hx. apply vecR_eq. rewrite lookup_app_r by lia. rewrite list_lookup_fmap, Hlk by lia.
      replace (a + N.of_nat (N.to_nat (a' + (i - a)) - length (c_ins c))) with i by lia. rewrite Hx. cbn [fmap option_fmap option_map]. f_equal.
      destruct (seg_last _ _ _ Hg i x Hi Hx) as [bx Tx]. destruct (cterm_instr _ _ Tx) as (H1&_&_). unfold oshift. by rewrite H1. }
    destruct (sg_term _ _ _ Hg) as (bt&x&y&Hx&Hy&Tx&Ty).
    replace (a' + (b - a) - 1) with (a' + (b - 1 - a)) by lia. rewrite (Hterm (b - 1) y ltac:(lia) Hy). cbn [bindR].
    replace (a' + (b - a) - 2) with (a' + (b - 2 - a)) by lia. rewrite (Hterm (b - 2) x ltac:(lia) Hx). cbn [bindR].
    destruct (cterm_instr _ _ Tx) as (X1&X2&X3). destruct (cterm_instr _ _ Ty) as (Y1&Y2&Y3).
    assert (Hne : ci_eqb y x = false).
    { apply not_true_iff_false. intros ->%ci_eqb_eq. rewrite X2 in Y2. by destruct bt. }
    rewrite X1, Y1, Hne. rewrite assertR_true by done. cbn [bindR].
    assert (HTT : T = (if bt then b - 2 else b - 1)).
    { destruct Tx as [_ Tx], Ty as [_ Ty]. assert (HTe : T = b - 2 \/ T = b - 1) by lia. destruct HTe as [HTe|HTe]; rewrite HTe in HeT |- *.
      - assert (eT = x) by congruence. subst eT. rewrite HTt in Tx. by destruct bt.
      - assert (eT = y) by congruence. subst eT. rewrite HTt in Ty. by destruct bt. }
    rewrite Y2, Y3. rewrite assertR_true.
    2:{ destruct bt; cbn [negb]; rewrite ?X2, ?X3, ?Y2, ?Y3; cbn [negb andb]; apply negb_true_iff, N.eqb_neq; lia. }
    cbn [bindR].
    assert (Hti : (if negb bt then a' + (b - 1 - a) else a' + (b - 2 - a)) = ti) by (unfold ti; rewrite HTT; destruct bt; done).
    rewrite Hti. fold (copied c a pos neg ti l). fold L. rewrite <- HLL. fold c'. unfold c'.
    assert (Hd1 : ix (c_del c ++ [N.of_nat (length (c_ins c ++ L))]) (nr_bdds c) = Some a') by (by apply lookup_app_l_Some).
    assert (Hd2 : ix (c_del c ++ [N.of_nat (length (c_ins c ++ L))]) (nr_bdds c + 1) = Some (a' + (b - a))).
    { rewrite lookup_app_r by lia. replace (N.to_nat (nr_bdds c + 1) - length (c_del c))%nat with 0%nat by lia. simpl. by rewrite HLL. }
    assert (Hdl' : N.of_nat (length (c_del c ++ [N.of_nat (length (c_ins c ++ L))])) = nr_bdds c + 2) by (rewrite app_length; simpl; lia).
    rewrite (reduce_id _ _ _ Hps).
    - cbn [bindR]. rewrite assertRR_true; [done|]. apply (is_bdd_ps _ _ _ Hps); [unfold two64; lia|lia|done|done].
    - unfold two64; lia.
    - rewrite Hdl'. by replace (nr_bdds c + 2 - 2) with (nr_bdds c) by lia.
    - rewrite Hdl'. by replace (nr_bdds c + 2 - 1) with (nr_bdds c + 1) by lia.
    - lia. }
  exists T, a, b, eT, l. split_and!; try done; try lia. cbn zeta. split; [exact Hps|]. split; [exact Hrun|].
  apply (is_bdd_ps _ _ _ Hps); [unfold two64; lia|rewrite app_length; simpl; lia|by apply lookup_app_l_Some|].
  rewrite lookup_app_r by lia. replace (N.to_nat (nr_bdds c + 1) - length (c_del c))%nat with 0%nat by lia. simpl. fold ti. fold L. by rewrite HLL.
Qed.
(** What bdd_or_var computes, whenever redirecting arcs leaves the BDD reduced: BDD [nr] or a
    literal on a variable that the evaluation of BDD [nr] looks at. *)
Theorem C50_or_var c nr pos neg : built c -> csmall c -> nr < nr_bdds c -> or_clean c nr pos neg ->
  exists c', bdd_or_var c nr pos neg = inr (nr_bdds c, c') /\ built c' /\ cappends c c' (nr_bdds c) /\ ckeeps c c' /\
    forall x, ccovers c nr x -> exists r, cval c' (nr_bdds c) x = Some r /\
      (r = true <-> cval c nr x = Some true \/ exists v, cvisits c nr x v /\ lit_true pos neg x v).
Proof.
  intros HB Hsm Hn Hcl. destruct (or_clean_run c nr pos neg HB Hsm Hn Hcl) as (T&a&b&eT&l&Hs&Hll&Hlk&HT2&HeT&HTt&Hc1&Hps&Hrun&Hbdd).
  pose proof (built_CInv HE _ HB) as HI. pose proof (ci_seg _ HI _ _ _ Hs) as Hg.
  pose proof (sg_ab _ _ _ Hg) as Hab. pose proof (sg_len _ _ _ Hg) as Hlen. pose proof (nr_bdds_len _ HI) as Hdl. pose proof Hsm as Hsm'. unfold csmall in Hsm'.
  set (a' := N.of_nat (length (c_ins c))) in *. set (ti := a' + (T - a)) in *. set (L := copied c a pos neg ti l) in *.
  assert (HLL : N.of_nat (length (c_ins c ++ L)) = a' + (b - a)) by (eapply copied_len; eauto).
  set (c' := Coll (c_ins c ++ L) (c_del c ++ [N.of_nat (length (c_ins c ++ L))])) in *.
  assert (Hlast : ix (c_del c) (nr_bdds c) = Some a').
  { pose proof (ci_last _ HI) as Hla. rewrite last_lookup in Hla. unfold a'. rewrite <- Hla. f_equal. lia. }
  exists c'. split; [exact Hrun|]. pose proof (cappends_intro c L HI) as Happ. fold c' in Happ.
  split. { eapply built_or; [done|exact HB|exact Hsm|exact Hn|exact Hrun|exact Hbdd|]. destruct (lookup_lt_is_Some_2 (c_ins c') (N.to_nat a')) as [y Hy]; [unfold c'; cbn [c_ins]; lia|].
    exists y, a', (a' + (b - a)), a'. split; [|split; [lia|done]]. split; unfold c'; cbn [c_del]; [by apply lookup_app_l_Some|].
    rewrite lookup_app_r by lia. replace (N.to_nat (nr_bdds c + 1) - length (c_del c))%nat with 0%nat by lia. simpl. by rewrite HLL. }
  split; [exact Happ|].
  assert (Hnb : nr_bdds c' = nr_bdds c + 1) by apply Happ. split.
  - intros k x Hk. destruct (croot_ex _ _ HI Hk) as [t Ht]. rewrite (cval_croot _ _ _ _ HI Ht).
    destruct (cappends_croot _ _ _ _ _ HI Happ Ht) as (q&Hq&Hq'). eapply cval_crep; [lia|exact Hq|exact Hq'].
  - intros x Hx. destruct (croot_ex _ _ HI Hn) as [t Ht]. pose proof (cval_covers _ _ _ _ HI Ht Hx) as Hv.
    destruct Ht as (a0&Ha0&Ht). assert (a0 = a) as -> by (destruct Hs; congruence).
    assert (Hocc : forall v, occurs v t -> v < N.of_nat (length x)). { intros v Ho. apply Hx. eapply croot_occurs; [exact HI|by exists a|exact Ho]. }
    exists (evalt (orlit pos neg t) (asg x)). split.
    + rewrite (cval_crep c' (nr_bdds c) a' (orlit pos neg t)); [|lia|by apply lookup_app_l_Some|].
      * apply evp_covers. intros v Ho. apply Hocc. clear -Ho. induction t as [z|u tl IHl th IHh]; simpl in *; [done|].
        destruct Ho as [->|[Ho|Ho]]; [by left|destruct (neg u); [done|auto]|destruct (pos u); [done|auto]].
      * unfold c'. cbn [c_ins]. replace a' with (a' + (a - a)) by lia. eapply copied_crep; eauto. lia.
    + rewrite (orlit_true _ _ c x a t Ht Hocc), Hv. split.
      * intros [He|(v&j&e&Hw&He&Hlh&<-&Hlit)]; [left; congruence|]. right. exists (i_idx e). split; [|done]. exists a, j, e. pose proof (proj1 Hs). done.
      * intros [He|(v&(a1&j&e&Ha1&Hw&He&Hlh&<-)&Hlit)]; [left; congruence|]. right. assert (a1 = a) as -> by congruence. exists (i_idx e), j, e. done.
Qed.
(** so it is the disjunction when every evaluation of BDD [nr] looks at every listed variable *)
Theorem C50_or_var_disjunction c nr pos neg : built c -> csmall c -> nr < nr_bdds c -> or_clean c nr pos neg ->
  (forall x v, ccovers c nr x -> lit_true pos neg x v -> cvisits c nr x v) ->
  exists c', bdd_or_var c nr pos neg = inr (nr_bdds c, c') /\
    forall x, ccovers c nr x -> exists r, cval c' (nr_bdds c) x = Some r /\ (r = true <-> cval c nr x = Some true \/ exists v, lit_true pos neg x v).
Proof.
  intros HB Hsm Hn Hc Hv. destruct (C50_or_var c nr pos neg HB Hsm Hn Hc) as (c'&Hr&_&_&_&Hx). exists c'. split; [done|].
  intros x Hcx. destruct (Hx x Hcx) as (r&Hr'&Hiff). exists r. split; [done|]. rewrite Hiff. split; (intros [?|[v ?]]; [by left|right; exists v]); [tauto|]. split; [by apply Hv|done].
Qed.
(** but a literal on a variable that does not occur in BDD [nr] is ignored: with any falsifiable BDD
    the result is not the disjunction *)
Theorem C50_or_var_refuted c nr u x : built c -> csmall c -> nr < nr_bdds c -> ~ cvar c nr u -> ccovers c nr x ->
  x !! N.to_nat u = Some true -> cval c nr x = Some false ->
  exists c', bdd_or_var c nr (fun v => v =? u) (fun _ => false) = inr (nr_bdds c, c') /\ cval c' (nr_bdds c) x = Some false.
Proof.
  intros HB Hsm Hn Hu Hx Hxu Hf. pose proof (built_CInv HE _ HB) as HI. destruct (cseg_ex _ _ HI Hn) as (a&b&Hs). pose proof (ci_seg _ HI _ _ _ Hs) as Hg.
  assert (Hid : forall T y, centry c nr y -> redirected (fun v => v =? u) (fun _ => false) T y = y).
  { intros T y Hy. unfold redirected. assert (i_idx y =? u = false) as ->; [|by destruct y]. apply N.eqb_neq. intros <-. apply Hu. by apply centry_cvar. }
  assert (Hcl : or_clean c nr (fun v => v =? u) (fun _ => false)).
  { destruct (sg_term _ _ _ Hg) as (bt&e1&e2&H1&H2&T1&T2). pose proof (sg_ab _ _ _ Hg).
    exists (if bt then b - 2 else b - 1), a, b, (if bt then e1 else e2). split_and!; [done|destruct bt; lia|destruct bt; lia|by destruct bt|destruct bt; [apply T1|apply T2]| |].
    - intros y Hy. rewrite Hid by done. destruct Hy as (a1&b1&i&Hs1&Hi&Hy). by destruct (sg_node _ _ _ (ci_seg _ HI _ _ _ Hs1) i y Hi Hy).
    - intros y z Hy Hz. by rewrite !Hid. }
  destruct (C50_or_var c nr _ _ HB Hsm Hn Hcl) as (c'&Hr&_&_&_&Hv). exists c'. split; [done|]. destruct (Hv x Hx) as (r&Hr'&Hiff). rewrite Hr'. f_equal.
  destruct r; [|done]. exfalso. destruct (proj1 Hiff eq_refl) as [?|(v&(a1&j&e&Ha1&Hw&He&Hlh&<-)&Hlit)]; [congruence|].
  assert (Hvu : i_idx e = u). { destruct Hlit as [[Hlit _]|[? _]]; [by apply N.eqb_eq|done]. }
  assert (a1 = a) as -> by (destruct Hs; congruence). pose proof (sg_ab _ _ _ Hg). apply Hu.
  assert (Hin : forall i j, cwalk c x i j -> a <= i < b -> a <= j < b).
  { clear -HI Hs Hg. induction 1 as [i|i j e b0 He Hlh Hb _ IH]; [done|]. intros Hi. apply IH.
    assert (Hi' : a <= i < b - 2). { destruct (decide (i < b - 2)); [lia|]. destruct (seg_last _ _ _ Hg i e) as [z [? _]]; [lia|done|done]. }
    destruct (sg_node _ _ _ Hg i e Hi' He) as (_&_&?&?). destruct b0; lia. }
  pose proof (Hin _ _ Hw ltac:(lia)) as Hj. exists e. split; [|done]. exists a, b, j. split_and!; auto; [lia|].
  destruct (decide (j < b - 2)); [lia|]. destruct (seg_last _ _ _ Hg j e) as [z [? _]]; [lia|done|done].
Qed.
End or_var.
