(** * PropsColl9.v -- C50 and C65, continued: what becomes of edited BDDs *)
From Verif Require Export PropsColl8.
Open Scope N_scope.

Section edited.
Context {E : Env} (HE : env_ok E).

(** ** C50: the new BDD can be used like any other *)
(** In debug builds, whenever bdd_or_var returns a BDD that has an inner entry, the collection is one that all other
    theorems about collections apply to. *)
Theorem C50_or_var_usable c nr pos neg k c' n : e_ndebug = false -> built c -> csmall c -> nr < nr_bdds c -> bdd_or_var c nr pos neg = inr (k, c') ->
  nr_bdd_nodes c' k = inr n -> 2 < n -> built c'.
Proof.
  intros Hdb HB Hsm Hn Hrun Hnn Hn2. pose proof (built_CInv HE _ HB) as HI.
  pose proof (or_var_result c nr pos neg k c' HI Hsm Hn Hrun) as (a&b&T&eT&l&ins&rem&m&r&x&y&Hs&Hl&Hll&Hlk&HT&HeT&HTt&HI2&Hx&Hy&Htk&Hr3&Hlr&->&Hc').
  pose proof (ci_seg _ HI _ _ _ Hs) as Hg. pose proof (sg_ab _ _ _ Hg) as Hab. pose proof (sg_len _ _ _ Hg) as Hlen. pose proof (nr_bdds_len _ HI) as Hdl.
  unfold csmall in Hsm. eapply built_or; [done|exact HB|exact Hsm|exact Hn|exact Hrun| |].
  - assert (HT2 : b - 2 <= T < b) by lia. rewrite (or_var_run c HI nr a b Hs Hsm Hn pos neg l Hl Hll Hlk T HT2 eT HeT HTt) in Hrun.
    destruct (reduce _) as [?|c2]; [done|]. cbn [bindR] in Hrun. unfold assertRR in Hrun. rewrite Hdb in Hrun.
    destruct (is_bdd c2 (nr_bdds c)) as [?|[]] eqn:Hb; [done| |]; unfold assertR in Hrun; rewrite ?Hdb in Hrun; cbn [bindR orb] in Hrun; [|done]. injection Hrun as <-. exact Hb.
  - assert (Ha1 : ix (c_del c') (nr_bdds c) = Some (N.of_nat (length (c_ins c)))).
    { rewrite Hc'. cbn [c_del]. apply lookup_app_l_Some. pose proof (ci_last _ HI) as Hla. rewrite last_lookup in Hla. rewrite <- Hla. f_equal. lia. }
    assert (Hb1 : ix (c_del c') (nr_bdds c + 1) = Some (N.of_nat (length (c_ins c')))).
    { rewrite Hc'. cbn [c_del c_ins]. rewrite lookup_app_r by lia. by replace (N.to_nat (nr_bdds c + 1) - length (c_del c))%nat with 0%nat by lia. }
    assert (Hnb : nr_bdds c' = nr_bdds c + 1). { rewrite Hc'. unfold nr_bdds. cbn [c_del]. rewrite app_length. cbn [length]. lia. }
    assert (Hlen' : length (c_ins c') = (length (c_ins c) + (length r + 2))%nat) by (rewrite Hc'; cbn [c_ins]; by rewrite !app_length).
    unfold nr_bdd_nodes in Hnn. rewrite assertR_true in Hnn by (apply N.ltb_lt; lia). cbn [bindR] in Hnn. rewrite (del_at_eq _ _ _ Ha1) in Hnn. cbn [bindR] in Hnn. rewrite (del_at_eq _ _ _ Hb1) in Hnn. cbn [bindR] in Hnn.
    rewrite Hlen', sub64_small in Hnn by (unfold two64; lia). injection Hnn as <-.
    destruct (lookup_lt_is_Some_2 (c_ins c') (length (c_ins c))) as [u Hu]; [lia|].
    exists u, (N.of_nat (length (c_ins c))), (N.of_nat (length (c_ins c'))), (N.of_nat (length (c_ins c))). split; [done|]. split; [lia|]. by rewrite Nat2N.id.
Qed.

(** But entries are no longer all reachable: an entry all of whose incoming arcs are redirected is copied all the same. *)
Theorem C50_unreachable_refuted c nr pos neg a b j : built c -> csmall c -> nr < nr_bdds c -> or_clean c nr pos neg -> cseg c nr a b -> a < j < b - 2 ->
  (forall y, centry c nr y -> i_lo y = j -> neg (i_idx y) = true) -> (forall y, centry c nr y -> i_hi y = j -> pos (i_idx y) = true) ->
  exists c' a' b', bdd_or_var c nr pos neg = inr (nr_bdds c, c') /\ cseg c' (nr_bdds c) a' b' /\ b' - a' = b - a /\ ~ rtc (carc c') a' (a' + (j - a)).
Proof.
  intros HB Hsm Hn Hcl Hs0 Hj Hlo Hhi. destruct (or_clean_run HE c nr pos neg HB Hsm Hn Hcl) as (T&a1&b1&eT&l&Hs&Hll&Hlk&HT2&HeT&HTt&Hc1&Hps&Hrun&Hbdd).
  assert (a1 = a /\ b1 = b) as [-> ->]. { destruct Hs, Hs0. split; congruence. } clear Hs0.
  pose proof (built_CInv HE _ HB) as HI. pose proof (ci_seg _ HI _ _ _ Hs) as Hg.
  pose proof (sg_ab _ _ _ Hg) as Hab. pose proof (sg_len _ _ _ Hg) as Hlen. pose proof (nr_bdds_len _ HI) as Hdl. pose proof Hsm as Hsm'. unfold csmall in Hsm'.
  set (a' := N.of_nat (length (c_ins c))) in *. set (ti := a' + (T - a)) in *. set (L := copied c a pos neg ti l) in *.
  assert (HLL : N.of_nat (length (c_ins c ++ L)) = a' + (b - a)) by (eapply copied_len; eauto).
  set (c' := Coll (c_ins c ++ L) (c_del c ++ [N.of_nat (length (c_ins c ++ L))])) in *.
  assert (Hlast : ix (c_del c) (nr_bdds c) = Some a').
  { pose proof (ci_last _ HI) as Hla. rewrite last_lookup in Hla. unfold a'. rewrite <- Hla. f_equal. lia. }
  exists c', a', (a' + (b - a)). split; [exact Hrun|]. split; [|split; [lia|]].
  { split; unfold c'; cbn [c_del]; [by apply lookup_app_l_Some|]. rewrite lookup_app_r by lia. replace (N.to_nat (nr_bdds c + 1) - length (c_del c))%nat with 0%nat by lia. simpl. by rewrite HLL. }
  intros Hr. apply rtc_inv_r in Hr as [?|(i&Hi&x&Hx&Hne&Harc)]; [lia|].
  assert (Hstep : forall u v, carc c' u v -> a' <= u < a' + (b - a) -> a' <= u < a' + (b - a) - 2 /\ a' <= v < a' + (b - a)).
  { clear -Hps HLL. intros u v (x&Hx&Hne&Harc) Hu. destruct (decide (u < a' + (b - a) - 2)) as [Hlt|Hge].
    - destruct (ps_node _ _ _ Hps u x ltac:(lia) Hx) as (_&_&?&?). split; [lia|destruct Harc; lia].
    - exfalso. destruct (ps_term _ _ _ Hps) as (bt&e1&e2&H1&H2&[T1 _]&[T2 _]). assert (u = a' + (b - a) - 2 \/ u = a' + (b - a) - 1) as [->| ->] by lia.
      + assert (x = e1) as -> by (unfold c' in Hx; cbn [c_ins] in Hx; congruence). done.
      + assert (x = e2) as -> by (unfold c' in Hx; cbn [c_ins] in Hx; congruence). done. }
  assert (Hin : forall u v, rtc (carc c') u v -> a' <= u < a' + (b - a) -> a' <= v < a' + (b - a)).
  { clear -Hstep. induction 1 as [|u v w Huv _ IH]; [done|]. intros Hu. apply IH. by destruct (Hstep u v Huv Hu). }
  destruct (Hstep i _ (ex_intro _ x (conj Hx (conj Hne Harc))) (Hin a' i Hi ltac:(lia))) as [Hi2 _].
  destruct (copied_in c HI nr a b Hs Hsm Hn pos neg l Hll Hlk T HT2 eT HTt i x Hi2 Hx) as (y&Hi3&Hy&->).
  destruct (sg_node _ _ _ Hg _ y Hi3 Hy) as (_&_&?&?). assert (Hcy : centry c nr y) by (by exists a, b, (i - N.of_nat (length (c_ins c)) + a)).
  cbn [i_lo i_hi] in Harc. destruct Harc as [Harc|Harc].
  - pose proof (Hlo y Hcy). destruct (neg (i_idx y)); [lia|]. assert (false = true); [|done]. apply H1. lia.
  - pose proof (Hhi y Hcy). destruct (pos (i_idx y)); [lia|]. assert (false = true); [|done]. apply H1. lia.
Qed.

(** If redirecting makes every entry redundant, the disjunction is true everywhere, but all entries are dropped and what is left, accepted as a BDD,
    is evaluated by looking at the first of the two terminals -- which is the false one in every BDD stored by add_bdd (C54). *)
Theorem C50_all_dropped_refuted c nr pos neg T a b : built c -> csmall c -> nr < nr_bdds c -> ctop_at c nr T -> cseg c nr a b ->
  (forall y, centry c nr y -> made_redundant pos neg T y) ->
  (forall x, ccovers c nr x -> cval c nr x = Some true \/ exists v, lit_true pos neg x v) /\
  exists c', bdd_or_var c nr pos neg = inr (nr_bdds c, c') /\ nr_bdd_nodes c' (nr_bdds c) = inr 2 /\ ckeeps c c' /\ forall x, cval c' (nr_bdds c) x = Some (T =? b - 2).
Proof.
  intros HB Hsm Hn (a1&b1&eT&Hs1&HT1&HeT&HTt) Hs Hall. pose proof (built_CInv HE _ HB) as HI. pose proof (ci_seg _ HI _ _ _ Hs) as Hg.
  assert (a1 = a /\ b1 = b) as [-> ->]. { destruct Hs, Hs1. split; congruence. } clear Hs1.
  pose proof (sg_ab _ _ _ Hg) as Hab. pose proof (sg_len _ _ _ Hg) as Hlen. pose proof (nr_bdds_len _ HI) as Hdl.
  assert (HT : b - 2 <= T < b).
  { split; [|lia]. destruct (N.le_gt_cases (b - 2) T); [done|]. destruct (sg_node _ _ _ Hg T eT) as (_&Hv&_); [lia|done|]. rewrite HTt in Hv. done. }
  split.
  - intros x Hx. destruct (cev_ex c nr a b x a HI Hs Hx ltac:(lia)) as [d Hd]. destruct (seg_ix _ _ _ Hg a) as [e He]; [lia|].
    assert (Hce : centry c nr e) by (exists a, b, a; split; [done|]; split; [lia|done]). pose proof (Hall e Hce) as Hr. unfold made_redundant, redirected in Hr. cbn [i_lo i_hi] in Hr.
    destruct (sg_node _ _ _ Hg a e ltac:(lia) He) as (Hlh&Hv&Hlo&Hhi).
    assert (HTe : forall w, cev (c_ins c) x T w -> w = true). { intros w Hw. inversion Hw as [? e0 ? He0 Hd0|? e0 ? ? He0 Hlt]; subst; assert (e0 = eT) as -> by congruence; rewrite HTt in *; [by destruct w|done]. }
    inversion Hd as [? e0 ? He0 Hd0|? e0 u ? He0 Hlt Hu Hw]; subst; assert (e0 = e) as -> by congruence.
    { rewrite Hd0 in Hv. destruct d; unfold ctop, cbot in Hv; lia. }
    destruct u.
    + destruct (pos (i_idx e)) eqn:Hp; [right; exists (i_idx e); left; done|]. left. apply (cval_cev _ _ _ _ _ _ HI Hs).
      destruct (neg (i_idx e)); [|done]. rewrite <- Hr in Hw. rewrite (HTe _ Hw) in Hd. exact Hd.
    + destruct (neg (i_idx e)) eqn:Hp; [right; exists (i_idx e); right; done|]. left. apply (cval_cev _ _ _ _ _ _ HI Hs).
      destruct (pos (i_idx e)); [|done]. rewrite Hr in Hw. rewrite (HTe _ Hw) in Hd. exact Hd.
  - destruct (slice_eq c a b) as (l&Hl&Hll&Hlk); [lia..|].
    pose proof (or_var_run c HI nr a b Hs Hsm Hn pos neg l Hl Hll Hlk T HT eT HeT HTt) as Hrun.
    pose proof (copied_gseg c HI nr a b Hs Hsm Hn pos neg l Hll Hlk T HT eT HTt) as HG.
    pose proof (copied_len c a b pos neg l Hll T HT eT HTt) as HLL.
    pose proof (copied_inner c HI nr a b Hs Hsm pos neg l Hll Hlk T HT eT HTt) as Hcy.
    pose proof (copied_term c HI nr a b Hs pos neg l Hll Hlk T HT eT HTt) as Hct.
    assert (Hlast : ix (c_del c) (nr_bdds c) = Some (N.of_nat (length (c_ins c)))).
    { pose proof (ci_last _ HI) as Hla. rewrite last_lookup in Hla. rewrite <- Hla. f_equal. lia. }
    pose proof Hsm as Hsm'. unfold csmall in Hsm'.
    set (a' := N.of_nat (length (c_ins c))) in *. set (L := copied c a pos neg (a' + (T - a)) l) in *. set (b' := a' + (b - a)) in *. set (G := c_ins c ++ L) in *.
    assert (Hb2 : b' < two64) by (unfold two64; lia).
    destruct (sg_term _ _ _ Hg) as (bt&x&y&Hx&Hy&Tx&Ty).
    pose proof (Hct (b - 2) x ltac:(lia) Hx) as HGx. pose proof (Hct (b - 1) y ltac:(lia) Hy) as HGy.
    replace (a' + (b - 2 - a)) with (b' - 2) in HGx by lia. replace (a' + (b - 1 - a)) with (b' - 1) in HGy by lia.
    assert (Hdl' : nr_bdds (Coll G (c_del c ++ [N.of_nat (length G)])) = nr_bdds c + 1) by (unfold nr_bdds; cbn [c_del]; rewrite app_length; cbn [length]; lia).
    set (c' := Coll (c_ins c ++ [x; y]) (c_del c ++ [N.of_nat (length (c_ins c ++ [x; y]))])).
    assert (Hl' : N.of_nat (length (c_ins c ++ [x; y])) = a' + 2) by (rewrite app_length; cbn [length]; lia).
    assert (Ha1 : ix (c_del c') (nr_bdds c) = Some a') by (by apply lookup_app_l_Some).
    assert (Hb1 : ix (c_del c') (nr_bdds c + 1) = Some (a' + 2)).
    { unfold c'. cbn [c_del]. rewrite lookup_app_r by lia. replace (N.to_nat (nr_bdds c + 1) - length (c_del c))%nat with 0%nat by lia. simpl. by rewrite Hl'. }
    assert (Hnb : nr_bdds c' = nr_bdds c + 1) by (unfold nr_bdds, c'; cbn [c_del]; rewrite app_length; cbn [length]; lia).
    assert (Hxx : ix (c_ins c') a' = Some x). { unfold c', a'. cbn [c_ins]. rewrite Nat2N.id, lookup_app_r by lia. by rewrite Nat.sub_diag. }
    assert (Hyy : ix (c_ins c') (a' + 1) = Some y). { unfold c', a'. cbn [c_ins]. rewrite lookup_app_r by lia. by replace (N.to_nat (N.of_nat (length (c_ins c)) + 1) - length (c_ins c))%nat with 1%nat by lia. }
    assert (Hnn : nr_bdd_nodes c' (nr_bdds c) = inr 2).
    { unfold nr_bdd_nodes. rewrite assertR_true by (apply N.ltb_lt; lia). cbn [bindR]. rewrite (del_at_eq _ _ _ Ha1). cbn [bindR]. rewrite (del_at_eq _ _ _ Hb1). cbn [bindR]. rewrite sub64_small by (unfold two64 in *; lia). f_equal. lia. }
    destruct (cterm_instr _ _ Tx) as (X1&X2&X3). destruct (cterm_instr _ _ Ty) as (Y1&Y2&Y3).
    assert (Hib : is_bdd c' (nr_bdds c) = inr true).
    { unfold is_bdd. rewrite assertR_true by (apply N.ltb_lt; lia). rewrite Hnn. cbn [bindR]. change (2 <? 2) with false. cbv iota.
      rewrite (del_at_eq _ _ _ Ha1). cbn [bindR]. rewrite (del_at_eq _ _ _ Hb1). cbn [bindR]. replace (a' + 2 - 1) with (a' + 1) by lia. replace (a' + 2 - 2) with a' by lia.
      rewrite (vecR_eq _ _ _ Hyy). cbn [bindR]. rewrite (vecR_eq _ _ _ Hxx). cbn [bindR]. rewrite X1, Y1. cbn [negb].
      replace (ci_eqb x y) with false. 2:{ symmetry. apply not_true_iff_false. intros ->%ci_eqb_eq. rewrite X2 in Y2. by destruct bt. }
      unfold slice. rewrite N.leb_refl. done. }
    exists c'. split; [|split; [exact Hnn|split]].
    + rewrite Hrun. unfold reduce. rewrite Hdl'. rewrite assertR_true by (apply N.ltb_lt; lia). cbn [bindR]. replace (nr_bdds c + 1 - 1) with (nr_bdds c) by lia.
      unfold del_at. cbn [c_del c_ins]. rewrite (vecR_eq _ _ a') by (by apply lookup_app_l_Some). cbn [bindR]. rewrite (vecR_eq _ _ b').
      2:{ rewrite lookup_app_r by lia. replace (N.to_nat (nr_bdds c + 1) - length (c_del c))%nat with 0%nat by lia. simpl. by rewrite HLL. }
      cbn [bindR]. destruct (reduce1_gen G a' b' HG Hb2 (b' - 2) (repeat false (N.to_nat (b' - a')))) as (rem&->&Hrl&Hr1); [lia|by rewrite repeat_length|]. cbn [bindR].
      rewrite (vecR_eq _ _ _ HGy). cbn [bindR]. rewrite (vecR_eq _ _ _ HGx). cbn [bindR].
      assert (Hrm : forall i, a' <= i < b' - 2 -> nth (N.to_nat (i - a')) rem false = true).
      { intros i Hi. apply (Hr1 i ltac:(lia)). right. split; [lia|]. split; [lia|]. destruct (seg_ix _ _ _ Hg (i - a' + a)) as [e He]; [lia|].
        pose proof (Hcy (i - a' + a) e ltac:(lia) He) as Hu. replace (a' + (i - a' + a - a)) with i in Hu by lia. eexists. split; [exact Hu|]. cbn [i_lo i_hi].
        assert (Hce : centry c nr e) by (exists a, b, (i - a' + a); split; [done|]; split; [lia|done]). pose proof (Hall e Hce) as Hr. unfold made_redundant, redirected in Hr. cbn [i_lo i_hi] in Hr.
        destruct (neg (i_idx e)), (pos (i_idx e)); lia. }
      assert (Hdn : forall i, i ∈ down_to a' (b' - 2) -> a' <= i < b' - 2).
      { intros i (k&->&Hk%elem_of_seq)%elem_of_list_fmap. lia. }
      assert (Hr2 : forall is_ m, (forall i, i ∈ is_ -> a' <= i < b' - 2) -> reduce2 a' is_ G rem m = inr (G, rem)).
      { induction is_ as [|i is_ IH]; intros m Hi; [done|]. cbn [reduce2]. rewrite Hrm by (apply Hi; left). apply IH. intros j Hj. apply Hi. by right. }
      assert (Hr3 : forall is_, (forall i, i ∈ is_ -> a' <= i < b' - 2) -> reduce3 a' is_ G rem = inr []).
      { induction is_ as [|i is_ IH]; intros Hi; [done|]. cbn [reduce3]. rewrite Hrm by (apply Hi; left). apply IH. intros j Hj. apply Hi. by right. }
      rewrite Hr2 by exact Hdn. cbn [bindR]. rewrite Hr3. 2:{ intros i Hi. apply Hdn. by apply elem_of_reverse. } cbn [bindR app].
      assert (Hta : take (N.to_nat a') G = c_ins c). { unfold a', G. rewrite Nat2N.id. by rewrite take_app. } rewrite Hta.
      assert (Htd : take (length (c_del c ++ [N.of_nat (length G)]) - 1) (c_del c ++ [N.of_nat (length G)]) = c_del c). { rewrite app_length. cbn [length]. rewrite Nat.add_sub. by rewrite take_app. }
      rewrite Htd. fold c'. rewrite !assertRR_true by exact Hib. cbn [bindR]. rewrite assertRR_true by exact Hib. done.
    + pose proof (cappends_intro c [x; y] HI) as Happ. fold c' in Happ. intros j u Hj. destruct (croot_ex _ _ HI Hj) as [t Ht]. rewrite (cval_croot _ _ _ _ HI Ht).
      destruct (cappends_croot _ _ _ _ _ HI Happ Ht) as (q&Hq&Hq'). eapply cval_crep; [lia|exact Hq|exact Hq'].
    + intros z. unfold cval, c_evaluate. rewrite assertR_true by (apply N.ltb_lt; lia). cbn [bindR]. rewrite (del_at_eq _ _ _ Ha1). cbn [bindR].
      cbn [c_eval_fuel]. rewrite (vecR_eq _ _ _ Hxx). cbn [bindR]. rewrite X2, X3.
      assert (HTT : (T =? b - 2) = bt).
      { destruct Tx as [_ Tx], Ty as [_ Ty]. assert (T = b - 2 \/ T = b - 1) as [->| ->] by lia.
        - rewrite N.eqb_refl. assert (eT = x) by congruence. subst eT. rewrite HTt in Tx. by destruct bt.
        - rewrite (proj2 (N.eqb_neq _ _)) by lia. assert (eT = y) by congruence. subst eT. rewrite HTt in Ty. by destruct bt. }
      rewrite HTT. by destruct bt.
Qed.

(** ** C69: is_bdd *)
(** what is_bdd accepts: two different entries with equal arcs at the end, and before them different entries with two different arcs each, that lead forward and not out of the BDD *)
Definition accepted (ins : list instr) (a b : N) : Prop :=
  a + 2 <= b /\ (exists x y, ix ins (b - 2) = Some x /\ ix ins (b - 1) = Some y /\ x <> y /\ i_lo x = i_hi x /\ i_lo y = i_hi y) /\
  (forall (i : N) (e : instr), a <= i < b - 2 -> ix ins i = Some e -> i_lo e <> i_hi e /\ i < i_lo e < b /\ i < i_hi e < b) /\
  (forall (i j : N) (e : instr), a <= i < b - 2 -> a <= j < b - 2 -> ix ins i = Some e -> ix ins j = Some e -> i = j).
(** for any contents of the two vectors, as long as the delimiters are increasing and inside *)
Theorem C69_is_bdd c nr a b : nr < nr_bdds c -> cseg c nr a b -> a <= b -> b <= N.of_nat (length (c_ins c)) -> b < two64 ->
  exists r, is_bdd c nr = inr r /\ (r = true <-> accepted (c_ins c) a b).
Proof.
  intros Hn Hs Hab Hlen Hsm. unfold is_bdd, nr_bdd_nodes. rewrite assertR_true by (by apply N.ltb_lt). cbn [bindR].
  rewrite !(del_at_eq _ _ _ (proj1 Hs)). cbn [bindR]. rewrite !(del_at_eq _ _ _ (proj2 Hs)). cbn [bindR].
  rewrite sub64_small by lia. destruct (N.ltb_spec (b - a) 2) as [Hlt|Hge].
  { cbn [bindR]. exists false. split; [done|]. split; [done|]. intros [? _]. lia. }
  cbn [bindR]. destruct (lookup_lt_is_Some_2 (c_ins c) (N.to_nat (b - 1))) as [y Hy]; [lia|]. destruct (lookup_lt_is_Some_2 (c_ins c) (N.to_nat (b - 2))) as [x Hx]; [lia|].
  rewrite (vecR_eq _ _ _ Hy). cbn [bindR]. rewrite (vecR_eq _ _ _ Hx). cbn [bindR].
  destruct (slice_eq c a (b - 2)) as (l&Hl&Hll&Hlk); [lia..|].
  unfold ci_is_term. destruct (N.eqb_spec (i_lo y) (i_hi y)) as [Hyt|Hyt]; cbn [negb].
  2:{ exists false. split; [done|]. split; [done|]. intros (_&(x0&y0&_&Hy0&_&_&?)&_). congruence. }
  destruct (N.eqb_spec (i_lo x) (i_hi x)) as [Hxt|Hxt]; cbn [negb].
  2:{ exists false. split; [done|]. split; [done|]. intros (_&(x0&y0&Hx0&_&_&?&_)&_). congruence. }
  destruct (ci_eqb x y) eqn:Hxy.
  { apply ci_eqb_eq in Hxy as <-. exists false. split; [done|]. split; [done|]. intros (_&(x0&y0&Hx0&Hy0&?&_)&_). congruence. }
  rewrite Hl. cbn [bindR]. eexists. split; [done|].
  assert (Hat : forall i e, a <= i < b - 2 -> ix (c_ins c) i = Some e <-> l !! N.to_nat (i - a) = Some e).
  { intros i e Hi. rewrite Hlk by lia. replace (a + N.of_nat (N.to_nat (i - a))) with i by lia. done. }
  split.
  - intros (I1&_&I3)%is_bdd_loop_inv. split; [lia|]. split; [|split].
    + exists x, y. split_and!; auto. intros ->. apply not_true_iff_false in Hxy. apply Hxy. by apply ci_eqb_eq.
    + intros i e Hi He. destruct (I1 _ _ (proj1 (Hat i e Hi) He)) as (?&?&?). split_and!; auto; lia.
    + intros i j e Hi Hj He He'. pose proof (I3 _ _ _ (proj1 (Hat i e Hi) He) (proj1 (Hat j e Hj) He')). lia.
  - intros (_&_&I1&I3). apply is_bdd_loop_true; [|lia| |].
    + intros k e He. pose proof (lookup_lt_Some _ _ _ He). destruct (I1 (a + N.of_nat k) e) as (?&?&?); [lia| |split_and!; auto; lia].
      apply Hat; [lia|]. by replace (N.to_nat (a + N.of_nat k - a)) with k by lia.
    + intros k e _. apply not_elem_of_nil.
    + intros k k' e He He'. pose proof (lookup_lt_Some _ _ _ He). pose proof (lookup_lt_Some _ _ _ He').
      enough (a + N.of_nat k = a + N.of_nat k') by lia. apply (I3 _ _ e); [lia..| |]; (apply Hat; [lia|]); [by replace (N.to_nat (a + N.of_nat k - a)) with k by lia|by replace (N.to_nat (a + N.of_nat k' - a)) with k' by lia].
Qed.
(** in particular every BDD of a collection built by the API is accepted *)
Theorem C69_built c nr : built c -> csmall c -> nr < nr_bdds c -> is_bdd c nr = inr true.
Proof.
  intros HB Hsm Hn. pose proof (built_CInv HE _ HB) as HI. apply is_bdd_true; auto. intros a b Hs. pose proof (sg_len _ _ _ (ci_seg _ HI _ _ _ Hs)). unfold csmall in Hsm. unfold two64. lia.
Qed.
(** and a BDD is accepted after rerouting an arc exactly if the arc still leads forward, the other arc does not lead to the same node, and no other node is the same now;
    then the collection is again one that all theorems apply to *)
Theorem C65_is_bdd c nr a b i j e (z : bool) : built c -> csmall c -> nr < nr_bdds c -> cseg c nr a b -> a <= i < b - 2 -> a <= j < b -> ix (c_ins c) i = Some e ->
  exists c' r, set_arc z c (i, nr) (j, nr) = inr c' /\ is_bdd c' nr = inr r /\
    (r = true <-> i < j /\ (if z then i_lo e else i_hi e) <> j /\
       forall (i' : N) (y : instr), a <= i' < b - 2 -> i' <> i -> ix (c_ins c) i' = Some y -> y <> (if z then Instr (i_lo e) j (i_idx e) else Instr j (i_hi e) (i_idx e))) /\
    (r = true -> built c').
Proof.
  intros HB Hsm Hn Hs Hi Hj He. pose proof (built_CInv HE _ HB) as HI. pose proof (ci_seg _ HI _ _ _ Hs) as Hg.
  pose proof (sg_ab _ _ _ Hg) as Hab. pose proof (sg_len _ _ _ Hg) as Hlen.
  pose proof (set_arc_eq c nr i (j, nr) z e He) as Hset. cbn [fst] in Hset. set (e' := rerouted z j e) in *.
  assert (He' : e' = if z then Instr (i_lo e) j (i_idx e) else Instr j (i_hi e) (i_idx e)) by (unfold e', rerouted; by destruct z).
  set (ins' := <[N.to_nat i := e']> (c_ins c)) in *.
  assert (Hoth : forall k, k <> i -> ix ins' k = ix (c_ins c) k) by (intros k Hk; apply list_lookup_insert_ne; lia).
  assert (Hhere : ix ins' i = Some e') by (apply list_lookup_insert; lia).
  assert (Hl' : length ins' = length (c_ins c)) by apply insert_length. pose proof Hsm as Hsm'. unfold csmall in Hsm'.
  destruct (C69_is_bdd (Coll ins' (c_del c)) nr a b Hn Hs ltac:(lia)) as (r&Hr&Hacc); [cbn [c_ins]; lia|unfold two64; lia|].
  exists (Coll ins' (c_del c)), r. split; [exact Hset|]. split; [exact Hr|]. split.
  - rewrite Hacc. cbn [c_ins]. destruct (sg_node _ _ _ Hg i e Hi He) as (Hne&Hv&Hlo&Hhi). rewrite <- He'. split.
    + intros (_&_&H1&H2). destruct (H1 i e' Hi Hhere) as (G1&G2&G3). rewrite He' in G1, G2, G3. split; [destruct z; cbn [i_lo i_hi] in *; lia|]. split; [destruct z; cbn [i_lo i_hi] in *; congruence|].
      intros i' y Hi' Hne' Hy ->. apply Hne'. apply (H2 i' i e'); auto. by rewrite Hoth.
    + intros (H1&H2&H3). split; [lia|]. split; [|split].
      * destruct (sg_term _ _ _ Hg) as (bt&x&y&Hx&Hy&Tx&Ty). exists x, y. rewrite !Hoth by lia. split_and!; auto; [|apply Tx|apply Ty]. intros ->. pose proof (cterm_fun _ _ _ Tx Ty). by destruct bt.
      * intros k y Hk Hy. destruct (decide (k = i)) as [->|Hki].
        { assert (y = e') as -> by congruence. rewrite He'. destruct z; cbn [i_lo i_hi]; split_and!; auto; lia. }
        rewrite Hoth in Hy by done. destruct (sg_node _ _ _ Hg k y Hk Hy) as (?&_&?&?). split_and!; auto; lia.
      * intros k k' y Hk Hk' Hy Hy'. destruct (decide (k = i)) as [->|Hki], (decide (k' = i)) as [->|Hki']; [done|..].
        { assert (y = e') as -> by congruence. rewrite Hoth in Hy' by done. by destruct (H3 k' e' Hk' Hki' Hy'). }
        { assert (y = e') as -> by congruence. rewrite Hoth in Hy by done. by destruct (H3 k e' Hk Hki Hy). }
        rewrite Hoth in Hy, Hy' by done. apply (sg_dist _ _ _ Hg k k' y); auto.
  - intros ->. assert (Hnr : forall k, a <= k < b -> node_nr c nr (k - a) (k, nr)).
    { intros k Hk. exists (b - a). split; [apply (nr_bdd_nodes_eq _ _ _ _ HI Hs); unfold two64; lia|]. split; [lia|]. unfold entry_nth. rewrite (del_at_eq _ _ _ (proj1 Hs)). cbn [bindR].
      rewrite add64_small by (unfold two64; lia). replace (a + (k - a)) with k by lia. by apply (mk_cnode_ok c nr a b). }
    eapply built_arc; [done|exact HB|exact Hsm|exact Hn|apply (Hnr i); lia| |apply (Hnr j); lia|exact Hset|exact Hr].
    unfold cn_is_terminal, cn_instr. cbn [fst]. rewrite (vecR_eq _ _ _ He). cbn [bindR]. destruct (sg_node _ _ _ Hg i e Hi He) as (Hne&_). unfold ci_is_term. by rewrite (proj2 (N.eqb_neq _ _)).
Qed.
End edited.
