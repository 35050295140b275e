(** * PropsColl7.v -- bdd_or_var and reduce in general (C50, continued) *)
From Verif Require Export PropsColl6.
Open Scope N_scope.

Section general.
Context {E : Env} (HE : env_ok E).

(** ** C50, in general *)
(** Whenever bdd_or_var returns, it has appended one BDD, and the others keep their values; the new BDD is no larger
    than the old one.  If moreover the root survives and fewer than 128 entries are removed, the
    new BDD is what C50_or_var says. *)
Theorem C50_or_var_returns c nr pos neg k c' : built c -> csmall c -> nr < nr_bdds c -> bdd_or_var c nr pos neg = inr (k, c') ->
  k = nr_bdds c /\ cappends c c' k /\ ckeeps c c' /\ exists n n', nr_bdd_nodes c nr = inr n /\ nr_bdd_nodes c' k = inr n' /\ n' <= n /\
    (root_kept c nr pos neg -> n < n' + 128 -> forall x, ccovers c nr x -> exists r, cval c' k x = Some r /\
       (r = true <-> cval c nr x = Some true \/ exists v, cvisits c nr x v /\ lit_true pos neg x v)).
Proof.
  intros HB Hsm Hn Hrun. pose proof (built_CInv HE _ HB) as HI.
  destruct (or_var_result c nr pos neg k c' HI Hsm Hn Hrun) as (a&b&T&eT&l&ins&rem&m&r&x&y&Hs&Hl&Hll&Hlk&HT&HeT&HTt&HI2&Hx&Hy&Htk&Hr3&Hlr&->&Hc').
  split; [done|]. pose proof (cappends_intro c (r ++ [x; y]) HI) as Happ. rewrite <- Hc' in Happ. split; [exact Happ|].
  assert (Hnb : nr_bdds c' = nr_bdds c + 1) by apply Happ. pose proof (ci_seg _ HI _ _ _ Hs) as Hg.
  pose proof (sg_ab _ _ _ Hg) as Hab. pose proof (sg_len _ _ _ Hg) as Hlen. pose proof (nr_bdds_len _ HI) as Hdl.
  assert (Hlast : ix (c_del c) (nr_bdds c) = Some (N.of_nat (length (c_ins c)))).
  { pose proof (ci_last _ HI) as Hla. rewrite last_lookup in Hla. rewrite <- Hla. f_equal. lia. }
  split.
  { intros j u Hj. destruct (croot_ex _ _ HI Hj) as [t Ht]. rewrite (cval_croot _ _ _ _ HI Ht).
    destruct (cappends_croot _ _ _ _ _ HI Happ Ht) as (q&Hq&Hq'). eapply cval_crep; [lia|exact Hq|exact Hq']. }
  pose proof Hsm as Hsm'. unfold csmall in Hsm'.
  assert (Ha1 : ix (c_del c') (nr_bdds c) = Some (N.of_nat (length (c_ins c)))) by (rewrite Hc'; by apply lookup_app_l_Some).
  assert (Hb1 : ix (c_del c') (nr_bdds c + 1) = Some (N.of_nat (length (c_ins c')))).
  { rewrite Hc'. cbn [c_del c_ins]. rewrite lookup_app_r by lia. by replace (N.to_nat (nr_bdds c + 1) - length (c_del c))%nat with 0%nat by lia. }
  assert (Hlen' : length (c_ins c') = (length (c_ins c) + (length r + 2))%nat) by (rewrite Hc'; cbn [c_ins]; by rewrite !app_length).
  exists (b - a), (N.of_nat (length r + 2)).
  split; [apply (nr_bdd_nodes_eq _ _ _ _ HI Hs); unfold two64; lia|]. split.
  { unfold nr_bdd_nodes. rewrite assertR_true by (apply N.ltb_lt; lia). cbn [bindR]. rewrite (del_at_eq _ _ _ Ha1). cbn [bindR]. rewrite (del_at_eq _ _ _ Hb1). cbn [bindR].
    rewrite Hlen'. rewrite sub64_small by (unfold two64; lia). f_equal. lia. }
  split; [lia|]. intros (T'&ro&(a1&b1&e1&Hs1&HT1&He1&Ht1)&(a2&Ha2&Hro)&Hrk1&Hrk2) H128 z Hz.
  assert (a1 = a /\ b1 = b) as [-> ->]. { destruct Hs, Hs1. split; congruence. }
  assert (a2 = a) as -> by (destruct Hs; congruence).
  assert (T' = T) as ->.
  { assert (HT2 : b - 2 <= T' < b).
    { split; [|lia]. destruct (N.le_gt_cases (b - 2) T'); [done|]. destruct (sg_node _ _ _ Hg T' e1) as (_&Hv&_); [lia|done|]. rewrite Ht1 in Hv. done. }
    destruct (sg_term _ _ _ Hg) as (bt&x0&y0&Hx0&Hy0&[_ Tx]&[_ Ty]).
    assert (T' = b - 2 \/ T' = b - 1) as [->| ->] by lia; assert (T = b - 2 \/ T = b - 1) as [->| ->] by lia; try done; exfalso; assert (ctop <> cbot) by done; destruct bt; cbn [negb] in *; congruence. }
  set (a' := N.of_nat (length (c_ins c))) in *. set (b' := a' + (b - a)) in *. set (G := c_ins c ++ copied c a pos neg (a' + (T - a)) l) in *.
  assert (HG : gseg G a' b') by (eapply copied_gseg; eauto).
  assert (Hb2 : b' < two64) by (unfold two64; lia).
  assert (Hbb : b' - a' = b - a) by lia. assert (Hcn : (cntn rem (N.to_nat (b' - a')) < 128)%nat) by lia.
  assert (Hc0 : cntn rem 0 = 0%nat) by (unfold cntn; by rewrite take_0).
  assert (Hroot : nth (N.to_nat (a' - a')) rem false = false).
  { apply not_true_iff_false. intros Ht. destruct (gs_ix G a' b' HG Hb2 a') as [u Hu]; [lia|].
    destruct (copied_in c HI nr a b Hs Hsm Hn pos neg l Hll Hlk T HT eT HTt a' u ltac:(lia) Hu) as (r0&_&Hr0&Hu').
    replace (N.of_nat (length (c_ins c)) - N.of_nat (length (c_ins c)) + a) with a in Hr0 by lia. replace (a' - N.of_nat (length (c_ins c)) + a) with a in Hr0 by lia.
    assert (r0 = ro) as -> by congruence. destruct (sg_node _ _ _ Hg a ro ltac:(lia) Hro) as (_&_&Hlo&Hhi).
    destruct (decide (i_lo u = i_hi u)) as [Heq|Hne].
    - apply Hrk1. rewrite Hu' in Heq. cbn [i_lo i_hi] in Heq. unfold redirected. cbn [i_lo i_hi]. destruct (neg (i_idx ro)), (pos (i_idx ro)); lia.
    - destruct (i_dup _ _ _ _ _ _ _ HI2 a' u ltac:(lia) Ht Hu Hne) as (j&Hj&HGj).
      destruct (copied_in c HI nr a b Hs Hsm Hn pos neg l Hll Hlk T HT eT HTt j u ltac:(lia) HGj) as (r1&Hj1&Hr1&Hu1).
      rewrite Hu' in Hu1. injection Hu1 as E1 E2 E3. destruct (sg_node _ _ _ Hg _ r1 Hj1 Hr1) as (_&_&Hlo'&Hhi').
      assert (r1 = ro). { apply Hrk2; [by exists a, b, (j - N.of_nat (length (c_ins c)) + a)|]. unfold redirected. rewrite E3 in *. f_equal; [destruct (neg (i_idx r1))|destruct (pos (i_idx r1))]; lia. }
      subst r1. pose proof (sg_dist _ _ _ Hg _ a ro Hj1 ltac:(lia) Hr1 Hro). lia. }
  destruct (croot_ex _ _ HI Hn) as [t Ht]. pose proof (cval_covers _ _ _ _ HI Ht Hz) as Hv.
  destruct Ht as (a0&Ha0&Ht). assert (a0 = a) as -> by (destruct Hs; congruence).
  assert (Hocc : forall v, occurs v t -> v < N.of_nat (length z)). { intros v Ho. apply Hz. eapply croot_occurs; [exact HI|by exists a|exact Ho]. }
  exists (evalt (orlit pos neg t) (asg z)). split.
  - assert (He : evp (orlit pos neg t) z = Some (evalt (orlit pos neg t) (asg z))).
    { apply evp_covers. intros v Ho. apply Hocc. clear -Ho. induction t as [w|u tl IHl th IHh]; simpl in *; [done|].
      destruct Ho as [->|[Ho|Ho]]; [by left|destruct (neg u); [done|auto]|destruct (pos u); [done|auto]]. }
    pose proof (copied_cev c HI nr a b Hs Hsm Hn pos neg l Hll Hlk T HT eT HeT HTt z a t _ Ht ltac:(lia) He) as Hcev. fold a' in Hcev. fold G in Hcev. rewrite N.sub_diag, N.add_0_r in Hcev.
    pose proof (compact_eval G a' b' HG Hb2 ins rem m r x y HI2 Hr3 Hx Hy Hcn (N.to_nat (b' - a')) a' z _ ltac:(lia) ltac:(right; split; [lia|done]) Hcev) as Hce.
    pose proof (compact_fwd G a' b' HG Hb2 ins rem m r x y HI2 Hr3 Hx Hy Hcn) as Hfw. rewrite Htk in Hce, Hfw.
    unfold newpos in Hce. rewrite N.sub_diag in Hce. change (N.to_nat 0) with 0%nat in Hce. rewrite Hc0, N.sub_0_r in Hce.
    unfold cval, c_evaluate. rewrite assertR_true by (apply N.ltb_lt; lia). cbn [bindR]. rewrite (del_at_eq _ _ _ Ha1). cbn [bindR].
    assert (Hci : c_ins c' = c_ins c ++ r ++ [x; y]) by (by rewrite Hc'). rewrite <- Hci in Hce, Hfw.
    rewrite (cev_eval c' a' _ z a' _ Hfw Hce); [done|lia|lia].
  - rewrite (orlit_true _ _ c z a t Ht Hocc), Hv. split.
    + intros [He|(v&j&e&Hw&He&Hlh&<-&Hlit)]; [left; congruence|]. right. exists (i_idx e). split; [|done]. exists a, j, e. pose proof (proj1 Hs). done.
    + intros [He|(v&(a3&j&e&Ha3&Hw&He&Hlh&<-)&Hlit)]; [left; congruence|]. right. assert (a3 = a) as -> by congruence. exists (i_idx e), j, e. done.
Qed.

(** But bdd_or_var does not survive redundant entries: if redirecting makes both arcs of entry [z] equal, and an entry
    [y] that keeps two different arcs still has an arc to [z], then the second pass of reduce looks [z] up in vain
    -- a failed assertion, or without assertions the dereference of an end iterator *)
Theorem C50_redundant_child_refuted c nr pos neg T a b i j y z (d : bool) : built c -> csmall c -> nr < nr_bdds c -> ctop_at c nr T -> cseg c nr a b ->
  a <= i < b - 2 -> a <= j < b - 2 -> ix (c_ins c) i = Some y -> ix (c_ins c) j = Some z ->
  (if d then i_hi y else i_lo y) = j -> (if d then pos else neg) (i_idx y) = false ->
  i_lo (redirected pos neg T y) <> i_hi (redirected pos neg T y) -> i_lo (redirected pos neg T z) = i_hi (redirected pos neg T z) ->
  bdd_or_var c nr pos neg = inl (if e_ndebug then EUB else EAssert).
Proof.
  intros HB Hsm Hn (a1&b1&eT&Hs1&HT1&HeT&HTt) Hs Hi Hj Hy Hz Harc Hnot Hry Hrz. pose proof (built_CInv HE _ HB) as HI. pose proof (ci_seg _ HI _ _ _ Hs) as Hg.
  assert (a1 = a /\ b1 = b) as [-> ->]. { destruct Hs, Hs1. split; congruence. } clear Hs1.
  pose proof (sg_ab _ _ _ Hg) as Hab. pose proof (sg_len _ _ _ Hg) as Hlen. pose proof (nr_bdds_len _ HI) as Hdl.
  assert (HT : b - 2 <= T < b).
  { split; [|lia]. destruct (N.le_gt_cases (b - 2) T); [done|]. destruct (sg_node _ _ _ Hg T eT) as (_&Hv&_); [lia|done|]. rewrite HTt in Hv. done. }
  destruct (slice_eq c a b) as (l&Hl&Hll&Hlk); [lia..|].
  rewrite (or_var_run c HI nr a b Hs Hsm Hn pos neg l Hl Hll Hlk T HT eT HeT HTt).
  pose proof (copied_gseg c HI nr a b Hs Hsm Hn pos neg l Hll Hlk T HT eT HTt) as HG.
  pose proof (copied_len c a b pos neg l Hll T HT eT HTt) as HLL.
  pose proof (copied_inner c HI nr a b Hs Hsm pos neg l Hll Hlk T HT eT HTt i y Hi Hy) as Hcy.
  pose proof (copied_inner c HI nr a b Hs Hsm pos neg l Hll Hlk T HT eT HTt j z Hj Hz) as Hcz.
  set (a' := N.of_nat (length (c_ins c))) in *. set (L := copied c a pos neg (a' + (T - a)) l) in *. set (b' := a' + (b - a)) in *.
  assert (Hlast : ix (c_del c) (nr_bdds c) = Some a').
  { pose proof (ci_last _ HI) as Hla. rewrite last_lookup in Hla. unfold a'. rewrite <- Hla. f_equal. lia. }
  assert (Hdl' : N.of_nat (length (c_del c ++ [N.of_nat (length (c_ins c ++ L))])) = nr_bdds c + 2) by (rewrite app_length; simpl; lia).
  unfold csmall in Hsm. destruct (sg_node _ _ _ Hg i y Hi Hy) as (_&_&Hlo&Hhi). destruct (sg_node _ _ _ Hg j z Hj Hz) as (_&_&Hlo'&Hhi').
  unfold redirected in Hry, Hrz. cbn [i_lo i_hi] in Hry, Hrz.
  destruct (reduce_gen (c_ins c ++ L) a' b' HG ltac:(unfold two64; lia) (c_del c ++ [N.of_nat (length (c_ins c ++ L))])) as [Hf|(ins&rem&m&r&x1&x2&HI2&_)].
  - rewrite Hdl'. replace (nr_bdds c + 2 - 2) with (nr_bdds c) by lia. by apply lookup_app_l_Some.
  - rewrite Hdl'. rewrite lookup_app_r by lia. replace (N.to_nat (nr_bdds c + 2 - 1) - length (c_del c))%nat with 0%nat by lia. simpl. by rewrite HLL.
  - lia.
  - by rewrite Hf.
  - exfalso. destruct (i_new _ _ _ _ _ _ _ HI2 (a' + (i - a)) _ ltac:(lia) Hcy) as (l0&h0&_&_&_&_&_&_&_&R1&R2).
    { cbn [i_lo i_hi]. destruct (neg (i_idx y)), (pos (i_idx y)); lia. }
    cbn [i_lo i_hi] in R1, R2. assert (Hred : ored (c_ins c ++ L) b' (a' + (j - a))).
    { split; [lia|]. eexists. split; [exact Hcz|]. cbn [i_lo i_hi]. destruct (neg (i_idx z)), (pos (i_idx z)); lia. }
    destruct d; rewrite Hnot in *; rewrite Harc in *; done.
Qed.

(** *** entries that redirecting makes redundant, but unreachable *)
Lemma cntn_true rem j : (j <= length rem)%nat -> exists l, NoDup l /\ length l = cntn rem j /\ Forall (fun i => (i < j)%nat /\ nth i rem false = true) l.
Proof.
  induction j as [|j IH]; intros Hj; [exists []; split_and!; auto; constructor|]. destruct (IH ltac:(lia)) as (l&Hnd&Hl&Hf). rewrite (cntn_S rem j) by lia.
  destruct (nth j rem false) eqn:Hr.
  - exists (j :: l). split; [|split; [simpl; lia|]].
    + constructor; [|done]. intros Hin. rewrite Forall_forall in Hf. destruct (Hf _ Hin). lia.
    + constructor; [split; [lia|done]|]. eapply Forall_impl; [exact Hf|]. intros i [? ?]. split; [lia|done].
  - exists l. split; [done|]. split; [lia|]. eapply Forall_impl; [exact Hf|]. intros i [? ?]. split; [lia|done].
Qed.
Lemma or_tidy_run c nr pos neg T : built c -> csmall c -> nr < nr_bdds c -> or_tidy c nr pos neg T ->
  exists a b eT l rem m r x y, cseg c nr a b /\ slice c a b = inr l /\ length l = N.to_nat (b - a) /\ (forall i, (i < N.to_nat (b - a))%nat -> l !! i = ix (c_ins c) (a + N.of_nat i)) /\
    b - 2 <= T < b /\ ix (c_ins c) T = Some eT /\ i_idx eT = ctop /\
    let a' := N.of_nat (length (c_ins c)) in let b' := a' + (b - a) in let G := c_ins c ++ copied c a pos neg (a' + (T - a)) l in
    gseg G a' b' /\ I2 G a' b' a' G rem m /\ (forall i, a' <= i -> nth (N.to_nat (i - a')) rem false = true <-> ored G b' i) /\ (cntn rem (N.to_nat (b' - a')) < 128)%nat /\
    ix G (b' - 2) = Some x /\ ix G (b' - 1) = Some y /\
    reduce3 a' (reverse (down_to a' (b' - 2))) G rem = inr r /\ (length r + cntn rem (N.to_nat (b' - a')) = N.to_nat (b' - 2 - a'))%nat /\
    let c' := Coll (c_ins c ++ r ++ [x; y]) (c_del c ++ [N.of_nat (length (c_ins c ++ r ++ [x; y]))]) in
    bdd_or_var c nr pos neg = inr (nr_bdds c, c') /\ built c'.
Proof.
  intros HB Hsm Hn (a&b&Hs&(a1&b1&eT&Hs1&HT1&HeT&HTt)&Hd&Hch&(y0&Hy0&Hny0)&Hcnt). pose proof (built_CInv HE _ HB) as HI. pose proof (ci_seg _ HI _ _ _ Hs) as Hg.
  assert (a1 = a /\ b1 = b) as [-> ->]. { destruct Hs, Hs1. split; congruence. } clear Hs1.
  pose proof (sg_ab _ _ _ Hg) as Hab. pose proof (sg_len _ _ _ Hg) as Hlen. pose proof (nr_bdds_len _ HI) as Hdl.
  assert (HT : b - 2 <= T < b).
  { split; [|lia]. destruct (N.le_gt_cases (b - 2) T); [done|]. destruct (sg_node _ _ _ Hg T eT) as (_&Hv&_); [lia|done|]. rewrite HTt in Hv. done. }
  destruct (slice_eq c a b) as (l&Hl&Hll&Hlk); [lia..|].
  pose proof (or_var_run c HI nr a b Hs Hsm Hn pos neg l Hl Hll Hlk T HT eT HeT HTt) as Hrun.
  pose proof (copied_gseg c HI nr a b Hs Hsm Hn pos neg l Hll Hlk T HT eT HTt) as HG.
  pose proof (copied_len c a b pos neg l Hll T HT eT HTt) as HLL.
  pose proof (copied_inner c HI nr a b Hs Hsm pos neg l Hll Hlk T HT eT HTt) as Hcy.
  pose proof (copied_in c HI nr a b Hs Hsm Hn pos neg l Hll Hlk T HT eT HTt) as Hin.
  set (a' := N.of_nat (length (c_ins c))) in *. set (L := copied c a pos neg (a' + (T - a)) l) in *. set (b' := a' + (b - a)) in *.
  assert (Hlast : ix (c_del c) (nr_bdds c) = Some a').
  { pose proof (ci_last _ HI) as Hla. rewrite last_lookup in Hla. unfold a'. rewrite <- Hla. f_equal. lia. }
  assert (Hdl' : N.of_nat (length (c_del c ++ [N.of_nat (length (c_ins c ++ L))])) = nr_bdds c + 2) by (rewrite app_length; simpl; lia).
  unfold csmall in Hsm.
  assert (Hce : forall i y, a <= i < b - 2 -> ix (c_ins c) i = Some y -> centry c nr y) by (intros i y Hi Hy; by exists a, b, i).
  (* redundancy of the copy and of the original *)
  assert (Hshape : forall i u, a' <= i < b' - 2 -> ix (c_ins c ++ L) i = Some u -> exists y, centry c nr y /\ a <= i - a' + a < b - 2 /\ ix (c_ins c) (i - a' + a) = Some y /\
    i_idx u = i_idx y /\ i_lo u = a' + (i_lo (redirected pos neg T y) - a) /\ i_hi u = a' + (i_hi (redirected pos neg T y) - a) /\
    a < i_lo (redirected pos neg T y) < b /\ a < i_hi (redirected pos neg T y) < b).
  { intros i u Hi Hu. destruct (Hin i u Hi Hu) as (y&Hi'&Hy&->). destruct (sg_node _ _ _ Hg _ y Hi' Hy) as (_&_&Hlo&Hhi). exists y. split; [eauto|]. split; [done|]. split; [done|]. cbn [i_lo i_hi i_idx redirected].
    split; [done|]. destruct (neg (i_idx y)), (pos (i_idx y)); lia. }
  assert (Hredy : forall i u y, a' <= i < b' - 2 -> ix (c_ins c ++ L) i = Some u -> ix (c_ins c) (i - a' + a) = Some y -> i_lo u = i_hi u <-> made_redundant pos neg T y).
  { intros i u y Hi Hu Hy. destruct (Hshape i u Hi Hu) as (y'&_&_&Hy'&_&E1&E2&?&?). assert (y' = y) as -> by congruence. unfold made_redundant. rewrite E1, E2. lia. }
  assert (Htidy : tidy (c_ins c ++ L) a' b').
  { split.
    - intros i j u Hi Hj Hu Hu' Hne. destruct (Hshape i u Hi Hu) as (y1&Hc1&Hi1&Hy1&V1&L1&H1&B1&B2). destruct (Hshape j u Hj Hu') as (y2&Hc2&Hj2&Hy2&V2&L2&H2&B3&B4).
      assert (y1 = y2) as <-.
      { apply Hd; auto. { unfold made_redundant. intros He. apply Hne. rewrite L1, H1, He. done. }
        rewrite L1 in L2. rewrite H1 in H2. rewrite V1 in V2. unfold redirected in *. cbn [i_lo i_hi] in *. f_equal; [lia|lia|done]. }
      pose proof (sg_dist _ _ _ Hg _ _ y1 Hi1 Hj2 Hy1 Hy2). lia.
    - intros i u Hi Hu Hne. destruct (Hshape i u Hi Hu) as (y1&Hc1&Hi1&Hy1&V1&L1&H1&B1&B2).
      assert (Hnr : ~ made_redundant pos neg T y1) by (unfold made_redundant; intros He; apply Hne; rewrite L1, H1, He; done).
      assert (Hgen : forall j, a < j < b -> (i_lo (redirected pos neg T y1) = j \/ i_hi (redirected pos neg T y1) = j) -> ~ ored (c_ins c ++ L) b' (a' + (j - a))).
      { intros j Hj Harc (Hjb&w&Hw&Hwe). destruct (Hshape (a' + (j - a)) w ltac:(lia) Hw) as (y2&_&Hj2&Hy2&_). replace (a' + (j - a) - a' + a) with j in Hj2, Hy2 by lia.
        apply (Hch y1 y2 j Hc1 Hnr Harc ltac:(lia) Hy2). eapply (Hredy (a' + (j - a)) w); [lia|done|by replace (a' + (j - a) - a' + a) with j by lia|done]. }
      rewrite L1, H1. split; apply Hgen; auto. }
  assert (Hex : exists i, a' <= i < b' - 2 /\ ~ ored (c_ins c ++ L) b' i).
  { destruct Hy0 as (a2&b2&i&Hs2&Hi&Hy). assert (a2 = a /\ b2 = b) as [-> ->]. { destruct Hs, Hs2. split; congruence. }
    exists (a' + (i - a)). split; [lia|]. intros (_&w&Hw&Hwe). apply Hny0. eapply (Hredy (a' + (i - a)) w); [lia|done|by replace (a' + (i - a) - a' + a) with i by lia|done]. }
  assert (Hc128 : forall rem, length rem = N.to_nat (b' - a') -> (forall i, a' <= i -> nth (N.to_nat (i - a')) rem false = true <-> ored (c_ins c ++ L) b' i) -> (cntn rem (N.to_nat (b' - a')) < 128)%nat).
  { intros rem Hrl Hred. destruct (cntn_true rem (N.to_nat (b' - a')) ltac:(lia)) as (is_&Hnd&<-&Hf).
    assert (Hinn : Forall (fun i => a <= a + N.of_nat i < b - 2 /\ ored (c_ins c ++ L) b' (a' + N.of_nat i)) is_).
    { eapply Forall_impl; [exact Hf|]. intros i [Hi Hr]. pose proof (Hred (a' + N.of_nat i) ltac:(lia)) as Hri. replace (N.to_nat (a' + N.of_nat i - a')) with i in Hri by lia.
      apply Hri in Hr. split; [|done]. destruct Hr as [Hr _]. lia. }
    set (f := fun i => default (Instr 0 0 0) (c_ins c !! N.to_nat (a + N.of_nat i))).
    assert (Hfe : forall i, a <= a + N.of_nat i < b - 2 -> ix (c_ins c) (a + N.of_nat i) = Some (f i)).
    { intros i Hi. unfold f. destruct (seg_ix _ _ _ Hg (a + N.of_nat i)) as [w Hw]; [lia|]. by rewrite Hw. }
    rewrite <- (map_length f is_). apply Hcnt.
    - clear -Hnd Hinn Hfe Hg. induction Hnd as [|i is_ Hni Hnd IH]; [constructor|]. inversion Hinn as [|? ? [Hi _] Hinn']; subst. cbn [map]. constructor; [|by apply IH].
      intros (j&Hj&Hjin)%elem_of_list_fmap. rewrite Forall_forall in Hinn'. destruct (Hinn' j Hjin) as [Hjr _].
      pose proof (Hfe i Hi) as Hw. rewrite Hj in Hw. pose proof (sg_dist _ _ _ Hg (a + N.of_nat i) (a + N.of_nat j) (f j) Hi Hjr Hw (Hfe j Hjr)) as He. apply Hni. by replace i with j by lia.
    - apply Forall_forall. intros w (i&->&Hiin)%elem_of_list_fmap. rewrite Forall_forall in Hinn. destruct (Hinn i Hiin) as [Hi (_&u&Hu&Hue)]. split; [eauto|].
      eapply (Hredy (a' + N.of_nat i) u); [lia|done| |done]. replace (a' + N.of_nat i - a' + a) with (a + N.of_nat i) by lia. by apply Hfe. }
  destruct (reduce_tidy (c_ins c ++ L) a' b' HG ltac:(unfold two64; lia) (c_del c ++ [N.of_nat (length (c_ins c ++ L))])) as (rem&m&r&x&y&HI2&Hred&H128&Hx&Hy&Hr3&Hlr&Hrd&Hib); auto.
  - rewrite Hdl'. replace (nr_bdds c + 2 - 2) with (nr_bdds c) by lia. by apply lookup_app_l_Some.
  - rewrite Hdl'. rewrite lookup_app_r by lia. replace (N.to_nat (nr_bdds c + 2 - 1) - length (c_del c))%nat with 0%nat by lia. simpl. by rewrite HLL.
  - lia.
  - assert (Htk : forall A (u v : list A), take (length u) (u ++ v) = u) by (intros A u v; by rewrite take_app).
    assert (Hta : take (N.to_nat a') (c_ins c ++ L) = c_ins c). { unfold a'. rewrite Nat2N.id. apply Htk. }
    assert (Htd : take (length (c_del c ++ [N.of_nat (length (c_ins c ++ L))]) - 1) (c_del c ++ [N.of_nat (length (c_ins c ++ L))]) = c_del c).
    { rewrite app_length. simpl. rewrite Nat.add_sub. apply Htk. }
    rewrite Hdl' in Hib. replace (nr_bdds c + 2 - 2) with (nr_bdds c) in Hib by lia. rewrite Hta, Htd in *. 
    exists a, b, eT, l, rem, m, r, x, y. split_and!; auto; try lia. cbv zeta. fold a'. fold L. fold b'. split_and!; auto.
    { rewrite Hrun, Hrd. cbn [bindR]. rewrite assertRR_true by exact Hib. done. }
    assert (Hr0 : (0 < length r)%nat).
    { destruct Hex as (i&Hi&Hno). assert (Hni : nth (N.to_nat (i - a')) rem false = false) by (apply not_true_iff_false; intros Ht; apply Hno, Hred; [lia|done]).
      pose proof (i_rlen _ _ _ _ _ _ _ HI2) as Hrl. destruct (cntn_all _ _ _ HG ltac:(unfold two64; lia) _ _ _ HI2) as [Hca _].
      pose proof (cntn_S rem (N.to_nat (i - a')) ltac:(lia)) as HS. rewrite Hni in HS. pose proof (cntn_le rem (N.to_nat (i - a'))).
      destruct (cntn_mono rem (S (N.to_nat (i - a'))) (N.to_nat (b' - 2 - a')) ltac:(lia)). lia. }
    eapply built_or; [done|exact HB|exact Hsm|exact Hn| |exact Hib|].
    { rewrite Hrun, Hrd. cbn [bindR]. rewrite assertRR_true by exact Hib. done. }
    destruct r as [|r1 r]; [simpl in Hr0; lia|]. exists r1, a', (N.of_nat (length (c_ins c ++ (r1 :: r) ++ [x; y]))), a'. unfold cseg. cbn [c_ins c_del].
    split_and!; [by apply lookup_app_l_Some| | lia| |].
    + rewrite lookup_app_r by lia. by replace (N.to_nat (nr_bdds c + 1) - length (c_del c))%nat with 0%nat by lia.
    + rewrite !app_length. cbn [length]. lia.
    + unfold a'. rewrite Nat2N.id, lookup_app_r by lia. by rewrite Nat.sub_diag.
Qed.
(** So entries that redirecting makes redundant are harmless as long as they also become unreachable. *)
Theorem C50_or_var_drops c nr pos neg T r : built c -> csmall c -> nr < nr_bdds c -> or_tidy c nr pos neg T -> croot_entry c nr r -> ~ made_redundant pos neg T r ->
  exists c', bdd_or_var c nr pos neg = inr (nr_bdds c, c') /\ built c' /\ cappends c c' (nr_bdds c) /\ ckeeps c c' /\
    forall x, ccovers c nr x -> exists d, cval c' (nr_bdds c) x = Some d /\
      (d = true <-> cval c nr x = Some true \/ exists v, cvisits c nr x v /\ lit_true pos neg x v).
Proof.
  intros HB Hsm Hn Ht Hroot Hnr. destruct (or_tidy_run c nr pos neg T HB Hsm Hn Ht) as (a&b&eT&l&rem&m&r0&x&y&Hs&Hl&Hll&Hlk&HT&HeT&HTt&_&_&_&H128&_&_&_&Hlr&Hrun&Hbl).
  eexists. split; [exact Hrun|]. split; [exact Hbl|]. destruct (C50_or_var_returns _ _ _ _ _ _ HB Hsm Hn Hrun) as (_&Happ&Hk&n&n'&Hn1&Hn2&_&Hv). split; [exact Happ|]. split; [exact Hk|].
  pose proof (built_CInv HE _ HB) as HI. pose proof (ci_seg _ HI _ _ _ Hs) as Hg. pose proof (sg_ab _ _ _ Hg) as Hab. pose proof (sg_len _ _ _ Hg) as Hlen.
  apply Hv.
  - destruct Ht as (a1&b1&Hs1&Htop&Hd&_). exists T, r. split; [done|]. split; [done|]. split; [exact Hnr|]. intros z Hz He. symmetry. apply Hd; auto.
    destruct Hroot as (a2&Ha2&Hr2). assert (a2 = a) as -> by (destruct Hs; congruence). exists a, b, a. split; [done|]. split; [lia|done].
  - unfold csmall in Hsm. rewrite (nr_bdd_nodes_eq _ _ _ _ HI Hs) in Hn1 by (unfold two64; lia). injection Hn1 as <-.
    pose proof (nr_bdds_len _ HI) as Hdl.
    assert (Hlast : ix (c_del c) (nr_bdds c) = Some (N.of_nat (length (c_ins c)))).
    { pose proof (ci_last _ HI) as Hla. rewrite last_lookup in Hla. rewrite <- Hla. f_equal. lia. }
    clear -Hn2 Hlr H128 Hab Hlast Hdl Hsm Hlen. unfold nr_bdd_nodes, nr_bdds in *. cbn [c_del] in Hn2.
    rewrite assertR_true in Hn2 by (apply N.ltb_lt; rewrite app_length; simpl; lia). cbn [bindR] in Hn2. unfold del_at in Hn2. cbn [c_del] in Hn2.
    rewrite (vecR_eq _ _ (N.of_nat (length (c_ins c)))) in Hn2 by (by apply lookup_app_l_Some). cbn [bindR] in Hn2.
    rewrite (vecR_eq _ _ (N.of_nat (length (c_ins c ++ r0 ++ [x; y])))) in Hn2.
    2:{ rewrite lookup_app_r by lia. by replace (N.to_nat (N.of_nat (length (c_del c)) - 1 + 1) - length (c_del c))%nat with 0%nat by lia. }
    cbn [bindR] in Hn2. rewrite !app_length in Hn2. cbn [length] in Hn2. rewrite sub64_small in Hn2 by (unfold two64; lia). injection Hn2 as <-. lia.
Qed.

(** But a redundant root is dropped without a trace.  If the literals are on the root variable, which labels no other
    entry, and make the root redundant, the disjunction is true everywhere; bdd_or_var returns the function of the second
    stored entry instead. *)
Theorem C50_root_dropped_refuted c nr a b r pos neg T : built c -> csmall c -> nr < nr_bdds c -> cseg c nr a b -> a + 4 <= b ->
  ix (c_ins c) a = Some r -> (forall y, centry c nr y -> i_idx y = i_idx r -> y = r) ->
  ctop_at c nr T -> (forall v, v <> i_idx r -> pos v = false /\ neg v = false) -> made_redundant pos neg T r ->
  exists c', bdd_or_var c nr pos neg = inr (nr_bdds c, c') /\ cappends c c' (nr_bdds c) /\
    forall x, ccovers c nr x -> exists d, node_eval c x (a + 1, nr) d /\ cval c' (nr_bdds c) x = Some d.
Proof.
  intros HB Hsm Hn Hs Hab4 Hr Honly HT Hlit Hrr. pose proof (built_CInv HE _ HB) as HI. pose proof (ci_seg _ HI _ _ _ Hs) as Hg.
  pose proof (sg_len _ _ _ Hg) as Hlen.
  assert (Hother : forall y, centry c nr y -> y <> r -> redirected pos neg T y = y).
  { intros y Hy Hne. unfold redirected. destruct (Hlit (i_idx y)) as [-> ->]; [|by destruct y]. intros He. by destruct Hne; apply Honly. }
  assert (Hce : forall i y, a <= i < b - 2 -> ix (c_ins c) i = Some y -> centry c nr y) by (intros i y Hi Hy; by exists a, b, i).
  assert (Hidx : forall i, a <= i < b - 2 -> ix (c_ins c) i = Some r -> i = a) by (intros i Hi Hi'; by apply (sg_dist _ _ _ Hg i a r Hi ltac:(lia))).
  assert (Hnon : forall i y, a < i < b - 2 -> ix (c_ins c) i = Some y -> y <> r /\ ~ made_redundant pos neg T y).
  { intros i y Hi Hy. assert (Hne : y <> r) by (intros ->; pose proof (Hidx i ltac:(lia) Hy); lia). split; [done|]. unfold made_redundant. pose proof (Hce i y ltac:(lia) Hy). rewrite Hother by done.
    by destruct (sg_node _ _ _ Hg i y ltac:(lia) Hy). }
  assert (Hred1 : forall y, centry c nr y -> made_redundant pos neg T y -> y = r).
  { intros y (a1&b1&i&Hs1&Hi&Hy) Hm. assert (a1 = a /\ b1 = b) as [-> ->]. { destruct Hs, Hs1. split; congruence. }
    destruct (decide (i = a)) as [->|]; [congruence|]. by destruct (Hnon i y ltac:(lia) Hy). }
  destruct (seg_ix _ _ _ Hg (a + 1)) as [y1 Hy1]; [lia|].
  assert (Htidy : or_tidy c nr pos neg T).
  { exists a, b. split; [done|]. split; [done|]. split; [|split; [|split]].
    - intros y z Hy Hz Hny He. assert (y <> r) by (intros ->; done). destruct (decide (z = r)) as [->|].
      + exfalso. apply Hny. unfold made_redundant in *. by rewrite He.
      + by rewrite !Hother in He.
    - intros y z j (a1&b1&i&Hs1&Hi&Hy) Hny Harc Hj Hz. assert (a1 = a /\ b1 = b) as [-> ->]. { destruct Hs, Hs1. split; congruence. }
      assert (y <> r) by (intros ->; done). pose proof (Hce i y Hi Hy). rewrite Hother in Harc by done. destruct (sg_node _ _ _ Hg i y Hi Hy) as (_&_&?&?).
      eapply (Hnon j z); [|done]. destruct Harc; lia.
    - exists y1. split; [eapply Hce; [|exact Hy1]; lia|]. apply (Hnon (a + 1)); [lia|done].
    - intros l Hnd Hf. destruct l as [|z1 [|z2 l]]; cbn [length]; [lia|lia|]. exfalso. inversion Hf as [|? ? [Hc1 Hm1] Hf1]; subst. inversion Hf1 as [|? ? [Hc2 Hm2] _]; subst.
      apply NoDup_cons in Hnd as [Hnd _]. apply Hnd. rewrite (Hred1 z1), (Hred1 z2) by done. left. }
  destruct (or_tidy_run c nr pos neg T HB Hsm Hn Htidy) as (a1&b1&eT&l&rem&m&r0&x&y&Hs1&Hl&Hll&Hlk&HT2&HeT&HTt&HG&HI2&Hred&H128&Hx&Hy&Hr3&Hlr&Hrun&_).
  assert (a1 = a /\ b1 = b) as [-> ->]. { destruct Hs, Hs1. split; congruence. }
  eexists. split; [exact Hrun|]. pose proof (cappends_intro c (r0 ++ [x; y]) HI) as Happ. split; [exact Happ|]. intros z Hz.
  destruct (cev_ex c nr a b z (a + 1) HI Hs Hz ltac:(lia)) as [d Hd]. exists d. split; [eapply node_eval_cev; eauto; lia|].
  pose proof (copied_inner c HI nr a b Hs Hsm pos neg l Hll Hlk T HT2 eT HTt) as Hcy.
  pose proof (copied_term c HI nr a b Hs pos neg l Hll Hlk T HT2 eT HTt) as Hct.
  pose proof Hsm as Hsm'. unfold csmall in Hsm'.
  set (a' := N.of_nat (length (c_ins c))) in *. set (b' := a' + (b - a)) in *. set (G := c_ins c ++ copied c a pos neg (a' + (T - a)) l) in *.
  assert (Hbb : b' - a' = b - a) by lia. assert (Hb2 : b' < two64) by (unfold two64; lia).
  assert (Hcev : forall i d, cev (c_ins c) z i d -> a < i < b -> cev G z (a' + (i - a)) d).
  { clear d Hd. intros i d H. induction H as [i e d He Hd|i e u d He Hlt Hu H IH]; intros Hi.
    - eapply cev_t; [apply Hct; [|exact He]|exact Hd]. split; [|lia]. destruct (N.le_gt_cases (b - 2) i); [done|].
      destruct (sg_node _ _ _ Hg i e ltac:(lia) He) as (_&Hv&_). rewrite Hd in Hv. destruct d; unfold ctop, cbot in Hv; lia.
    - assert (Hib : i < b - 2).
      { destruct (decide (i < b - 2)) as [?|Hb]; [done|]. destruct (seg_last _ _ _ Hg i e ltac:(lia) He) as [w [_ Hw]]. rewrite Hw in Hlt. destruct w; unfold ctop, cbot in Hlt; lia. }
      destruct (sg_node _ _ _ Hg i e ltac:(lia) He) as (_&_&Hlo&Hhi). destruct (Hnon i e ltac:(lia) He) as [Hne _].
      assert (pos (i_idx e) = false /\ neg (i_idx e) = false) as [Hp Hng]. { apply Hlit. intros Hv. apply Hne, Honly; [|done]. eapply Hce; [|exact He]; lia. }
      eapply cev_n; [apply Hcy; [|exact He]; lia|exact Hlt|exact Hu|]. cbn [i_lo i_hi]. rewrite Hp, Hng. destruct u; apply IH; lia. }
  specialize (Hcev (a + 1) d Hd ltac:(lia)). replace (a' + (a + 1 - a)) with (a' + 1) in Hcev by lia.
  assert (Hcopy : forall i e, a <= i < b - 2 -> ix (c_ins c) i = Some e -> ored G b' (a' + (i - a)) <-> e = r).
  { intros i e Hi He. pose proof (Hcy i e Hi He) as Hc. split.
    - intros (_&w&Hw&Hwe). rewrite Hc in Hw. injection Hw as <-. cbn [i_lo i_hi] in Hwe. destruct (decide (e = r)) as [|Hne]; [done|].
      destruct (sg_node _ _ _ Hg i e Hi He) as (Hlh&_&?&?). assert (pos (i_idx e) = false /\ neg (i_idx e) = false) as [Hp Hng]. { apply Hlit. intros Hv. apply Hne, Honly; [|done]. by eapply Hce. }
      rewrite Hp, Hng in Hwe. lia.
    - intros ->. split; [lia|]. eexists. split; [exact Hc|]. cbn [i_lo i_hi]. unfold made_redundant, redirected in Hrr. cbn [i_lo i_hi] in Hrr. destruct (sg_node _ _ _ Hg i r Hi He) as (_&_&?&?). revert Hrr. destruct (pos (i_idx r)), (neg (i_idx r)); lia. }
  assert (Hra : nth 0 rem false = true).
  { pose proof (Hred a' ltac:(lia)) as H0. rewrite N.sub_diag in H0. change (N.to_nat 0) with 0%nat in H0. apply H0. replace a' with (a' + (a - a)) by lia. by apply (Hcopy a r ltac:(lia) Hr). }
  assert (Hr1 : nth (N.to_nat (a' + 1 - a')) rem false = false).
  { apply not_true_iff_false. rewrite (Hred (a' + 1) ltac:(lia)). replace (a' + 1) with (a' + (a + 1 - a)) by lia. rewrite (Hcopy (a + 1) y1 ltac:(lia) Hy1). by destruct (Hnon (a + 1) y1 ltac:(lia) Hy1). }
  assert (Hnp : newpos a' rem (a' + 1) = a').
  { unfold newpos. replace (N.to_nat (a' + 1 - a')) with 1%nat by lia. rewrite (cntn_S rem 0), Hra by (rewrite (i_rlen _ _ _ _ _ _ _ HI2); lia).
    replace (cntn rem 0) with 0%nat by (unfold cntn; by rewrite take_0). lia. }
  pose proof (compact_eval G a' b' HG Hb2 G rem m r0 x y HI2 Hr3 Hx Hy H128 (N.to_nat (b' - (a' + 1))) (a' + 1) z d ltac:(lia) ltac:(right; split; [lia|done]) Hcev) as Hce2.
  pose proof (compact_fwd G a' b' HG Hb2 G rem m r0 x y HI2 Hr3 Hx Hy H128) as Hfw. rewrite Hnp in Hce2.
  assert (Hta : take (N.to_nat a') G = c_ins c). { unfold a', G. rewrite Nat2N.id. by rewrite take_app. } rewrite Hta in Hce2, Hfw.
  pose proof (nr_bdds_len _ HI) as Hdl.
  assert (Hlast : ix (c_del c) (nr_bdds c) = Some a').
  { pose proof (ci_last _ HI) as Hla. rewrite last_lookup in Hla. unfold a'. rewrite <- Hla. f_equal. lia. }
  unfold cval, c_evaluate. unfold nr_bdds at 2. cbn [c_del]. rewrite assertR_true by (apply N.ltb_lt; rewrite app_length; simpl; lia). cbn [bindR].
  unfold del_at. cbn [c_del]. rewrite (vecR_eq _ _ a') by (by apply lookup_app_l_Some). cbn [bindR].
  set (c' := Coll (c_ins c ++ r0 ++ [x; y]) (c_del c ++ [N.of_nat (length (c_ins c ++ r0 ++ [x; y]))])) in *.
  assert (Hin : c_ins c ++ r0 ++ [x; y] = c_ins c') by done. rewrite Hin in Hfw, Hce2.
  rewrite (cev_eval c' a' _ z a' d Hfw Hce2); [done| |]; change (c_ins c') with (c_ins c ++ r0 ++ [x; y]); rewrite !app_length; cbn [length]; lia.
Qed.
(** so "BDD [nr] or u or not u" for the root variable u gives the function of the second entry *)
Theorem C50_tautology_refuted c nr a b r : built c -> csmall c -> nr < nr_bdds c -> cseg c nr a b -> a + 4 <= b ->
  ix (c_ins c) a = Some r -> (forall y, centry c nr y -> i_idx y = i_idx r -> y = r) ->
  exists c', bdd_or_var c nr (fun v => v =? i_idx r) (fun v => v =? i_idx r) = inr (nr_bdds c, c') /\ cappends c c' (nr_bdds c) /\
    forall x, ccovers c nr x -> exists d, node_eval c x (a + 1, nr) d /\ cval c' (nr_bdds c) x = Some d.
Proof.
  intros HB Hsm Hn Hs Hab4 Hr Honly. pose proof (built_CInv HE _ HB) as HI. pose proof (ci_seg _ HI _ _ _ Hs) as Hg.
  assert (HT : exists T, ctop_at c nr T).
  { destruct (sg_term _ _ _ Hg) as (bt&x&y&Hx&Hy&Tx&Ty). destruct bt; [exists (b - 2), a, b, x|exists (b - 1), a, b, y]; (split; [done|]; split; [lia|]; split; [done|]); [apply Tx|apply Ty]. }
  destruct HT as [T HT]. eapply C50_root_dropped_refuted; eauto.
  - intros v Hv. split; by apply N.eqb_neq.
  - unfold made_redundant, redirected. cbn [i_lo i_hi]. by rewrite N.eqb_refl.
Qed.
End general.
