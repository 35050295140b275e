(** * CollExp.v -- bdd_collection::export_bdd and bdd_mgr::add_bdd *)
From Verif Require Export CollAdd.
Open Scope N_scope.

Lemma down_to_nil a b : b <= a -> down_to a b = [].
Proof. intros H. unfold down_to. by replace (N.to_nat (b - a)) with 0%nat by lia. Qed.
Lemma down_to_cons a b : a < b -> down_to a b = (b - 1) :: down_to a (b - 1).
Proof.
  intros H. unfold down_to. replace (N.to_nat (b - a)) with (S (N.to_nat (b - 1 - a))) by lia.
  cbn [seq map]. f_equal; [lia|]. rewrite <- seq_shift, map_map. apply map_ext. intros k. lia.
Qed.

Lemma cordered_at c nr a b : cseg c nr a b -> cordered c nr -> ordered_at (c_ins c) a b.
Proof. intros Hs Ho i x y Hi Hx Hy. apply (Ho x y); [|done]. by exists a, b, i. Qed.
Lemma at_cordered c nr a b : cseg c nr a b -> ordered_at (c_ins c) a b -> cordered c nr.
Proof.
  intros [Ha Hb] Ho x y (a'&b'&i&[Ha' Hb']&Hi&Hx) Hy. simplify_eq. by eapply Ho.
Qed.
Lemma seg_inner ins a b i x : seg ins a b -> a <= i < b -> ix ins i = Some x -> i_lo x <> i_hi x -> a <= i < b - 2.
Proof.
  intros Hs Hi Hx Hne. destruct (decide (i < b - 2)); [lia|].
  destruct (seg_last _ _ _ Hs i x) as [c [? _]]; [lia|done|done].
Qed.
Lemma seg_ordt ins a b : seg ins a b -> ordered_at ins a b -> forall i t, crep ins i t -> a <= i < b ->
  forall x, ix ins i = Some x -> ordt (i_idx x) t.
Proof.
  intros Hs Ho i t Hr. induction Hr as [i x c Hx Hc|i x tl th Hx Hne Hv Hl Hh Hrl IHl Hrh IHh]; intros Hi y Hy; [done|].
  simplify_eq. pose proof (seg_inner _ _ _ _ _ Hs Hi Hx Hne) as Hi'.
  destruct (sg_node _ _ _ Hs _ _ Hi' Hx) as (_&_&Hlb&Hhb). simpl. split_and!; [lia| |].
  - destruct (seg_ix _ _ _ Hs (i_lo x)) as [z Hz]; [lia|]. eapply (ordt_weaken _ (i_idx z)); [|apply (IHl ltac:(lia) z Hz)].
    pose proof (Ho _ _ _ Hi' Hx (or_introl Hz)). lia.
  - destruct (seg_ix _ _ _ Hs (i_hi x)) as [z Hz]; [lia|]. eapply (ordt_weaken _ (i_idx z)); [|apply (IHh ltac:(lia) z Hz)].
    pose proof (Ho _ _ _ Hi' Hx (or_intror Hz)). lia.
Qed.
(** the converse: an ordered tree is stored in order *)
Lemma seg_ordered ins a b t : seg ins a b -> sup ins a b -> crep ins a t -> ordt 0 t -> ordered_at ins a b.
Proof.
  intros Hs Hup Ht Ho i x y Hi Hx Hy. destruct (sg_node _ _ _ Hs _ _ Hi Hx) as (Hne&Hv&Hl&Hh).
  destruct (seg_crep _ _ _ Hs (i_lo x)) as [tl Htl]; [lia|]. destruct (seg_crep _ _ _ Hs (i_hi x)) as [th Hth]; [lia|].
  assert (Hri : crep ins i (Br (i_idx x) tl th)) by (apply crep_node; auto; lia).
  pose proof (seg_reach _ _ _ Hs _ _ _ Hup Hi Ht Hri) as Hsub.
  assert (Hoi : ordt 0 (Br (i_idx x) tl th)).
  { clear -Hsub Ho. revert Hsub Ho. generalize 0 as lb. induction t as [c|v l IHl h IHh]; intros lb Hsub Ho; simpl in Hsub.
    - by destruct Hsub as [?|[]].
    - destruct Hsub as [->|[Hsub|Hsub]]; [done| |].
      + destruct Ho as (Hlb&Hol&_). apply (IHl _ Hsub) in Hol. simpl in *. destruct Hol as (?&?&?). split_and!; [lia|done|done].
      + destruct Ho as (Hlb&_&Hoh). apply (IHh _ Hsub) in Hoh. simpl in *. destruct Hoh as (?&?&?). split_and!; [lia|done|done]. }
  simpl in Hoi. destruct Hoi as (_&Hol&Hoh).
  assert (Hc : forall j tj, crep ins j tj -> ordt (i_idx x + 1) tj -> ix ins j = Some y -> i_idx x < i_idx y).
  { intros j tj Hj Hoj Hyj. inversion Hj as [j' z c Hz [_ Hc]|j' z tl' th' Hz Hne' Hv' _ _ _ _]; subst; simplify_eq.
    - rewrite Hc. unfold ctop, cbot in *. destruct c; lia.
    - simpl in Hoj. lia. }
  destruct Hy as [Hy|Hy]; [by eapply (Hc (i_lo x) tl)|by eapply (Hc (i_hi x) th)].
Qed.
Lemma seg_occurs ins a b i t v : seg ins a b -> a <= i < b -> crep ins i t -> occurs v t -> exists j x, a <= j < b - 2 /\ ix ins j = Some x /\ i_idx x = v.
Proof.
  intros Hs Hi Hr. induction Hr as [i x c Hx Hc|i x tl th Hx Hne Hv Hl Hh Hrl IHl Hrh IHh]; simpl; [done|].
  pose proof (seg_inner _ _ _ _ _ Hs Hi Hx Hne) as Hi'. destruct (sg_node _ _ _ Hs _ _ Hi' Hx) as (_&_&Hlb&Hhb).
  intros [->|[Ho|Ho]]; [eauto|apply IHl; [lia|done]|apply IHh; [lia|done]].
Qed.

Section exp.
Context {E : Env} (HE : env_ok E).

Section exp1.
Context (md : mode) (H : ptr -> Z) (c : coll) (nr a b : N) (HC : CInv c) (Hcs : cseg c nr a b).
Notation ins := (c_ins c).

Definition em_ok (s1 : mstate) (k : N) (m : gmap N N) : Prop :=
  (forall i, k <= i < b - 2 -> exists q ti, m !! i = Some q /\ crep ins i ti /\ repr (s_heap s1) q ti) /\
  (forall i, i < k -> m !! i = None).

Lemma export_ref_spec s1 k m i t : Inv md H s1 -> em_ok s1 k m -> a <= k -> k <= i < b -> crep ins i t ->
  exists q, export_ref c a b i m s1 = Ok q s1 /\ repr (s_heap s1) q t.
Proof.
  intros HI [Hm _] Hk Hi Hr. pose proof (ci_seg _ HC _ _ _ Hcs) as Hg. pose proof (crep_lt _ _ _ Hr) as Hlt.
  unfold export_ref. rewrite (bind_eq _ _ _ _ _ (assert_eq _ s1 (proj2 (N.ltb_lt _ _) Hlt))).
  destruct (seg_ix _ _ _ Hg i) as [x Hx]; [lia|]. rewrite (bind_eq _ _ _ _ _ (liftR_eq _ _ s1 (vecR_eq _ _ _ Hx))).
  destruct (decide (i < b - 2)) as [Hin|Hout].
  - destruct (sg_node _ _ _ Hg i x) as (Hne&Hv&_); [lia|done|]. destruct (cnode_instr _ Hne Hv) as (_&->&->).
    rewrite (bind_eq _ _ _ _ _ (assert_eq _ s1 (proj2 (N.leb_le a i) ltac:(lia)))).
    rewrite (bind_eq _ _ _ _ _ (assert_eq _ s1 (proj2 (N.ltb_lt i b) ltac:(lia)))).
    destruct (Hm i) as (q&ti&Hq&Hti&Hrq); [lia|]. rewrite Hq. exists q.
    rewrite (crep_fun _ _ _ _ Hr Hti). split; [|done]. by eapply touch_repr.
  - destruct (seg_last _ _ _ Hg i x) as [z Hz]; [lia|done|]. destruct (cterm_instr _ _ Hz) as (_&->&->).
    assert (t = Leaf z) as -> by (eapply crep_fun; [exact Hr|by eapply crep_leaf]).
    destruct z; [exists topsink|exists botsink]; split; [done|constructor|done|constructor].
Qed.

Lemma export_loop_spec s (Hv : forall i x, a <= i < b - 2 -> ix ins i = Some x -> i_idx x < nr_variables s)
  (Ho : md_ord md = true -> ordered_at ins a b) : forall n k m s1, n = N.to_nat (k - a) -> a <= k <= b - 2 -> Inv md H s1 -> ext s s1 -> em_ok s1 k m ->
  sat (export_loop c a b (down_to a k) m) s1 (fun m' s2 => Inv md H s2 /\ ext s s2 /\ em_ok s2 a m').
Proof.
  pose proof (ci_seg _ HC _ _ _ Hcs) as Hg.
  induction n as [|n IH]; intros k m s1 Hn Hk HI He Hm.
  - assert (k = a) as -> by lia. rewrite down_to_nil by lia. by apply sat_ret.
  - rewrite down_to_cons by lia. set (i := k - 1). cbn [export_loop].
    destruct (seg_ix _ _ _ Hg i) as [x Hx]; [lia|]. destruct (sg_node _ _ _ Hg i x) as (Hne&Hvx&Hl&Hh); [lia|done|].
    eapply sat_bind_ok; [apply liftR_eq, vecR_eq, Hx|].
    eapply sat_bind_ok; [apply assert_eq; by destruct (cnode_instr _ Hne Hvx) as (->&_)|].
    destruct (seg_crep _ _ _ Hg (i_lo x)) as [tl Htl]; [lia|]. destruct (seg_crep _ _ _ Hg (i_hi x)) as [th Hth]; [lia|].
    destruct (export_ref_spec s1 k m (i_lo x) tl HI Hm) as (ql&Hql&Hrl); [lia|lia|done|].
    destruct (export_ref_spec s1 k m (i_hi x) th HI Hm) as (qh&Hqh&Hrh); [lia|lia|done|].
    eapply sat_bind_ok; [exact Hql|]. eapply sat_bind_ok; [exact Hqh|].
    assert (Hvi : i_idx x < nr_variables s1).
    { unfold nr_variables. rewrite (inv_nv_ext _ _ He). apply (Hv i); [lia|done]. }
    assert (Hri : crep ins i (Br (i_idx x) tl th)) by (apply crep_node; auto; lia).
    eapply sat_step.
    { unfold mgr_unique_find. eapply sat_bind_ok; [reflexivity|]. eapply sat_bind_ok; [by apply assert_eq, N.ltb_lt|].
      apply (unique_find_spec HE md H s1 (i_idx x) ql qh tl th); auto. intros Hmd.
      pose proof (seg_ordt _ _ _ Hg (Ho Hmd) _ _ Hri ltac:(lia) _ Hx) as Hot. simpl in Hot. tauto. }
    intros q s2 (HI2&He2&Hrq). assert (tl <> th) as Htlh.
    { intros ->. apply Hne. eapply (seg_inj _ _ _ Hg th); eauto; lia. }
    unfold br in Hrq. rewrite decide_False in Hrq by done.
    apply IH; [lia|lia|done|by eapply ext_trans|].
    rewrite ins_new_None by (apply Hm; lia). split.
    + intros j Hj. destruct (decide (j = i)) as [->|Hji].
      * exists q, (Br (i_idx x) tl th). by rewrite lookup_insert.
      * rewrite lookup_insert_ne by done. destruct (proj1 Hm j) as (qj&tj&?&?&?); [lia|]. exists qj, tj. split_and!; auto. by eapply repr_ext_s.
    + intros j Hj. rewrite lookup_insert_ne by lia. apply Hm. lia.
Qed.

Lemma export_spec s t : Inv md H s -> csmall c ->
  (forall i x, a <= i < b - 2 -> ix ins i = Some x -> i_idx x < nr_variables s) ->
  (md_ord md = true -> ordered_at ins a b) -> crep ins a t ->
  sat (export_bdd c nr) s (fun p s' => Inv md H s' /\ ext s s' /\ repr (s_heap s') p t).
Proof.
  intros HI Hsm Hv Ho Hr. pose proof (ci_seg _ HC _ _ _ Hcs) as Hg. pose proof (sg_ab _ _ _ Hg) as Hab. pose proof (sg_len _ _ _ Hg) as Hlen.
  unfold export_bdd. eapply sat_bind_ok; [apply assert_eq, N.ltb_lt; by eapply cseg_lt|].
  assert (Hn : nr_bdd_nodes c nr = inr (b - a)).
  { apply nr_bdd_nodes_eq; auto. unfold csmall in Hsm. rewrite <- two64_62. lia. }
  eapply sat_bind_ok; [apply liftR_eq, assertRR_true; rewrite Hn; cbn [bindR]; f_equal; apply N.ltb_lt; lia|].
  destruct Hcs as [Ha Hb]. eapply sat_bind_ok; [apply liftR_eq, del_at_eq, Ha|]. eapply sat_bind_ok; [apply liftR_eq, del_at_eq, Hb|].
  destruct (sg_term _ _ _ Hg) as (bt&x&y&Hx&Hy&Tx&Ty).
  eapply sat_bind_ok; [apply liftR_eq, assertRR_true; rewrite (vecR_eq _ _ _ Hx); cbn [bindR]; f_equal; apply (cterm_instr _ _ Tx)|].
  eapply sat_bind_ok; [apply liftR_eq, assertRR_true; rewrite (vecR_eq _ _ _ Hy); cbn [bindR]; f_equal; apply (cterm_instr _ _ Ty)|].
  eapply sat_step.
  { eapply (export_loop_spec s Hv Ho _ (b - 2) ∅ s eq_refl); auto using ext_refl; [lia|]. split; [intros; lia|intros; apply lookup_empty]. }
  intros m s2 (HI2&He2&Hm). destruct (proj1 Hm a) as (q&tq&Hq&Htq&Hrq); [lia|]. rewrite Hq.
  rewrite (crep_fun _ _ _ _ Hr Htq). eapply sat_ok; [by eapply touch_repr|]. done.
Qed.
End exp1.

(** ** bdd_mgr::add_bdd *)
Lemma projection_repr md H s v : Inv md H s -> v < topsink_index ->
  sat (projection v) s (fun p s' => Inv md H s' /\ lext s s' /\ repr (s_heap s') p (Br v (Leaf false) (Leaf true)) /\
     nr_variables s' = N.max (nr_variables s) (v + 1)).
Proof.
  intros HI Hv. destruct (ensure_var_spec md H s v HI Hv) as (s1&H1&HI1&Hh1&Hn1).
  unfold projection. eapply sat_bind_ok; [exact H1|]. eapply sat_bind_ok; [reflexivity|].
  eapply sat_bind_ok; [apply assert_eq, N.ltb_lt; lia|].
  eapply sat_mono; [apply (unique_find_spec HE md H s1 v _ _ (Leaf false) (Leaf true)); [done|unfold nr_variables in *; lia|apply repr_bot|apply repr_top|done]|].
  intros p s' (HI'&He&Hd). split_and!; auto.
  - eapply lext_trans; [|by apply ext_lext]. apply heap_eq_lext; auto. unfold nr_variables in *. lia.
  - unfold nr_variables. rewrite (inv_nv_ext _ _ He). done.
Qed.

Section imp.
Context (md : mode) (Hmd : md_or md = true) (H : ptr -> Z) (c : coll) (nr a b : N) (HC : CInv c) (Hcs : cseg c nr a b).
Notation ins := (c_ins c).

Definition im_ok (s1 : mstate) (k : N) (m : gmap N N) : Prop :=
  (forall i, k <= i < b -> exists q ti, m !! i = Some q /\ crep ins i ti /\ denp (md_xor md = false) s1 q (evalt ti)) /\
  (forall i, i < k -> m !! i = None).
Lemma im_insert s1 s2 k m q t : im_ok s1 k m -> 0 < k -> lext s1 s2 -> crep ins (k - 1) t -> denp (md_xor md = false) s2 q (evalt t) ->
  im_ok s2 (k - 1) (ins_new (k - 1) q m).
Proof.
  intros [Hm1 Hm2] Hk He Hr Hd. rewrite ins_new_None by (apply Hm2; lia). split.
  - intros j Hj. destruct (decide (j = k - 1)) as [->|Hne].
    + exists q, t. by rewrite lookup_insert.
    + rewrite lookup_insert_ne by done. destruct (Hm1 j) as (qj&tj&?&?&tq&?&?); [lia|]. exists qj, tj. split_and!; auto.
      exists tq. split; [|done]. eapply repr_ext; [apply He|done].
  - intros j Hj. rewrite lookup_insert_ne by lia. apply Hm2. lia.
Qed.

(** the variables of the entries from [k] on exist *)
Definition im_vars (s : mstate) (k : N) : Prop := forall i x, k <= i < b - 2 -> ix ins i = Some x -> i_idx x < nr_variables s.
Lemma import_loop_spec s (Hv : forall i x, a <= i < b - 2 -> ix ins i = Some x -> i_idx x < topsink_index)
  (Hb : e_ndebug = true \/ b <= 1002)
  (Ho : md_ord md = true /\ ordered_at ins a b \/ forall i x, a <= i < b - 2 -> ix ins i = Some x -> i_idx x + 1 < nr_variables s) :
  forall n k m s1, n = N.to_nat (k - a) -> a <= k <= b -> Inv md H s1 -> lext s s1 -> im_ok s1 k m -> im_vars s1 k ->
  sat (import_loop c (down_to a k) m) s1 (fun m' s2 => Inv md H s2 /\ lext s s2 /\ im_ok s2 a m' /\ im_vars s2 a).
Proof.
  pose proof (ci_seg _ HC _ _ _ Hcs) as Hg.
  induction n as [|n IH]; intros k m s1 Hn Hk HI He Hm Hnvs.
  - assert (k = a) as -> by lia. rewrite down_to_nil by lia. by apply sat_ret.
  - rewrite down_to_cons by lia. cbn [import_loop].
    destruct (seg_ix _ _ _ Hg (k - 1)) as [x Hx]; [lia|].
    eapply sat_bind_ok; [apply liftR_eq, vecR_eq, Hx|].
    destruct (decide (k - 1 < b - 2)) as [Hin|Hout].
    2:{ destruct (seg_last _ _ _ Hg (k - 1) x) as [z Hz]; [lia|done|]. destruct (cterm_instr _ _ Hz) as (_&->&->).
        destruct z; cbn [negb]; (apply IH; [lia|lia|done|done| |intros i y Hi; lia]); (eapply im_insert; [exact Hm|lia|apply lext_refl|by eapply crep_leaf|]).
        - eapply den_denp, den_proper; [|apply den_top]. done.
        - eapply den_denp, den_proper; [|apply den_bot]. done. }
    destruct (sg_node _ _ _ Hg (k - 1) x) as (Hne&Hvx&Hl&Hh); [lia|done|]. destruct (cnode_instr _ Hne Hvx) as (_&->&->).
    eapply sat_bind_ok.
    { unfold assert_, assertR. destruct Hb as [->|Hb]; [by rewrite orb_true_r|]. by rewrite (proj2 (N.ltb_lt (k - 1) 1000)) by lia. }
    destruct (proj1 Hm (i_lo x)) as (ql&tl&Eql&Htl&tl'&Hrl&Htl'); [lia|]. destruct (proj1 Hm (i_hi x)) as (qh&th&Eqh&Hth&th'&Hrh&Hth'); [lia|].
    rewrite Eql, Eqh.
    assert (Hri : crep ins (k - 1) (Br (i_idx x) tl th)) by (apply crep_node; auto; lia).
    assert (Hvi : i_idx x < topsink_index) by (apply (Hv (k - 1)); [lia|done]).
    eapply sat_step; [by apply (projection_repr md H s1 (i_idx x))|].
    intros p s2 (HI2&He2&Hrp&Hnv).
    eapply sat_step.
    { apply (ite_spec HE md H s2 p qh ql (Br (i_idx x) (Leaf false) (Leaf true)) th' tl'); auto; try (eapply repr_ext; [apply He2|done]).
      destruct Ho as [[Hmo Ho]|Ho].
      - left. split; [done|]. pose proof (seg_ordt _ _ _ Hg Ho _ _ Hri ltac:(lia) _ Hx) as (_&Hol&Hoh).
        intros r. unfold ite_bad. cbn [evalt]. intros [Hne' Hbad].
        assert (i_idx x = nr_variables s2 - 1) as Hlast.
        { destruct (decide (i_idx x = nr_variables s2 - 1)) as [|Hn']; [done|]. exfalso. apply Hne'. by rewrite !upd_other. }
        rewrite <- Hlast in Hbad. rewrite !upd_same in Hbad. assert (Hmx : md_xor md = false) by (by destruct md). rewrite !(Htl' Hmx), !(Hth' Hmx) in Hbad.
        rewrite !(evalt_upd_lt tl _ _ _ _ Hol), !(evalt_upd_lt th _ _ _ _ Hoh) in Hbad by lia. destruct Hbad as [(?&?&?&?)|(?&?&?&?)]; simpl in *; congruence.
      - right. simpl. assert (Hx1 : i_idx x + 1 < nr_variables s2).
        { destruct He as [_ He]. pose proof (Ho (k - 1) x ltac:(lia) Hx). unfold nr_variables in *. lia. }
        intros [?|[[]|[]]]. lia. }
    intros q s3 (HI3&He3&Hd3). apply IH; [lia|lia|done|eapply lext_trans; [exact He|]; eapply lext_trans; [exact He2|]; by apply ext_lext| |].
    2:{ intros i y Hi Hy. destruct (decide (i = k - 1)) as [->|Hik].
        - assert (y = x) as -> by congruence. destruct He3 as [_ He3]. unfold nr_variables in *. lia.
        - pose proof (Hnvs i y ltac:(lia) Hy). destruct He2 as [_ He2], He3 as [_ He3]. unfold nr_variables in *. lia. }
    eapply im_insert; [exact Hm|lia| |exact Hri|].
    + eapply lext_trans; [exact He2|]. by apply ext_lext.
    + eapply denp_proper; [|exact Hd3]. intros Hmx r. simpl. rewrite (Htl' Hmx), (Hth' Hmx). by destruct (r (i_idx x)).
Qed.

Lemma import_spec s t : Inv md H s ->
  (forall i x, a <= i < b - 2 -> ix ins i = Some x -> i_idx x < topsink_index) ->
  (e_ndebug = true \/ b <= 1002) ->
  (md_ord md = true /\ ordered_at ins a b \/ forall i x, a <= i < b - 2 -> ix ins i = Some x -> i_idx x + 1 < nr_variables s) ->
  crep ins a t ->
  sat (mgr_add_bdd c nr) s (fun q s' => postlp (md_xor md = false) md H s (evalt t) q s' /\ im_vars s' a).
Proof.
  intros HI Hv Hb Ho Hr. pose proof (ci_seg _ HC _ _ _ Hcs) as Hg. pose proof (sg_ab _ _ _ Hg) as Hab.
  unfold mgr_add_bdd. eapply sat_bind_ok; [apply assert_eq, N.ltb_lt; by eapply cseg_lt|].
  destruct Hcs as [Ha Hb']. eapply sat_bind_ok; [apply liftR_eq, del_at_eq, Ha|]. eapply sat_bind_ok; [apply liftR_eq, del_at_eq, Hb'|].
  eapply sat_step.
  { eapply (import_loop_spec s Hv Hb Ho _ b ∅ s eq_refl); auto using lext_refl; [lia| |intros i x Hi; lia]. split; [intros; lia|intros; apply lookup_empty]. }
  intros m s2 (HI2&He2&Hm&Hnv2). destruct (proj1 Hm a) as (q&tq&Hq&Htq&tq'&Hrq&Htq'); [lia|]. rewrite Hq.
  eapply sat_ok; [by eapply touch_repr|]. split; [|done]. split_and!; auto. exists tq'. split; [done|]. intros Hmx r. by rewrite (Htq' Hmx), (crep_fun _ _ _ _ Hr Htq).
Qed.
End imp.
End exp.
