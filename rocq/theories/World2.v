(** * World2.v -- every allowed operation preserves the invariant; queries *)
From Verif Require Export World.
Open Scope N_scope.

(** operations that return one new non-null handle *)
Definition is_new (o : op) : bool :=
  match o with
  | OProj _ | ONegProj _ | ONot _ | OTop | OBot | OUnique _ _ _ | OAndV _ _ | OAndR _ | OAnd _ _
  | OOrV _ _ | OOrR _ | OOr _ _ | OXorV _ _ | OXorR _ | OXor _ _ | OIte _ _ _ | ORebaseM _ _ | ORebaseV _ _
  | OAllFalse _ | OSimplex _ | OAtMostOne _ | OAtLeastOne _ | OAtLeast _ _ | OAtMost _ _ | OCard _ _
  | OpAnd _ _ | OpOr _ _ | OpXor _ _ | OpNot _ | OLow _ | OHigh _ | OBotOf _ | OTopOf _ | OImport _ _ | OExport _ _ => true
  | _ => false
  end.
(** operations that leave everything as it is *)
Definition is_query (o : op) : bool :=
  match o with
  | QNrNodes _ | QOne _ | QEval _ _ | QVars _ | QPost _ | QBfs _ | QPrint _ | QRefs _
  | QVar _ | QIsBot _ | QIsTop _ | QIsTerm _ | QEq _ _ | QFindMgr _ | QNrVars | QMgrNodes | QCollAdd _ _ => true
  | _ => false
  end.

Section world2.
Context {E : Env} (HE : env_ok E).

Lemma opsem_total md w o : WInv md w -> allowed md w o -> is_new o = true -> exists phi, opsem w o phi.
Proof.
  intros HW Ha Hn.
  assert (H1 : forall i, live w i -> exists p t, hrep w i p t) by (intros; by eapply live_hrep).
  assert (Hl : forall l, alive w l -> exists ts, hreps w l ts) by (intros; by eapply alive_hreps).
  assert (Hc : forall i, live w i -> ~ isconst w i -> exists p v l h, hrep w i p (Br v l h)).
  { intros i Hi Hni. destruct (H1 i Hi) as (p&t&Hr). destruct t as [b|v l h]; [|eauto].
    exfalso. apply Hni. rewrite isconst_hrep by done. destruct Hr as (_&_&Hr).
    apply repr_leaf_inv in Hr. unfold sink. destruct b; auto. }
  assert (Hcol : forall c nr, CInv c -> nr < nr_bdds c -> exists phi, exists a t, ix (c_del c) nr = Some a /\ crep (c_ins c) a t /\ forall r, phi r = evalt t r).
  { intros c nr HC Hnr. destruct (cseg_ex _ _ HC Hnr) as (a&b&Hcs). pose proof (ci_seg _ HC _ _ _ Hcs) as Hg.
    destruct (seg_root _ _ _ Hg) as (v&l&h&Hr). exists (evalt (Br v l h)), a, (Br v l h). split_and!; [apply Hcs|done|done]. }
  destruct o; try discriminate Hn; simpl in Ha |- *;
    try (apply Hcol; tauto);
    repeat match goal with H : _ /\ _ |- _ => destruct H end;
    repeat match goal with
      | H : live w ?i, H' : ~ isconst w ?i |- _ => destruct (Hc i H H') as (?&?&?&?&?); clear H
      | H : live w ?i |- _ => destruct (H1 i H) as (?&?&?); clear H
      | H : alive w ?l |- _ => destruct (Hl l H) as (?&?); clear H
    end;
    try (eexists; intros; reflexivity);
    try (match goal with H : hrep w ?i ?p ?t, H' : hreps w ?l ?ts |- _ =>
      eexists; exists (t :: ts); split; [constructor; eauto|reflexivity] end);
    repeat first [ eassumption | eexists | split ]; intros; reflexivity.
Qed.

(** ** queries *)
Lemma query_eq {A} w (f : A -> out) (m : M A) a : m (w_s w) = Ok a (w_s w) -> query w f m = WOk (f a) w.
Proof. intros H. unfold query. rewrite H. by destruct w. Qed.

Lemma nonconst_nonsink w i p t : hrep w i p t -> ~ isconst w i -> ~ sink p.
Proof. intros Hr Hn Hs. apply Hn. by eapply isconst_hrep. Qed.

Lemma step_nr_nodes md w i p t : WInv md w -> hrep w i p t -> (isconst w i -> sinks_unmarked) ->
  exists l, step (QNrNodes i) w = WOk (OutN (N.of_nat (length l))) w /\ lists_reach (w_s w) p l.
Proof.
  intros HW Hr Hc. simpl. rewrite (with1_hrep _ _ _ _ _ Hr). destruct (decide (sink p)) as [Hs|Hs].
  - exists []. split.
    + apply query_eq. eapply nr_nodes_sink; [exact HW|done|]. apply Hc. by eapply isconst_hrep.
    + split; [constructor|]. intros q. split; [intros Hq; by apply elem_of_nil in Hq|]. by destruct 1.
  - destruct (nr_nodes_spec _ _ _ HW p t) as (l&Hl&Hq); [apply Hr|done|].
    exists l. split; [|done]. by apply query_eq.
Qed.
Lemma step_postorder md w i p t : WInv md w -> hrep w i p t -> (isconst w i -> sinks_unmarked) ->
  exists l, nodes_postorder p (w_s w) = Ok l (w_s w) /\ lists_reach (w_s w) p l /\ bottom_up (w_s w) l /\
    (sink p /\ l = [] \/ ~ sink p /\ last l = Some p).
Proof.
  intros HW Hr Hc. destruct (decide (sink p)) as [Hs|Hs].
  - exists []. split_and!.
    + eapply postorder_sink; [exact HW|apply Hr|done|]. apply Hc. by eapply isconst_hrep.
    + split; [constructor|]. intros q. split; [intros Hq; by apply elem_of_nil in Hq|]. by destruct 1.
    + intros a q b n Hl. by destruct a.
    + by left.
  - destruct (nodes_postorder_spec _ _ _ HW p t) as (l&?&?&?&?); [apply Hr|done|]. exists l. auto 10.
Qed.

(** ** vectors of new handles *)
Lemma acquire_all_spec md hs l : forall s, Inv md (hcount hs) s -> Forall (fun p => p ∈ dom (s_heap s)) l ->
  exists s', acquire_all l s = Ok tt s' /\ Inv md (hcount (hs ++ map Some l)) s' /\ ext s s'.
Proof.
  revert hs. induction l as [|p l IH]; intros hs s HI Hl.
  - exists s. rewrite app_nil_r. split_and!; auto using ext_refl.
  - inversion Hl as [|? ? Hp Hl']; subst.
    destruct (ref_acquire_spec _ _ s p HI) as (s1&H1&HI1&He1&_); [done|].
    destruct (IH (hs ++ [Some p]) s1) as (s2&H2&HI2&He2).
    + eapply inv_H_ext; [exact HI1|]. intros q. by rewrite hcount_snoc.
    + eapply Forall_impl; [exact Hl'|]. intros q Hq. apply elem_of_dom in Hq as [n Hn].
      destruct He1 as [He1 _]. destruct (He1 _ _ Hn) as (n'&Hn'&_). by eapply elem_of_dom_2.
    + exists s2. split_and!.
      * simpl. by rewrite (bind_eq _ _ _ _ _ H1).
      * by rewrite <- app_assoc in HI2.
      * by eapply ext_trans.
Qed.
Lemma newhs_spec md w m l : WInv md w -> m (w_s w) = Ok l (w_s w) -> Forall (fun p => p ∈ dom (s_heap (w_s w))) l ->
  exists s', newhs w m = WOk (OutL l) (W s' (w_h w ++ map Some l)) /\ WInv md (W s' (w_h w ++ map Some l)) /\ ext (w_s w) s'.
Proof.
  intros HW Hm Hl. destruct (acquire_all_spec _ _ l _ HW Hl) as (s'&H1&HI&He). exists s'.
  unfold newhs. rewrite (bind_eq _ _ _ _ _ Hm), (bind_eq _ _ _ _ _ H1). done.
Qed.
Lemma reach_dom s p l : lists_reach s p l -> Forall (fun p => p ∈ dom (s_heap s)) l.
Proof.
  intros [_ Hl]. apply Forall_forall. intros q Hq. apply Hl in Hq.
  destruct (reach_node _ _ _ Hq) as [_ [n Hn]]. by eapply elem_of_dom_2.
Qed.

(** ** everything allowed preserves the invariant *)
Definition hafter (o : op) (w : world) (r : out) : list (option ptr) :=
  match o, r with
  | OMove i, OutP p => <[i := Some 0]> (w_h w) ++ [Some p]
  | ODrop i, _ => <[i := None]> (w_h w)
  | OAssign i j, _ => <[i := hnd w j]> (w_h w)
  | (OPostAll _ | OBfsAll _), OutL l => w_h w ++ map Some l
  | OAndLim _ _ _, OutLim p _ => w_h w ++ [Some p]
  | _, OutP p => w_h w ++ [Some p]
  | _, _ => w_h w
  end.

Definition good (md : mode) (w : world) (o : op) (r : out) (w' : world) : Prop :=
  WInv md w' /\ lext (w_s w) (w_s w') /\ w_h w' = hafter o w r.

Lemma step_query md w o : WInv md w -> allowed md w o -> is_query o = true ->
  exists r, step o w = WOk r w /\ forall p, r <> OutP p.
Proof.
  intros HW Ha Hq.
  assert (Hgen : forall (A : Type) (f : A -> out) (m : M A) a, m (w_s w) = Ok a (w_s w) -> (forall p, f a <> OutP p) ->
     exists r, query w f m = WOk r w /\ forall p, r <> OutP p).
  { intros A f m a Hm Hf. exists (f a). split; [|done]. by apply query_eq. }
  assert (Hl : forall i, live w i -> exists p t, hrep w i p t) by (intros; by eapply live_hrep).
  destruct o; try discriminate Hq; simpl in Ha.
  - destruct Ha as [Hi Hc]. destruct (Hl _ Hi) as (p&t&Hr). destruct (step_nr_nodes _ _ _ _ _ HW Hr Hc) as (l&Hs&_).
    rewrite Hs. eauto.
  - destruct (Hl _ Ha) as (p&t&Hr). simpl. rewrite (with1_hrep _ _ _ _ _ Hr).
    eapply Hgen; [eapply exactly_one_solution_spec; [exact HW|apply Hr]|done].
  - destruct Ha as [Hi Hx]. destruct (Hl _ Hi) as (p&t&Hr). simpl. rewrite (with1_hrep _ _ _ _ _ Hr).
    eapply Hgen; [eapply evaluate_spec; [exact HW|apply Hr|]|done]. intros v Hv. apply Hx. by eapply supp_hrep.
  - destruct (Hl _ Ha) as (p&t&Hr). simpl. rewrite (with1_hrep _ _ _ _ _ Hr).
    destruct (variables_spec _ _ _ HW p t) as (l&Hs&_); [apply Hr|]. by eapply Hgen.
  - destruct Ha as [Hi Hc]. destruct (Hl _ Hi) as (p&t&Hr). simpl. rewrite (with1_hrep _ _ _ _ _ Hr).
    destruct (step_postorder _ _ _ _ _ HW Hr Hc) as (l&Hs&_). by eapply Hgen.
  - destruct Ha as [Hi Hc]. destruct (Hl _ Hi) as (p&t&Hr). simpl. rewrite (with1_hrep _ _ _ _ _ Hr).
    destruct (nodes_bfs_spec _ _ _ HW p t) as (l&Hs&_); [apply Hr|by eapply nonconst_nonsink|]. by eapply Hgen.
  - destruct Ha as [Hi Hc]. destruct (Hl _ Hi) as (p&t&Hr). simpl. rewrite (with1_hrep _ _ _ _ _ Hr).
    destruct (print_spec _ _ _ HW p t) as (l&_&Hs); [apply Hr|by eapply nonconst_nonsink|]. by eapply Hgen.
  - destruct (Hl _ Ha) as (p&t&Hr). simpl. rewrite (with1_hrep _ _ _ _ _ Hr).
    destruct Hr as (_&_&Hr). destruct (repr_in _ _ _ _ _ (i_heap _ _ _ HW) Hr) as [n Hn].
    eapply Hgen; [unfold reference_count; rewrite (bind_eq _ _ _ _ _ (getN_eq _ _ _ Hn)); reflexivity|done].
  - destruct (Hl _ Ha) as (p&t&Hr). simpl. rewrite (with1_hrep _ _ _ _ _ Hr).
    destruct Hr as (_&_&Hr). destruct (repr_in _ _ _ _ _ (i_heap _ _ _ HW) Hr) as [n Hn].
    eapply Hgen; [by eapply variable_eq|done].
  - destruct (Hl _ Ha) as (p&t&Hr). simpl. rewrite (with1_hrep _ _ _ _ _ Hr).
    eapply Hgen; [eapply is_botsink_eq; [exact HW|apply Hr]|done].
  - destruct (Hl _ Ha) as (p&t&Hr). simpl. rewrite (with1_hrep _ _ _ _ _ Hr).
    eapply Hgen; [eapply is_topsink_eq; [exact HW|apply Hr]|done].
  - destruct (Hl _ Ha) as (p&t&Hr). simpl. rewrite (with1_hrep _ _ _ _ _ Hr).
    eapply Hgen; [eapply is_terminal_eq; [exact HW|apply Hr]|done].
  - destruct Ha as [[p Hp] [q Hq']]. simpl. unfold with2, with1. rewrite Hp, Hq'. by eapply Hgen.
  - destruct (Hl _ Ha) as (p&t&Hr). simpl. rewrite (with1_hrep _ _ _ _ _ Hr).
    eapply Hgen; [eapply find_bdd_mgr_spec; [exact HW|apply Hr]|done].
  - by eapply (Hgen N OutN).
  - by eapply (Hgen N OutN).
  - destruct Ha as (Hi&Hc&HC&Hsz). destruct (Hl _ Hi) as (p&t&Hr). simpl. rewrite (with1_hrep _ _ _ _ _ Hr).
    destruct (c_add_spec _ _ _ HW p t) with (c := c) as (po&l&_&Hs&_); [apply Hr|by eapply nonconst_nonsink|done|done|].
    by eapply Hgen.
Qed.

Lemma step_good md w o : WInv md w -> allowed md w o -> ensures (step o w) (good md w o).
Proof.
  intros HW Ha. destruct (is_new o) eqn:Hn.
  { destruct (opsem_total _ _ _ HW Ha Hn) as [phi Hphi]. pose proof (step_sem HE _ _ _ _ HW Ha Hphi) as Hs.
    unfold ensures in *. destruct (step o w) as [r w'|[] w']; auto.
    destruct Hs as (p&t&->&HW'&Hl&Hh&_). split_and!; auto. rewrite Hh. by destruct o. }
  destruct (is_query o) eqn:Hq.
  { destruct (step_query _ _ _ HW Ha Hq) as (r&->&Hr). simpl. split_and!; auto using lext_refl.
    destruct o; try discriminate Hq; destruct r; try done; by edestruct Hr. }
  destruct o; try discriminate; simpl in Ha; try done.
  - (* add_variable *) destruct (add_variable_spec _ _ _ HW Ha) as (s'&Hs&HI&Hh&Hl).
    simpl. unfold query. rewrite Hs. simpl. split_and!; auto. simpl. apply heap_eq_lext; [done|lia].
  - (* and_rec_limited *) destruct Ha as (Hi&Hj&Hm&Hlim&Hsz).
    destruct (live_hrep _ _ _ HW Hi) as (p&t&Hp). destruct (live_hrep _ _ _ HW Hj) as (q&u&Hq').
    simpl. rewrite (with2_hrep _ _ _ _ _ _ _ _ Hp Hq').
    assert (Hsz' : N.of_nat (size (s_heap (w_s w))) < size_max).
    { destruct (i_nc _ _ _ HW) as (_&_&_&_&Ht&_). unfold mgr_nr_nodes in Hsz. lia. }
    pose proof (and_limited_spec HE _ _ _ p q t u limit Hm Hlim Hsz' HW ltac:(apply Hp) ltac:(apply Hq')) as Hs.
    unfold sat in Hs. destruct (and_rec_limited p q limit (w_s w)) as [[r n] s|[] s]; try done.
    destruct Hs as (HI&He&Hr). simpl in Hr.
    destruct (ref_acquire_spec _ _ s r HI) as (s'&Hs'&HI'&He'&_).
    { intros H0. destruct Hr as [[? _]|(_&_&(t'&Hr&_)&_)]; [done|].
      destruct (repr_in _ _ _ _ _ (i_heap _ _ _ HI) Hr). by eapply elem_of_dom_2. }
    rewrite Hs'. simpl. split_and!; [|by eapply ext_lext, ext_trans|done].
    eapply inv_H_ext; [exact HI'|]. intros x. simpl. by rewrite hcount_snoc.
  - (* copy *) destruct Ha as [p Hp]. simpl. unfold with1. rewrite Hp. unfold newh. simpl.
    destruct (ref_acquire_spec _ _ (w_s w) p HW) as (s'&Hs'&HI'&He'&_); [intros H0; by eapply winv_dom|].
    rewrite Hs'. simpl. split_and!; [|by apply ext_lext|done].
    eapply inv_H_ext; [exact HI'|]. intros x. simpl. by rewrite hcount_snoc.
  - (* drop *) destruct Ha as [p Hp]. simpl. unfold with1. rewrite Hp.
    pose proof (proj1 (hnd_lookup _ _ _) Hp) as Hp'.
    destruct (ref_release_spec _ _ (w_s w) p HW) as (s'&Hs'&HI'&He'&_); [intros H0; by eapply hcount_pos|].
    rewrite Hs'. simpl. split_and!; [|by apply ext_lext|done].
    eapply inv_H_ext; [exact HI'|]. intros x. simpl. rewrite (hcount_insert _ _ _ _ _ Hp'), hcount_one, hcount_none.
    unfold hadd, addH. destruct (decide (p = 0)); [lia|]. destruct (decide (x = p)); lia.
  - (* assign *) destruct Ha as [[p Hp] [q Hq']]. simpl. unfold with2, with1. rewrite Hp, Hq'.
    pose proof (proj1 (hnd_lookup _ _ _) Hp) as Hp'.
    destruct (ref_assign_spec _ _ (w_s w) p q HW) as (s'&Hs'&HI'&He'&_);
      [intros H0; by eapply hcount_pos|intros H0; by eapply winv_dom|].
    rewrite Hs'. simpl. split_and!; [|by apply ext_lext|unfold hafter; by rewrite Hq'].
    eapply inv_H_ext; [exact HI'|]. intros x. simpl. rewrite (hcount_insert _ _ _ _ _ Hp'), !hcount_one.
    unfold hadd, addH. destruct (decide (p = 0)), (decide (q = 0)); try lia;
      destruct (decide (x = p)), (decide (x = q)); lia.
  - (* null *) simpl. unfold newh. simpl. split_and!; [|apply lext_refl|done].
    eapply inv_H_ext; [exact HW|]. intros x. simpl. by rewrite hcount_snoc.
  - (* move *) destruct Ha as [p Hp]. simpl. unfold with1. rewrite Hp. simpl. split_and!; [|apply lext_refl|done].
    pose proof (proj1 (hnd_lookup _ _ _) Hp) as Hp'.
    eapply inv_H_ext; [exact HW|]. intros x. simpl. rewrite hcount_app, (hcount_insert _ _ _ _ _ Hp'), !hcount_one.
    destruct (decide (0 = 0)); [|done]. lia.
  - destruct Ha as [Hi Hc]. destruct (live_hrep _ _ _ HW Hi) as (p&t&Hr).
    destruct (step_postorder _ _ _ _ _ HW Hr Hc) as (l&Hs&Hl&_).
    simpl. rewrite (with1_hrep _ _ _ _ _ Hr).
    destruct (newhs_spec _ _ _ _ HW Hs (reach_dom _ _ _ Hl)) as (s'&->&HW'&He). simpl.
    split_and!; [done|by apply ext_lext|done].
  - destruct Ha as [Hi Hc]. destruct (live_hrep _ _ _ HW Hi) as (p&t&Hr).
    destruct (nodes_bfs_spec _ _ _ HW p t) as (l&Hs&Hl&_); [apply Hr|by eapply nonconst_nonsink|].
    simpl. rewrite (with1_hrep _ _ _ _ _ Hr).
    destruct (newhs_spec _ _ _ _ HW Hs (reach_dom _ _ _ Hl)) as (s'&->&HW'&He). simpl.
    split_and!; [done|by apply ext_lext|done].
Qed.

Lemma reach_inv md w : reach md w -> WInv md w.
Proof.
  induction 1 as [|w o r w' _ IH Ha Hs]; [apply winv_init|].
  pose proof (step_good _ _ _ IH Ha) as Hg. rewrite Hs in Hg. apply Hg.
Qed.

End world2.
