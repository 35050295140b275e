(** * PropsEnv.v -- results do not depend on addresses, hash keys, argument evaluation order
    or asserts (C34) *)
From Verif Require Export PropsMin.
Open Scope N_scope.

(** ** Specification *)

(** The same program runs under two environments [E1], [E2] (different allocator, random
    numbers, compiler).  [reach2]: the pairs of states reached after the same operations.
    and_rec_limited and the two listing operations that return nodes as handles are left out:
    the first depends on addresses (C13), the others return handles in address-free but
    shape-dependent order that this statement does not follow. *)
Definition det (o : op) : Prop := match o with OAndLim _ _ _ | OPostAll _ | OBfsAll _ => False | _ => True end.
Inductive reach2 (E1 E2 : Env) (md : mode) : world -> world -> Prop :=
| reach2_init : reach2 E1 E2 md (@w_init E1) (@w_init E2)
| reach2_step w1 w2 o r1 r2 w1' w2' : reach2 E1 E2 md w1 w2 -> det o ->
    @allowed E1 md w1 o -> @allowed E2 md w2 o ->
    @step E1 o w1 = WOk r1 w1' -> @step E2 o w2 = WOk r2 w2' -> reach2 E1 E2 md w1' w2'.

(** ** Proof *)
Definition rep1 {E : Env} (h : heap) (o : option ptr) (st : option (option bdd)) : Prop :=
  match o, st with
  | None, None => True
  | Some p, Some None => p = 0
  | Some p, Some (Some t) => p <> 0 /\ repr h p t
  | _, _ => False
  end.
Definition reps {E : Env} (w : world) (l : list (option (option bdd))) : Prop :=
  Forall2 (rep1 (s_heap (w_s w))) (w_h w) l.

Lemma sorted_unique (l l' : list N) : StronglySorted N.lt l -> StronglySorted N.lt l' -> (forall v, v ∈ l <-> v ∈ l') -> l' = l.
Proof.
  intros Hs Hs' Hin. assert (AntiSymm eq N.lt) by (intros a b ??; lia). apply (StronglySorted_unique N.lt); [done..|].
  assert (Hnd : forall k : list N, StronglySorted N.lt k -> NoDup k).
  { induction 1 as [|a k _ IH Ha]; constructor; auto. intros Hk. rewrite Forall_forall in Ha. apply Ha in Hk. lia. }
  apply NoDup_Permutation; auto. intros v. by rewrite Hin.
Qed.
Section one.
Context {E : Env} (HE : env_ok E).
Lemma reps_hrep w l i p t : reps w l -> hrep w i p t -> l !! i = Some (Some (Some t)).
Proof.
  intros Hl (Hi&H0&Hr). apply hnd_lookup in Hi. destruct (Forall2_lookup_l _ _ _ _ _ Hl Hi) as (st&Hst&Hrep).
  rewrite Hst. destruct st as [[t'|]|]; simpl in Hrep; [|done|done]. destruct Hrep as [_ Hr']. do 3 f_equal. by eapply repr_fun.
Qed.
Lemma reps_lookup w l i t : reps w l -> l !! i = Some (Some (Some t)) -> exists p, hrep w i p t.
Proof.
  intros Hl Hi. destruct (Forall2_lookup_r _ _ _ _ _ Hl Hi) as (o&Ho&Hrep).
  destruct o as [p|]; simpl in Hrep; [|done]. destruct Hrep as [H0 Hr]. exists p. split_and!; auto. by apply hnd_lookup.
Qed.
Lemma reps_ext w l s' : reps w l -> hext (s_heap (w_s w)) (s_heap s') -> Forall2 (rep1 (s_heap s')) (w_h w) l.
Proof.
  intros Hl He. eapply Forall2_impl; [exact Hl|]. intros [p|] [[t|]|]; simpl; auto. intros [? ?]. split; [done|]. by eapply repr_ext.
Qed.
Lemma reps_hnd w l i p : reps w l -> hnd w i = Some p -> exists st, l !! i = Some (Some st) /\ rep1 (s_heap (w_s w)) (Some p) (Some st).
Proof.
  intros Hl Hi. apply hnd_lookup in Hi. destruct (Forall2_lookup_l _ _ _ _ _ Hl Hi) as ([st|]&Hst&Hrep); eauto. done.
Qed.
Lemma hrep_shape md w i p t : WInv md w -> md_ord md = true -> hrep w i p t -> ordt 0 t /\ redt t.
Proof.
  intros HW Ho Hr. split; [by eapply ho_ord; [apply HW|done|apply Hr]|by eapply repr_redt; [apply HW|apply Hr]].
Qed.
Lemma hrep_inj md w i j p q t : WInv md w -> hrep w i p t -> hrep w j q t -> p = q.
Proof. intros HW (_&_&H1) (_&_&H2). eapply (repr_inj _ _ _ (i_heap _ _ _ HW)); [exact H1|exact H2]. Qed.
Lemma hrep_fun w i j p t u : hrep w i p t -> hrep w j p u -> t = u.
Proof. intros (_&_&H1) (_&_&H2). by eapply repr_fun. Qed.
Lemma sub_reach h p t t' : repr h p t -> subt t' t -> (exists v l h', t' = Br v l h') -> exists q, reach_in h p q /\ repr h q t'.
Proof.
  intros Hr Hs Hb. revert p Hr. induction t as [b|v l IHl h0 IHh]; intros p Hr.
  - destruct Hs as [->|[]]. by destruct Hb as (?&?&?&?).
  - assert (Hns : ~ sink p) by (intros [->| ->]; [apply repr_bot_inv in Hr|apply repr_top_inv in Hr]; done).
    destruct (repr_nonsink _ _ _ Hr Hns) as (m&tl&th&Hm&[= -> -> ->]&Hl&Hh).
    destruct Hs as [->|[Hs|Hs]].
    + exists p. split; [by econstructor|done].
    + destruct (IHl Hs _ Hl) as (q'&Hq'&Hr'). exists q'. split; [by eapply ri_lo|done].
    + destruct (IHh Hs _ Hh) as (q'&Hq'&Hr'). exists q'. split; [by eapply ri_hi|done].
Qed.
(** the inner subtrees, without repetition, are as many as the reachable nodes *)
Lemma count_trees md w p t L : WInv md w -> repr (s_heap (w_s w)) p t -> NoDup L -> (forall q, q ∈ L <-> subnode (w_s w) p q) ->
  exists ts : list bdd, length ts = length L /\ NoDup ts /\ forall s, s ∈ ts <-> subt s t /\ exists v l h, s = Br v l h.
Proof.
  intros HW Hr Hnd Hin.
  assert (Hts : exists ts, Forall2 (repr (s_heap (w_s w))) L ts).
  { assert (Hx : forall q, q ∈ L -> exists s, repr (s_heap (w_s w)) q s).
    { intros q Hq. apply Hin, subnode_reach in Hq. destruct (reach_in_sub _ _ _ _ Hr Hq) as (s&Hs&_). eauto. }
    clear Hnd Hin. induction L as [|q L IH]; [exists []; constructor|].
    destruct (Hx q) as [s Hs]; [by left|]. destruct IH as [ts Hts]; [intros q' Hq'; apply Hx; by right|]. exists (s :: ts). by constructor. }
  destruct Hts as [ts Hts]. exists ts. split_and!.
  - symmetry. by eapply Forall2_length.
  - apply NoDup_alt. intros i j s Hi Hj. destruct (Forall2_lookup_r _ _ _ _ _ Hts Hi) as (qi&Hqi&Hri). destruct (Forall2_lookup_r _ _ _ _ _ Hts Hj) as (qj&Hqj&Hrj).
    assert (qi = qj) as -> by (eapply (repr_inj _ _ _ (i_heap _ _ _ HW)); [exact Hri|exact Hrj]).
    eapply (NoDup_lookup L); eauto.
  - intros s. split.
    + intros [i Hi]%elem_of_list_lookup. destruct (Forall2_lookup_r _ _ _ _ _ Hts Hi) as (q&Hq&Hrq).
      apply elem_of_list_lookup_2, Hin, subnode_reach in Hq. destruct (reach_in_sub _ _ _ _ Hr Hq) as (s'&Hs'&Hsub).
      assert (s' = s) as -> by (by eapply repr_fun). split; [done|]. destruct (reach_node _ _ _ Hq) as [Hns _].
      destruct (repr_nonsink _ _ _ Hrq Hns) as (m&tl&th&_&->&_). eauto.
    + intros [Hs Hb]. destruct (sub_reach _ _ _ _ Hr Hs Hb) as (q&Hq&Hrq). apply subnode_reach, Hin in Hq.
      apply elem_of_list_lookup in Hq as [i Hi]. destruct (Forall2_lookup_l _ _ _ _ _ Hts Hi) as (s'&Hs'&Hrs).
      assert (s' = s) as -> by (by eapply repr_fun). by eapply elem_of_list_lookup_2.
Qed.
End one.

Section env.
Context (E1 E2 : Env) (HE1 : env_ok E1) (HE2 : env_ok E2).

Definition same (w1 w2 : world) : Prop := exists l, @reps E1 w1 l /\ @reps E2 w2 l.
Lemma same_hrep w1 w2 i p t : same w1 w2 -> @hrep E1 w1 i p t -> exists q, @hrep E2 w2 i q t.
Proof. intros (l&H1&H2) Hr. eapply (@reps_lookup E2); [exact H2|]. eapply (@reps_hrep E1); [exact H1|exact Hr]. Qed.
Lemma same_hreps w1 w2 is_ ts : same w1 w2 -> @hreps E1 w1 is_ ts -> @hreps E2 w2 is_ ts.
Proof. intros Hs Hr. eapply Forall2_impl; [exact Hr|]. intros i t [p Hp]. by eapply same_hrep. Qed.
Lemma same_opsem w1 w2 o phi : same w1 w2 -> @opsem E1 w1 o phi -> @opsem E2 w2 o phi.
Proof.
  intros Hs. pose proof (fun i p t => same_hrep _ _ i p t Hs) as Hh. pose proof (fun l ts => same_hreps _ _ l ts Hs) as Hl.
  destruct o; simpl; try done.
  all: try (intros (ts&Hts&Hp); exists ts; split; [by apply Hl|done]).
  all: try (intros (ps&us&Ht&Hp); destruct (Hh _ _ _ Ht) as [qs Hq]; exists qs, us; done).
  all: try (intros (p1&t1&p2&t2&Ht&Hu&Hp); destruct (Hh _ _ _ Ht) as [p1' Hp1]; destruct (Hh _ _ _ Hu) as [p2' Hp2]; exists p1', t1, p2', t2; done).
  all: try (intros (p1&v1&l1&h1&Ht&Hp); destruct (Hh _ _ _ Ht) as [p1' Hp1]; exists p1', v1, l1, h1; done).
  all: try (intros (p1&t1&ts&Ht&Hts&Hp); destruct (Hh _ _ _ Ht) as [p1' Hp1]; exists p1', t1, ts; split_and!; auto).
  all: try (intros (p1&t1&p2&t2&p3&t3&Ht&Hu&Hv&Hp); destruct (Hh _ _ _ Ht) as [p1' Hp1]; destruct (Hh _ _ _ Hu) as [p2' Hp2]; destruct (Hh _ _ _ Hv) as [p3' Hp3]; exists p1', t1, p2', t2, p3', t3; done).
Qed.
Lemma sym_ok w1 w2 : same w1 w2 -> length (w_h w1) = length (w_h w2).
Proof. intros (l&H1&H2). apply Forall2_length in H1, H2. congruence. Qed.

Lemma reach2_same md w1 w2 : md_ord md = true -> reach2 E1 E2 md w1 w2 ->
  @reach E1 md w1 /\ @reach E2 md w2 /\ same w1 w2.
Proof.
  intros Ho. induction 1 as [|w1 w2 o r1 r2 w1' w2' _ (HR1&HR2&Hs) Hdet Ha1 Ha2 Hs1 Hs2].
  { split_and!; [constructor|constructor|]. exists []. split; constructor. }
  assert (HR1' : @reach E1 md w1') by (by eapply reach_step).
  assert (HR2' : @reach E2 md w2') by (by eapply reach_step).
  split_and!; [done|done|].
  pose proof (reach_inv HE1 _ _ HR1) as HW1. pose proof (reach_inv HE2 _ _ HR2) as HW2.
  pose proof (step_good HE1 _ _ _ HW1 Ha1) as Hg1. rewrite Hs1 in Hg1. destruct Hg1 as (HW1'&Hl1&Hh1).
  pose proof (step_good HE2 _ _ _ HW2 Ha2) as Hg2. rewrite Hs2 in Hg2. destruct Hg2 as (HW2'&Hl2&Hh2).
  destruct (is_new o) eqn:Hnew.
  { destruct (opsem_total _ _ _ HW1 Ha1 Hnew) as [phi Hphi].
    pose proof (same_opsem _ _ _ _ Hs Hphi) as Hphi2.
    pose proof (step_sem HE1 _ _ _ _ HW1 Ha1 Hphi) as H1. rewrite Hs1 in H1. destruct H1 as (p1&t1&->&_&_&Hhh1&Hr1&Ht1).
    assert (Hmix : md <> MMix) by (intros ->; discriminate Ho). specialize (Ht1 (@sound_pure E1 _ _ _ Hmix Ha1)).
    pose proof (step_sem HE2 _ _ _ _ HW2 Ha2 Hphi2) as H2. rewrite Hs2 in H2. destruct H2 as (p2&t2&->&_&_&Hhh2&Hr2&Ht2). specialize (Ht2 (@sound_pure E2 _ _ _ Hmix Ha2)).
    assert (t2 = t1) as ->.
    { destruct (@hrep_shape E1 _ _ _ _ _ HW1' Ho Hr1) as [? ?]. destruct (@hrep_shape E2 _ _ _ _ _ HW2' Ho Hr2) as [? ?]. apply canon; [done..|].
      intros r. by rewrite Ht1, Ht2. }
    destruct Hs as (l&Hr1l&Hr2l). exists (l ++ [Some (Some t1)]). unfold reps. rewrite Hhh1, Hhh2. split.
    - apply Forall2_app; [eapply (@reps_ext E1); [exact Hr1l|apply Hl1]|]. constructor; [|constructor]. destruct Hr1 as (_&?&?). done.
    - apply Forall2_app; [eapply (@reps_ext E2); [exact Hr2l|apply Hl2]|]. constructor; [|constructor]. destruct Hr2 as (_&?&?). done. }
  destruct Hs as (l&Hr1&Hr2).
  assert (Hkeep : w_h w1' = w_h w1 -> w_h w2' = w_h w2 -> same w1' w2').
  { intros H1 H2. exists l. unfold reps. rewrite H1, H2. split; [eapply (@reps_ext E1); [exact Hr1|apply Hl1]|eapply (@reps_ext E2); [exact Hr2|apply Hl2]]. }
  destruct (is_query o) eqn:Hq.
  { destruct (step_query _ _ _ HW1 Ha1 Hq) as (q1&Hq1&_). destruct (step_query _ _ _ HW2 Ha2 Hq) as (q2&Hq2&_).
    rewrite Hs1 in Hq1. rewrite Hs2 in Hq2. injection Hq1 as _ ->. injection Hq2 as _ ->. exists l. done. }
  pose proof (@reps_ext E1 _ _ _ Hr1 (proj1 Hl1)) as Hx1. pose proof (@reps_ext E2 _ _ _ Hr2 (proj1 Hl2)) as Hx2.
  assert (Hst : forall i p1 p2, hnd w1 i = Some p1 -> hnd w2 i = Some p2 -> exists st,
     @rep1 E1 (s_heap (w_s w1')) (Some p1) (Some st) /\ @rep1 E2 (s_heap (w_s w2')) (Some p2) (Some st)).
  { intros i p1 p2 H1 H2. apply hnd_lookup in H1, H2.
    destruct (Forall2_lookup_l _ _ _ _ _ Hx1 H1) as (st1&Hi1&Hp1). destruct (Forall2_lookup_l _ _ _ _ _ Hx2 H2) as (st2&Hi2&Hp2).
    simplify_eq. destruct st1 as [st|]; [|done]. eauto. }
  destruct o; try discriminate; simpl in Ha1, Ha2; try done.
  - (* add_variable *) simpl in Hs1, Hs2. unfold query in Hs1, Hs2.
    destruct (@add_variable E1 (w_s w1)); [|done]. destruct (@add_variable E2 (w_s w2)); [|done].
    injection Hs1 as <- <-. injection Hs2 as <- <-. by apply Hkeep.
  - (* copy *) destruct Ha1 as [p1 Hp1]. destruct Ha2 as [p2 Hp2]. simpl in Hs1, Hs2. unfold with1 in Hs1, Hs2. rewrite Hp1 in Hs1. rewrite Hp2 in Hs2.
    unfold newh in Hs1, Hs2. simpl in Hs1, Hs2.
    destruct (@ref_acquire p1 (w_s w1)); [|done]. destruct (@ref_acquire p2 (w_s w2)); [|done].
    injection Hs1 as <- <-. injection Hs2 as <- <-. destruct (Hst _ _ _ Hp1 Hp2) as (st&G1&G2).
    exists (l ++ [Some st]). split; (apply Forall2_app; [done|constructor; [done|constructor]]).
  - (* drop *) exists (<[i := None]> l). unfold reps. rewrite Hh1, Hh2. split; by apply Forall2_insert.
  - (* assign *) destruct Ha1 as [_ [p1 Hp1]]. destruct Ha2 as [_ [p2 Hp2]]. destruct (Hst _ _ _ Hp1 Hp2) as (st&G1&G2).
    exists (<[i := Some st]> l). unfold reps. rewrite Hh1, Hh2. simpl. rewrite Hp1, Hp2. split; by apply Forall2_insert.
  - (* null *) simpl in Hs1, Hs2. injection Hs1 as <- <-. injection Hs2 as <- <-. exists (l ++ [Some None]).
    split; (apply Forall2_app; [done|constructor; [done|constructor]]).
  - (* move *) destruct Ha1 as [p1 Hp1]. destruct Ha2 as [p2 Hp2]. simpl in Hs1, Hs2. unfold with1 in Hs1, Hs2. rewrite Hp1 in Hs1. rewrite Hp2 in Hs2.
    injection Hs1 as <- <-. injection Hs2 as <- <-. destruct (Hst _ _ _ Hp1 Hp2) as (st&G1&G2).
    exists (<[i := Some None]> l ++ [Some st]). split; (apply Forall2_app; [by apply Forall2_insert|constructor; [done|constructor]]).
Qed.

(** C34: same handles, same functions, same equalities *)
Theorem C34_functions md w1 w2 : md_ord md = true -> reach2 E1 E2 md w1 w2 ->
  length (w_h w1) = length (w_h w2) /\
  (forall i, live w1 i <-> live w2 i) /\
  (forall i x, live w1 i -> @val E1 w1 i x = @val E2 w2 i x) /\
  (forall i j, live w1 i -> live w1 j -> hnd w1 i = hnd w1 j <-> hnd w2 i = hnd w2 j).
Proof.
  intros Ho HR2. destruct (reach2_same _ _ _ Ho HR2) as (HR1&HR2'&Hs).
  pose proof (reach_inv HE1 _ _ HR1) as HW1. pose proof (reach_inv HE2 _ _ HR2') as HW2.
  assert (Hl : forall i, live w1 i -> exists p q t, @hrep E1 w1 i p t /\ @hrep E2 w2 i q t).
  { intros i Hi. destruct (live_hrep _ _ _ HW1 Hi) as (p&t&Hr). destruct (same_hrep _ _ _ _ _ Hs Hr) as [q Hq]. eauto. }
  split_and!.
  - by apply sym_ok.
  - intros i. split; [intros Hi; destruct (Hl _ Hi) as (p&q&t&_&Hq); by eapply hrep_live|].
    intros Hi. destruct (live_hrep _ _ _ HW2 Hi) as (p&t&Hr). destruct Hs as (l&G1&G2).
    destruct (reps_lookup w1 l i t G1) as [q Hq]; [eapply (@reps_hrep E2); [exact G2|exact Hr]|eapply (@hrep_live E1), Hq].
  - intros i x Hi. destruct (Hl _ Hi) as (p&q&t&Hp&Hq).
    by rewrite (val_hrep _ _ _ _ _ x HW1 Hp), (val_hrep _ _ _ _ _ x HW2 Hq).
  - intros i j Hi Hj. destruct (Hl _ Hi) as (p&q&t&Hp&Hq). destruct (Hl _ Hj) as (p'&q'&t'&Hp'&Hq').
    rewrite (proj1 Hp), (proj1 Hq), (proj1 Hp'), (proj1 Hq'). split; intros [= <-]; f_equal.
    + pose proof (@hrep_fun E1 _ _ _ _ _ _ Hp Hp') as <-. eapply (@hrep_inj E2 _ _ i j); [exact HW2|exact Hq|exact Hq'].
    + pose proof (@hrep_fun E2 _ _ _ _ _ _ Hq Hq') as <-. eapply (@hrep_inj E1 _ _ i j); [exact HW1|exact Hp|exact Hp'].
Qed.

(** C34: the address-free queries answer alike *)
Theorem C34_queries md w1 w2 i : md_ord md = true -> reach2 E1 E2 md w1 w2 -> live w1 i ->
  (exists b, @step E1 (QOne i) w1 = WOk (OutB b) w1 /\ @step E2 (QOne i) w2 = WOk (OutB b) w2) /\
  (exists l, @step E1 (QVars i) w1 = WOk (OutL l) w1 /\ @step E2 (QVars i) w2 = WOk (OutL l) w2) /\
  (~ @isconst E1 w1 i -> exists n, @step E1 (QNrNodes i) w1 = WOk (OutN n) w1 /\ @step E2 (QNrNodes i) w2 = WOk (OutN n) w2).
Proof.
  intros Ho HR2 Hi. destruct (reach2_same _ _ _ Ho HR2) as (HR1&HR2'&Hs).
  pose proof (reach_inv HE1 _ _ HR1) as HW1. pose proof (reach_inv HE2 _ _ HR2') as HW2.
  destruct (@live_hrep E1 _ _ _ HW1 Hi) as (p&t&Hp). destruct (same_hrep _ _ _ _ _ Hs Hp) as [q Hq].
  split_and!.
  - exists (eos t). split; simpl.
    + rewrite (@with1_hrep E1 _ _ _ _ _ Hp). apply query_eq. eapply (@exactly_one_solution_spec E1); [exact HW1|apply Hp].
    + rewrite (@with1_hrep E2 _ _ _ _ _ Hq). apply query_eq. eapply (@exactly_one_solution_spec E2); [exact HW2|apply Hq].
  - destruct (@variables_spec E1 _ _ _ HW1 p t) as (l&Hl&Hsl&Hv); [apply Hp|].
    destruct (@variables_spec E2 _ _ _ HW2 q t) as (l'&Hl'&Hsl'&Hv'); [apply Hq|].
    exists l. assert (l' = l) as -> by (eapply sorted_unique; eauto; intros v; by rewrite Hv, Hv').
    split; simpl.
    + rewrite (@with1_hrep E1 _ _ _ _ _ Hp). by apply query_eq.
    + rewrite (@with1_hrep E2 _ _ _ _ _ Hq). by apply query_eq.
  - intros Hc. destruct Hp as (Hp&Hp0&Hpr). destruct Hq as (Hq&Hq0&Hqr).
    assert (Hc2 : ~ @isconst E2 w2 i).
    { intros [Hb|Hb]; rewrite Hq in Hb; injection Hb as ->; apply Hc; unfold isconst; rewrite Hp.
      - apply repr_bot_inv in Hqr as ->. apply repr_leaf_inv in Hpr. left. by f_equal.
      - apply repr_top_inv in Hqr as ->. apply repr_leaf_inv in Hpr. right. by f_equal. }
    destruct (@C16_nr_nodes E1 HE1 _ _ _ _ HR1 Hp Hp0) as (l1&Hl1&Hnd1&Hin1); [done|].
    destruct (@C16_nr_nodes E2 HE2 _ _ _ _ HR2' Hq Hq0) as (l2&Hl2&Hnd2&Hin2); [done|].
    destruct (@count_trees E1 _ _ _ _ _ HW1 Hpr Hnd1 Hin1) as (t1&He1&Ht1&Hi1).
    destruct (@count_trees E2 _ _ _ _ _ HW2 Hqr Hnd2 Hin2) as (t2&He2&Ht2&Hi2).
    exists (N.of_nat (length l1)). split; [done|]. rewrite Hl2. do 3 f_equal.
    rewrite <- He1, <- He2. apply Permutation_length, NoDup_Permutation; [done..|]. intros s. by rewrite Hi1, Hi2.
Qed.
End env.
