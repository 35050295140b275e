(** * PropsEnv2.v -- independence of the environment without variable order (C34) *)
From Verif Require Export PropsEnv.
Open Scope N_scope.

(** ** Specification *)

(** operations whose result is determined by the functions of the operands: all but low and high
    (whose result depends on the shape of the BDD, which in unordered histories depends on
    addresses) and those left out of [det] *)
Definition fdet (o : op) : Prop := match o with OLow _ | OHigh _ => False | _ => det o end.
Inductive reach2f (E1 E2 : Env) (md : mode) : world -> world -> Prop :=
| reach2f_init : reach2f E1 E2 md (@w_init E1) (@w_init E2)
| reach2f_step w1 w2 o r1 r2 w1' w2' : reach2f E1 E2 md w1 w2 -> fdet o ->
    @allowed E1 md w1 o -> @allowed E2 md w2 o ->
    @step E1 o w1 = WOk r1 w1' -> @step E2 o w2 = WOk r2 w2' -> reach2f E1 E2 md w1' w2'.

(** ** Proof *)
Definition stf (a b : option (option bdd)) : Prop :=
  match a, b with
  | None, None => True
  | Some None, Some None => True
  | Some (Some t), Some (Some u) => forall r, evalt t r = evalt u r
  | _, _ => False
  end.

Section env2.
Context (E1 E2 : Env) (HE1 : env_ok E1) (HE2 : env_ok E2).

Definition simf (w1 w2 : world) : Prop := exists l1 l2, @reps E1 w1 l1 /\ @reps E2 w2 l2 /\ Forall2 stf l1 l2.
Lemma simf_hrep w1 w2 i p t : simf w1 w2 -> @hrep E1 w1 i p t -> exists q u, @hrep E2 w2 i q u /\ forall r, evalt t r = evalt u r.
Proof.
  intros (l1&l2&H1&H2&Hf) Hr. pose proof (@reps_hrep E1 _ _ _ _ _ H1 Hr) as Hl. destruct (Forall2_lookup_l _ _ _ _ _ Hf Hl) as (b&Hb&Hs).
  destruct b as [[u|]|]; simpl in Hs; [|done|done]. destruct (@reps_lookup E2 _ _ _ _ H2 Hb) as [q Hq]. eauto.
Qed.
Lemma simf_hreps w1 w2 is_ ts : simf w1 w2 -> @hreps E1 w1 is_ ts ->
  exists us, @hreps E2 w2 is_ us /\ forall r, map (fun t => evalt t r) ts = map (fun t => evalt t r) us.
Proof.
  intros Hs Hr. induction Hr as [|i t is_ ts [p Hp] _ (us&Hus&He)].
  - exists []. split; [constructor|done].
  - destruct (simf_hrep _ _ _ _ _ Hs Hp) as (q&u&Hq&Hu). exists (u :: us). split; [constructor; [by exists q|done]|].
    intros r. simpl. by rewrite Hu, He.
Qed.
Lemma simf_opsem w1 w2 o phi : simf w1 w2 -> fdet o -> @opsem E1 w1 o phi -> @opsem E2 w2 o phi.
Proof.
  intros Hs. pose proof (fun i p t => simf_hrep _ _ i p t Hs) as Hh. pose proof (fun l ts => simf_hreps _ _ l ts Hs) as Hl.
  destruct o; simpl; try done; intros _.
  all: try (intros (ts&Hts&Hp); destruct (Hl _ _ Hts) as (us&Hus&He); exists us; split; [done|intros r; by rewrite Hp, He]).
  all: try (intros (ps&us&Ht&Hp); destruct (Hh _ _ _ Ht) as (qs&u&Hq&Hu); exists qs, u; split; [done|intros r; by rewrite Hp, Hu]).
  all: try (intros (p1&t1&p2&t2&Ht&Hu&Hp); destruct (Hh _ _ _ Ht) as (p1'&u1&Hp1&He1); destruct (Hh _ _ _ Hu) as (p2'&u2&Hp2&He2); exists p1', u1, p2', u2;
    split; [done|]; split; [done|]; intros r; by rewrite Hp, He1, He2).
  all: try (intros (p1&t1&p2&t2&p3&t3&Ht&Hu&Hv&Hp); destruct (Hh _ _ _ Ht) as (p1'&u1&Hp1&He1); destruct (Hh _ _ _ Hu) as (p2'&u2&Hp2&He2);
    destruct (Hh _ _ _ Hv) as (p3'&u3&Hp3&He3); exists p1', u1, p2', u2, p3', u3; do 3 (split; [done|]); intros r; by rewrite Hp, He1, He2, He3).
Qed.

Lemma stf_insert l1 l2 i a b : Forall2 stf l1 l2 -> stf a b -> Forall2 stf (<[i := a]> l1) (<[i := b]> l2).
Proof. intros. by apply Forall2_insert. Qed.

Lemma reach2f_simf md w1 w2 : md <> MMix -> reach2f E1 E2 md w1 w2 ->
  @reach E1 md w1 /\ @reach E2 md w2 /\ simf w1 w2.
Proof.
  intros Hmix. induction 1 as [|w1 w2 o r1 r2 w1' w2' _ (HR1&HR2&Hs) Hdet Ha1 Ha2 Hs1 Hs2].
  { split_and!; [constructor|constructor|]. exists [], []. split_and!; constructor. }
  assert (HR1' : @reach E1 md w1') by (by eapply reach_step).
  assert (HR2' : @reach E2 md w2') by (by eapply reach_step).
  split_and!; [done|done|].
  pose proof (reach_inv HE1 _ _ HR1) as HW1. pose proof (reach_inv HE2 _ _ HR2) as HW2.
  pose proof (step_good HE1 _ _ _ HW1 Ha1) as Hg1. rewrite Hs1 in Hg1. destruct Hg1 as (HW1'&Hl1&Hh1).
  pose proof (step_good HE2 _ _ _ HW2 Ha2) as Hg2. rewrite Hs2 in Hg2. destruct Hg2 as (HW2'&Hl2&Hh2).
  destruct (is_new o) eqn:Hnew.
  { destruct (opsem_total _ _ _ HW1 Ha1 Hnew) as [phi Hphi].
    pose proof (simf_opsem _ _ _ _ Hs Hdet Hphi) as Hphi2.
    pose proof (step_sem HE1 _ _ _ _ HW1 Ha1 Hphi) as H1. rewrite Hs1 in H1. destruct H1 as (p1&t1&->&_&_&Hhh1&Hr1&Ht1).
    specialize (Ht1 (@sound_pure E1 _ _ _ Hmix Ha1)).
    pose proof (step_sem HE2 _ _ _ _ HW2 Ha2 Hphi2) as H2. rewrite Hs2 in H2. destruct H2 as (p2&t2&->&_&_&Hhh2&Hr2&Ht2). specialize (Ht2 (@sound_pure E2 _ _ _ Hmix Ha2)).
    destruct Hs as (l1&l2&Hr1l&Hr2l&Hf). exists (l1 ++ [Some (Some t1)]), (l2 ++ [Some (Some t2)]). unfold reps. rewrite Hhh1, Hhh2. split_and!.
    - apply Forall2_app; [eapply (@reps_ext E1); [exact Hr1l|apply Hl1]|]. constructor; [|constructor]. destruct Hr1 as (_&?&?). done.
    - apply Forall2_app; [eapply (@reps_ext E2); [exact Hr2l|apply Hl2]|]. constructor; [|constructor]. destruct Hr2 as (_&?&?). done.
    - apply Forall2_app; [done|]. constructor; [|constructor]. intros r. by rewrite Ht1, Ht2. }
  destruct Hs as (l1&l2&Hr1&Hr2&Hf).
  assert (Hkeep : w_h w1' = w_h w1 -> w_h w2' = w_h w2 -> simf w1' w2').
  { intros H1 H2. exists l1, l2. unfold reps. rewrite H1, H2. split_and!; [eapply (@reps_ext E1); [exact Hr1|apply Hl1]|eapply (@reps_ext E2); [exact Hr2|apply Hl2]|done]. }
  destruct (is_query o) eqn:Hq.
  { destruct (step_query _ _ _ HW1 Ha1 Hq) as (q1&Hq1&_). destruct (step_query _ _ _ HW2 Ha2 Hq) as (q2&Hq2&_).
    rewrite Hs1 in Hq1. rewrite Hs2 in Hq2. injection Hq1 as _ ->. injection Hq2 as _ ->. exists l1, l2. done. }
  pose proof (@reps_ext E1 _ _ _ Hr1 (proj1 Hl1)) as Hx1. pose proof (@reps_ext E2 _ _ _ Hr2 (proj1 Hl2)) as Hx2.
  assert (Hst : forall i p1 p2, hnd w1 i = Some p1 -> hnd w2 i = Some p2 -> exists s1 s2,
     @rep1 E1 (s_heap (w_s w1')) (Some p1) (Some s1) /\ @rep1 E2 (s_heap (w_s w2')) (Some p2) (Some s2) /\ stf (Some s1) (Some s2)).
  { intros i p1 p2 H1 H2. apply hnd_lookup in H1, H2.
    destruct (Forall2_lookup_l _ _ _ _ _ Hx1 H1) as (st1&Hi1&Hp1). destruct (Forall2_lookup_l _ _ _ _ _ Hx2 H2) as (st2&Hi2&Hp2).
    destruct st1 as [s1|]; [|done]. destruct st2 as [s2|]; [|done]. exists s1, s2. split_and!; [done..|].
    destruct (Forall2_lookup_l _ _ _ _ _ Hf Hi1) as (b&Hb&Hsb). simplify_eq. done. }
  destruct o; try discriminate; simpl in Ha1, Ha2; try done.
  - (* add_variable *) simpl in Hs1, Hs2. unfold query in Hs1, Hs2.
    destruct (@add_variable E1 (w_s w1)); [|done]. destruct (@add_variable E2 (w_s w2)); [|done].
    injection Hs1 as <- <-. injection Hs2 as <- <-. by apply Hkeep.
  - (* copy *) destruct Ha1 as [p1 Hp1]. destruct Ha2 as [p2 Hp2]. simpl in Hs1, Hs2. unfold with1 in Hs1, Hs2. rewrite Hp1 in Hs1. rewrite Hp2 in Hs2.
    unfold newh in Hs1, Hs2. simpl in Hs1, Hs2.
    destruct (@ref_acquire p1 (w_s w1)); [|done]. destruct (@ref_acquire p2 (w_s w2)); [|done].
    injection Hs1 as <- <-. injection Hs2 as <- <-. destruct (Hst _ _ _ Hp1 Hp2) as (s1&s2&G1&G2&G3).
    exists (l1 ++ [Some s1]), (l2 ++ [Some s2]). split_and!; (apply Forall2_app; [done|constructor; [done|constructor]]).
  - (* drop *) exists (<[i := None]> l1), (<[i := None]> l2). unfold reps. rewrite Hh1, Hh2. split_and!; by apply Forall2_insert.
  - (* assign *) destruct Ha1 as [_ [p1 Hp1]]. destruct Ha2 as [_ [p2 Hp2]]. destruct (Hst _ _ _ Hp1 Hp2) as (s1&s2&G1&G2&G3).
    exists (<[i := Some s1]> l1), (<[i := Some s2]> l2). unfold reps. rewrite Hh1, Hh2. simpl. rewrite Hp1, Hp2. split_and!; by apply Forall2_insert.
  - (* null *) simpl in Hs1, Hs2. injection Hs1 as <- <-. injection Hs2 as <- <-. exists (l1 ++ [Some None]), (l2 ++ [Some None]).
    split_and!; (apply Forall2_app; [done|constructor; [done|constructor]]).
  - (* move *) destruct Ha1 as [p1 Hp1]. destruct Ha2 as [p2 Hp2]. simpl in Hs1, Hs2. unfold with1 in Hs1, Hs2. rewrite Hp1 in Hs1. rewrite Hp2 in Hs2.
    injection Hs1 as <- <-. injection Hs2 as <- <-. destruct (Hst _ _ _ Hp1 Hp2) as (s1&s2&G1&G2&G3).
    exists (<[i := Some None]> l1 ++ [Some s1]), (<[i := Some None]> l2 ++ [Some s2]).
    split_and!; (apply Forall2_app; [by apply Forall2_insert|constructor; [done|constructor]]).
Qed.

(** C34, without variable order: in histories that do not mix or with xor every handle has the same function *)
Theorem C34_functions_unordered md w1 w2 : md <> MMix -> reach2f E1 E2 md w1 w2 ->
  length (w_h w1) = length (w_h w2) /\
  (forall i, live w1 i <-> live w2 i) /\
  forall i x, live w1 i -> covers w1 x -> covers w2 x -> @val E1 w1 i x = @val E2 w2 i x.
Proof.
  intros Hm HR2. destruct (reach2f_simf _ _ _ Hm HR2) as (HR1&HR2'&Hs).
  pose proof (reach_inv HE1 _ _ HR1) as HW1. pose proof (reach_inv HE2 _ _ HR2') as HW2.
  split_and!.
  - destruct Hs as (l1&l2&H1&H2&Hf). apply Forall2_length in H1, H2, Hf. congruence.
  - intros i. split; intros Hi.
    + destruct (@live_hrep E1 _ _ _ HW1 Hi) as (p&t&Hr). destruct (simf_hrep _ _ _ _ _ Hs Hr) as (q&u&Hq&_). eapply (@hrep_live E2), Hq.
    + destruct (@live_hrep E2 _ _ _ HW2 Hi) as (p&t&Hr). destruct Hs as (l1&l2&G1&G2&Hf).
      pose proof (@reps_hrep E2 _ _ _ _ _ G2 Hr) as Hl. destruct (Forall2_lookup_r _ _ _ _ _ Hf Hl) as (b&Hb&Hsb).
      destruct b as [[u|]|]; simpl in Hsb; [|done|done]. destruct (@reps_lookup E1 _ _ _ _ G1 Hb) as [q Hq]. eapply (@hrep_live E1), Hq.
  - intros i x Hi Hx1 Hx2. destruct (@live_hrep E1 _ _ _ HW1 Hi) as (p&t&Hp). destruct (simf_hrep _ _ _ _ _ Hs Hp) as (q&u&Hq&He).
    rewrite (@val_covers E1 _ _ _ _ _ x HW1 Hp Hx1), (@val_covers E2 _ _ _ _ _ x HW2 Hq Hx2). by rewrite He.
Qed.
End env2.
