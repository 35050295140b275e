(** * Refute.v -- claims one would expect to hold and that are false of the code.

    Each claim is written out as a proposition [..._claim] in the vocabulary of Spec.v and its
    negation is proved by running the model in the environment [tenv] (TestEnv.v). *)
From Verif Require Export Check.
Open Scope N_scope.

Notation or_mode := MOrd.  (* everything but xor, order kept *)
Notation xor_mode := MXor. (* everything but or, ite *)

Section tools.
Context {E : Env} (HE : env_ok E).
Definition W (md : mode) (os : list op) : world := default w_init (go md os w_init).
Lemma W_reach md os : bool_decide (is_Some (go md os w_init)) = true -> reach md (W md os).
Proof. unfold W. intros [w Hw]%bool_decide_eq_true. rewrite Hw. simpl. eapply go_reach; [constructor|exact Hw]. Qed.

(** the call does not do what [yields] says at assignment [x], where [b] is expected *)
Definition badb (w : world) (o : op) (x : list bool) (b : bool) : bool :=
  match step o w with
  | WOk _ w' => (nr_variables (w_s w') <=? N.of_nat (length x)) &&
      match val w' (length (w_h w)) x with Some b' => negb (Bool.eqb b' b) | None => true end
  | WFail EThrow _ => false
  | WFail _ _ => true
  end.
Lemma not_yields w o phi x : yields w o phi -> badb w o x (phi x) = false.
Proof.
  unfold yields, ensures, badb. destruct (step o w) as [r w'|[] w']; try done. intros (p&_&_&He).
  destruct (nr_variables (w_s w') <=? N.of_nat (length x)) eqn:Hc; [|done]. simpl.
  rewrite (He x) by (by apply N.leb_le). by destruct (phi x).
Qed.
(** the call fails, not by an exception *)
Definition failb (r : wres) : bool := match r with WOk _ _ | WFail EThrow _ => false | WFail _ _ => true end.
Lemma not_ensures r Q : ensures r Q -> failb r = false.
Proof. by destruct r as [|[]]. Qed.
End tools.

(** [done] by computation *)
Ltac comp := vm_compute; reflexivity.



Lemma isb_at nd rtl mk md w : @reach (tenv nd rtl mk) md w -> forall i e, @isb (tenv nd rtl mk) w i e = true -> @evals (tenv nd rtl mk) w i (bev e).
Proof. intros HR i e. apply isb_ok with (md := md); [apply tenv_ok|done]. Qed.

(** ** C02, C05: or_rec and xor_rec share memo entries *)
Definition C05_claim : Prop := forall E, env_ok E -> forall w i j f g,
  reach or_mode w -> evals w i f -> evals w j g -> yields w (OXor i j) (fun x => xorb (f x) (g x)).
(** x0 | x1, then x0 ^ x1 *)
Theorem C05_xor_after_or_refuted : ~ C05_claim.
Proof.
  intros H. pose (E := tenv false false false). set (w := W or_mode [OProj 0; OProj 1; OOr 0 1]).
  assert (HR : reach or_mode w) by (apply W_reach; comp). pose proof (isb_at _ _ _ _ _ HR) as Hi.
  specialize (H E (tenv_ok _ _ _) w 0%nat 1%nat _ _ HR (Hi 0%nat (BV 0) ltac:(comp)) (Hi 1%nat (BV 1) ltac:(comp))).
  apply (not_yields _ _ _ [true; true]) in H. vm_compute in H. discriminate H.
Qed.
Definition C02_claim : Prop := forall E, env_ok E -> forall w i j f g,
  reach xor_mode w -> evals w i f -> evals w j g -> yields w (OOr i j) (fun x => f x || g x).
(** x0 ^ x1, then x0 | x1 *)
Theorem C02_or_after_xor_refuted : ~ C02_claim.
Proof.
  intros H. pose (E := tenv false false false). set (w := W xor_mode [OProj 0; OProj 1; OXor 0 1]).
  assert (HR : reach xor_mode w) by (apply W_reach; comp). pose proof (isb_at _ _ _ _ _ HR) as Hi.
  specialize (H E (tenv_ok _ _ _) w 0%nat 1%nat _ _ HR (Hi 0%nat (BV 0) ltac:(comp)) (Hi 1%nat (BV 1) ltac:(comp))).
  apply (not_yields _ _ _ [true; true]) in H. vm_compute in H. discriminate H.
Qed.

(** ** C04: ite_rec *)
Definition C04_claim : Prop := forall E, env_ok E -> forall w i j k f g h,
  reach or_mode w -> evals w i f -> evals w j g -> evals w k h ->
  yields w (OIte i j k) (fun x => if f x then g x else h x).
(** ite(x0, false, !x0), with or without asserts *)
Theorem C04_ite_refuted : ~ C04_claim /\ forall nd, @failb (@step (tenv nd false false) (OIte 0 1 2)
  (@W (tenv nd false false) or_mode [OProj 0; OBot; ONot 0])) = true.
Proof.
  split; [|intros []; comp].
  intros H. pose (E := tenv false false false). set (w := W or_mode [OProj 0; OBot; ONot 0]).
  assert (HR : reach or_mode w) by (apply W_reach; comp). pose proof (isb_at _ _ _ _ _ HR) as Hi.
  specialize (H E (tenv_ok _ _ _) w 0%nat 1%nat 2%nat _ _ _ HR (Hi 0%nat (BV 0) ltac:(comp)) (Hi 1%nat (BC false) ltac:(comp)) (Hi 2%nat (BN (BV 0)) ltac:(comp))).
  apply (not_yields _ _ _ [false]) in H. vm_compute in H. discriminate H.
Qed.

(** ** C07: with xor_rec, equal functions can have different handles *)
Definition C07_claim : Prop := forall E, env_ok E -> forall w i j,
  reach xor_mode w -> live w i -> live w j -> (forall x, covers w x -> val w i x = val w j x) -> hnd w i = hnd w j.
(** x0 ^ x1 against !(!(x0 & !x1) & !(!x0 & x1)) *)
Theorem C07_after_xor_refuted : ~ C07_claim.
Proof.
  intros H. pose (E := tenv false false false).
  set (w := W xor_mode [OProj 0; OProj 1; OXor 0 1; ONot 0; ONot 1; OAnd 0 4; OAnd 3 1; ONot 5; ONot 6; OAnd 7 8; ONot 9]).
  assert (HR : reach xor_mode w) by (apply W_reach; comp). pose proof (isb_at _ _ _ _ _ HR) as Hi.
  specialize (H E (tenv_ok _ _ _) w 2%nat 10%nat HR (liveb_ok w 2%nat ltac:(comp)) (liveb_ok w 10%nat ltac:(comp))).
  assert (hnd w 2 = hnd w 10) as He.
  { apply H. intros x Hx. transitivity (Some (bev (BX (BV 0) (BV 1)) x)); [|symmetry]; [apply (Hi 2%nat); [comp|done]|apply (Hi 10%nat); [comp|done]]. }
  vm_compute in He. discriminate He.
Qed.

(** ** C33: with xor_rec, destroying the manager fails an assert *)
Definition C33_claim : Prop := forall E, env_ok E -> forall w, reach xor_mode w -> ensures (shutdown w) (fun _ _ => True).
Theorem C33_after_xor_refuted : ~ C33_claim.
Proof.
  intros H. pose (E := tenv false false false). set (w := W xor_mode [OProj 0; OProj 1; OXor 0 1]).
  assert (HR : reach xor_mode w) by (apply W_reach; comp).
  specialize (H E (tenv_ok _ _ _) w HR). apply not_ensures in H. vm_compute in H. discriminate H.
Qed.

(** ** C13: and_rec_limited *)
(** a returned conjunction has fewer than [lim] nodes *)
Definition C13_small_claim : Prop := forall E, env_ok E -> forall w i j lim r n w' m w'',
  reach or_mode w -> live w i -> live w j -> step (OAndLim i j lim) w = WOk (OutLim r n) w' -> r <> 0 ->
  step (QNrNodes (length (w_h w))) w' = WOk (OutN m) w'' -> m < lim.
(** a conjunction with fewer than [lim] nodes is returned *)
Definition C13_big_claim : Prop := forall E, env_ok E -> forall w i j lim r n w1 w2 w' m p,
  reach or_mode w -> live w i -> live w j -> step (OAndLim i j lim) w = WOk (OutLim r n) w' ->
  step (OAnd i j) w = WOk (OutP p) w1 -> step (QNrNodes (length (w_h w))) w1 = WOk (OutN m) w2 -> m < lim -> r <> 0.
(** the second component is the number of nodes *)
Definition C13_size_claim : Prop := forall E, env_ok E -> forall w i j lim r n w' m w'',
  reach or_mode w -> live w i -> live w j -> step (OAndLim i j lim) w = WOk (OutLim r n) w' -> r <> 0 ->
  step (QNrNodes (length (w_h w))) w' = WOk (OutN m) w'' -> m = n.
Definition okw (r : wres) : world := match r with WOk _ w | WFail _ w => w end.
Definition oko (r : wres) : out := match r with WOk o _ => o | WFail _ _ => OutU end.
Lemma okw_eq r o : match r with WOk _ _ => true | _ => false end = true -> oko r = o -> r = WOk o (okw r).
Proof. intros H. destruct r as [? ?|? ?]; [|done]. simpl. by intros ->. Qed.
Lemma outp_ex o : match o with OutP _ => true | _ => false end = true -> exists p, o = OutP p.
Proof. destruct o; eauto; done. Qed.
Ltac okw1 := apply okw_eq; vm_compute; reflexivity.
(** x0 & x1, limit 1: two nodes are returned, and reported as 1 *)
Theorem C13_limit_refuted : ~ C13_small_claim /\ ~ C13_size_claim /\ ~ C13_big_claim.
Proof.
  pose (E := tenv false false false). set (w := W or_mode [OProj 0; OProj 1]).
  assert (HR : reach or_mode w) by (apply W_reach; comp).
  assert (H1 : step (OAndLim 0 1 1) w = WOk (OutLim 1048704 1) (okw (step (OAndLim 0 1 1) w))) by okw1.
  assert (H2 : step (QNrNodes 2) (okw (step (OAndLim 0 1 1) w)) = WOk (OutN 2) (okw (step (QNrNodes 2) (okw (step (OAndLim 0 1 1) w))))) by okw1.
  split_and!.
  - intros H. specialize (H E (tenv_ok _ _ _) w 0%nat 1%nat 1 _ _ _ _ _ HR (liveb_ok w 0%nat ltac:(comp)) (liveb_ok w 1%nat ltac:(comp)) H1 ltac:(done) H2). done.
  - intros H. specialize (H E (tenv_ok _ _ _) w 0%nat 1%nat 1 _ _ _ _ _ HR (liveb_ok w 0%nat ltac:(comp)) (liveb_ok w 1%nat ltac:(comp)) H1 ltac:(done) H2). done.
  - clear. intros H. pose (E := tenv false false false).
    (* (x0 | x1) & (x2 & x3 & x4 & x5) has 6 nodes *)
    set (w := W or_mode [OProj 0; OProj 1; OProj 2; OProj 3; OProj 4; OProj 5; OOr 0 1; OAndR [2;3;4;5]%nat]).
    assert (HR : reach or_mode w) by (apply W_reach; comp).
    assert (H1 : step (OAndLim 6 7 7) w = WOk (OutLim 0 size_max) (okw (step (OAndLim 6 7 7) w))) by okw1.
    assert (H2 : step (OAnd 6 7) w = WOk (oko (step (OAnd 6 7) w)) (okw (step (OAnd 6 7) w))) by okw1.
    assert (H3 : step (QNrNodes 8) (okw (step (OAnd 6 7) w)) = WOk (OutN 6) (okw (step (QNrNodes 8) (okw (step (OAnd 6 7) w))))) by okw1.
    assert (exists p, oko (step (OAnd 6 7) w) = OutP p) as [p Hp] by (apply outp_ex; comp). rewrite Hp in H2.
    by apply (H E (tenv_ok _ _ _) w 6%nat 7%nat 7 _ _ _ _ _ _ _ HR (liveb_ok w 6%nat ltac:(comp)) (liveb_ok w 7%nat ltac:(comp)) H1 H2 H3).
Qed.

(** ** C60: traversals of constants *)
Definition C60_claim : Prop := forall E, env_ok E -> forall w i, reach or_mode w -> live w i ->
  ensures (step (QNrNodes i) w) (fun _ _ => True).
Definition C60_bfs_claim (nd : bool) : Prop := forall E, env_ok E -> e_ndebug = nd -> forall w i, reach or_mode w -> live w i ->
  ensures (step (QBfs i) w) (fun _ _ => True).
Theorem C60_constants_refuted : ~ C60_claim /\ forall nd, ~ C60_bfs_claim nd.
Proof.
  split.
  - intros H. pose (E := tenv false false true). set (w := W or_mode [OTop]).
    assert (HR : reach or_mode w) by (apply W_reach; comp).
    specialize (H E (tenv_ok _ _ _) w 0%nat HR (liveb_ok w 0%nat ltac:(comp))). apply not_ensures in H. vm_compute in H. discriminate H.
  - intros nd H. pose (E := tenv nd false false). set (w := W or_mode [OTop]).
    assert (HR : reach or_mode w) by (destruct nd; apply W_reach; comp).
    specialize (H E (tenv_ok _ _ _) eq_refl w 0%nat HR (liveb_ok w 0%nat ltac:(destruct nd; comp))). apply not_ensures in H.
    destruct nd; vm_compute in H; discriminate H.
Qed.

(** ** C28-C32: garbage collection *)
(** worlds reached by allowed operations and garbage collections *)
Inductive reach_gc {E : Env} (md : mode) : world -> Prop :=
| rgc_init : reach_gc md w_init
| rgc_step w o r w' : reach_gc md w -> allowed md w o \/ (exists fuel, o = OGc fuel) -> step o w = WOk r w' -> reach_gc md w'.
Definition gob {E : Env} (md : mode) (w : world) (o : op) : bool := match o with OGc _ => true | _ => allowedb md w o end.
Fixpoint go_gc {E : Env} (md : mode) (os : list op) (w : world) : option world :=
  match os with
  | [] => Some w
  | o :: os => if gob md w o then match step o w with WOk _ w => go_gc md os w | WFail _ _ => None end else None
  end.
Lemma go_gc_reach {E : Env} md os : forall w w', reach_gc md w -> go_gc md os w = Some w' -> reach_gc md w'.
Proof.
  induction os as [|o os IH]; simpl; intros w w' HR; [by intros [= <-]|].
  destruct (gob md w o) eqn:Ha; [|done]. destruct (step o w) as [r w1|] eqn:Hs; [|done]. apply IH.
  eapply rgc_step; [done| |done]. destruct o; try (left; by apply allowedb_ok). right; eauto.
Qed.
Definition WG {E : Env} (md : mode) (os : list op) : world := default w_init (go_gc md os w_init).
Lemma WG_reach {E : Env} md os : bool_decide (is_Some (go_gc md os w_init)) = true -> reach_gc md (WG md os).
Proof. unfold WG. intros [w Hw]%bool_decide_eq_true. rewrite Hw. simpl. eapply go_gc_reach; [constructor|exact Hw]. Qed.

(** C29: after a garbage collection and_rec is still conjunction *)
Definition C29_claim : Prop := forall E, env_ok E -> forall w i j x a b, reach_gc or_mode w -> covers w x ->
  val w i x = Some a -> val w j x = Some b ->
  ensures (step (OAnd i j) w) (fun _ w' => val w' (length (w_h w)) x = Some (a && b)).
(** r = x0 & x1; drop r; collect; x2 takes r's memory; x0 & x1 now returns x2 *)
Theorem C29_stale_memo_refuted : ~ C29_claim.
Proof.
  intros H. pose (E := tenv false false false).
  set (w := WG or_mode [OProj 0; OProj 1; OAnd 0 1; ODrop 2; OGc 200; OProj 2]).
  assert (HR : reach_gc or_mode w) by (apply WG_reach; comp).
  specialize (H E (tenv_ok _ _ _) w 0%nat 1%nat [true; true; false] true true HR ltac:(vm_compute; discriminate) ltac:(comp) ltac:(comp)).
  assert (Hw : step (OAnd 0 1) w = WOk (oko (step (OAnd 0 1) w)) (okw (step (OAnd 0 1) w))) by okw1.
  rewrite Hw in H. cbn [ensures] in H. clear -H.
  assert (val (okw (step (OAnd 0 1) w)) (length (w_h w)) [true; true; false] = Some false) as H' by comp. rewrite H' in H. discriminate H.
Qed.

Definition projs (n : nat) : list op := map (fun k => OProj (N.of_nat k)) (seq 0 n).
Definition ands (n : nat) : list op := map (fun k => OAnd 0 k) (seq 1 (n - 1)).
(** C30: garbage collection returns *)
Definition C30_claim : Prop := forall E, env_ok E -> forall w, reach or_mode w -> exists fuel r w', step (OGc fuel) w = WOk r w'.
(** x0 & x1, ..., x0 & x29; drop the tenth; collect *)
Theorem C30_nontermination_refuted : ~ C30_claim.
Proof.
  intros H. pose (E := tenv false false false). set (w := W or_mode (projs 30 ++ ands 30 ++ [ODrop 39])).
  assert (HR : reach or_mode w) by (apply W_reach; comp).
  destruct (H E (tenv_ok _ _ _) w HR) as (fuel&r&w'&Hs). clear H HR.
  assert (Hsmall : forallb (fun f => failb (step (OGc f) w)) (seq 0 200) = true) by comp.
  destruct (decide (fuel < 200)%nat) as [Hlt|Hge].
  - rewrite forallb_forall in Hsmall. specialize (Hsmall fuel). rewrite Hs in Hsmall. discriminate Hsmall. apply in_seq. lia.
  - clear Hsmall. assert (exists g, fuel = 200 + g)%nat as [g ->] by (exists (fuel - 200)%nat; lia).
    assert (Hbig : failb (step (OGc (200 + g)) w) = true) by comp. by rewrite Hs in Hbig.
Qed.
Lemma none_live w : forallb (fun o : option ptr => match o with None => true | Some _ => false end) (w_h w) = true -> forall i, ~ live w i.
Proof.
  intros Hl i (p&Hp&_). apply hnd_lookup in Hp. rewrite forallb_forall in Hl. specialize (Hl (Some p)). discriminate Hl.
  apply elem_of_list_In. by eapply elem_of_list_lookup_2.
Qed.
(** C31: garbage collection without handles leaves only the constants *)
Definition C31_claim : Prop := forall E, env_ok E -> forall w fuel r w', reach or_mode w -> (forall i, ~ live w i) ->
  step (OGc fuel) w = WOk r w' -> mgr_nr_nodes (w_s w') = 2.
Theorem C31_leak_refuted : ~ C31_claim.
Proof.
  intros H. pose (E := tenv false false false). set (w := W or_mode (projs 11 ++ ands 11 ++ map ODrop (seq 0 21))).
  assert (HR : reach or_mode w) by (apply W_reach; comp).
  assert (Hs : step (OGc 300) w = WOk OutU (okw (step (OGc 300) w))) by okw1.
  assert (Hl : forallb (fun o : option ptr => match o with None => true | Some _ => false end) (w_h w) = true) by comp.
  specialize (H E (tenv_ok _ _ _) w 300%nat OutU (okw (step (OGc 300) w)) HR).
  specialize (H (none_live w Hl) Hs).
  assert (He : mgr_nr_nodes (w_s (okw (step (OGc 300) w))) =? 2 = false) by comp. rewrite H in He. discriminate He.
Qed.
(** C32: garbage collection never fails an assert and has no undefined behaviour *)
Definition C32_claim (nd : bool) : Prop := forall E, env_ok E -> e_ndebug = nd -> forall w fuel e w', reach or_mode w ->
  step (OGc fuel) w = WFail e w' -> e = ELoop.
(** 33 nodes x0 & x1, ..., all dropped: the table (128 cells) is empty and is to shrink *)
Theorem C32_shrink_refuted nd : ~ C32_claim nd.
Proof.
  intros H. pose (E := tenv nd false false). set (w := W or_mode (projs 34 ++ ands 34 ++ map ODrop (seq 0 67))).
  assert (HR : reach or_mode w) by (destruct nd; apply W_reach; comp).
  assert (He : exists e w', step (OGc 300) w = WFail e w' /\ e <> ELoop).
  { assert (Hf : match step (OGc 300) w with WFail EAssert _ | WFail EUB _ => true | _ => false end = true) by (destruct nd; comp).
    destruct (step (OGc 300) w) as [? ?|e ?]; [done|]. eexists _, _. split; [done|]. by destruct e. }
  destruct He as (e&w'&Hs&Hne). by apply Hne, (H E (tenv_ok _ _ _) eq_refl w 300%nat e w').
Qed.
