(** * Refute2.v -- more refuted claims: mixed histories in two environments (C34), destruction
    after garbage collection (C61) *)
From Verif Require Export Refute PropsEnv2.
Open Scope N_scope.

(** ** Two environments *)
Definition detb (o : op) : bool := match o with OAndLim _ _ _ | OPostAll _ | OBfsAll _ => false | _ => true end.
Fixpoint go2 (E1 E2 : Env) (md : mode) (os : list op) (w1 w2 : world) : option (world * world) :=
  match os with
  | [] => Some (w1, w2)
  | o :: os => if detb o && @allowedb E1 md w1 o && @allowedb E2 md w2 o then
      match @step E1 o w1, @step E2 o w2 with WOk _ w1, WOk _ w2 => go2 E1 E2 md os w1 w2 | _, _ => None end else None
  end.
Lemma go2_reach E1 E2 md os : forall w1 w2 w1' w2', reach2 E1 E2 md w1 w2 -> go2 E1 E2 md os w1 w2 = Some (w1', w2') -> reach2 E1 E2 md w1' w2'.
Proof.
  induction os as [|o os IH]; simpl; intros w1 w2 w1' w2' HR; [by intros [= <- <-]|].
  destruct (detb o) eqn:Hd; [|done]. destruct (@allowedb E1 md w1 o) eqn:Ha1; [|done]. destruct (@allowedb E2 md w2 o) eqn:Ha2; [|done]. simpl.
  destruct (@step E1 o w1) as [r1 v1|] eqn:Hs1; [|done]. destruct (@step E2 o w2) as [r2 v2|] eqn:Hs2; [|done]. apply IH.
  eapply (reach2_step _ _ _ w1 w2 o); [exact HR|by destruct o|by apply (@allowedb_ok E1)|by apply (@allowedb_ok E2)|exact Hs1|exact Hs2].
Qed.
(** asserts off, arguments evaluated from the right, other addresses *)
Definition TE2 : Env := {| e_ndebug := true; e_rtl := true; e_page := fun k => 65536 + 262144 * N.of_nat k;
  e_rand := fun k => (N.of_nat k * 48271 + 7) mod hashtablesize; e_mgr := 5000; e_botkey := 1; e_topkey := 2; e_botmark := true; e_topmark := false |}.
Lemma HE2 : env_ok TE2.
Proof.
  unfold env_ok, TE2; cbn [e_page e_mgr e_rand e_botkey e_topkey]. unfold node_size, node_page_size, hashtablesize.
  repeat split; intros; try lia. apply N.mod_lt; lia.
Qed.

Definition fdetb (o : op) : bool := match o with OLow _ | OHigh _ => false | _ => detb o end.
Fixpoint go2f (E1 E2 : Env) (md : mode) (os : list op) (w1 w2 : world) : option (world * world) :=
  match os with
  | [] => Some (w1, w2)
  | o :: os => if fdetb o && @allowedb E1 md w1 o && @allowedb E2 md w2 o then
      match @step E1 o w1, @step E2 o w2 with WOk _ w1, WOk _ w2 => go2f E1 E2 md os w1 w2 | _, _ => None end else None
  end.
Lemma go2f_reach E1 E2 md os : forall w1 w2 w1' w2', reach2f E1 E2 md w1 w2 -> go2f E1 E2 md os w1 w2 = Some (w1', w2') -> reach2f E1 E2 md w1' w2'.
Proof.
  induction os as [|o os IH]; simpl; intros w1 w2 w1' w2' HR; [by intros [= <- <-]|].
  destruct (fdetb o) eqn:Hd; [|done]. destruct (@allowedb E1 md w1 o) eqn:Ha1; [|done]. destruct (@allowedb E2 md w2 o) eqn:Ha2; [|done]. simpl.
  destruct (@step E1 o w1) as [r1 v1|] eqn:Hs1; [|done]. destruct (@step E2 o w2) as [r2 v2|] eqn:Hs2; [|done]. apply IH.
  eapply (reach2f_step _ _ _ w1 w2 o); [exact HR|by destruct o|by apply (@allowedb_ok E1)|by apply (@allowedb_ok E2)|exact Hs1|exact Hs2].
Qed.
Definition W1 (E1 E2 : Env) (md : mode) (os : list op) : world :=
  match go2f E1 E2 md os (@w_init E1) (@w_init E2) with Some (a, _) => a | None => @w_init E1 end.
Definition W2 (E1 E2 : Env) (md : mode) (os : list op) : world :=
  match go2f E1 E2 md os (@w_init E1) (@w_init E2) with Some (_, a) => a | None => @w_init E2 end.
Definition W12ok (E1 E2 : Env) (md : mode) (os : list op) : bool :=
  match go2f E1 E2 md os (@w_init E1) (@w_init E2) with Some _ => true | None => false end.
Lemma W12_reach E1 E2 md os : W12ok E1 E2 md os = true -> reach2f E1 E2 md (W1 E1 E2 md os) (W2 E1 E2 md os).
Proof.
  unfold W12ok, W1, W2. destruct (go2f E1 E2 md os (@w_init E1) (@w_init E2)) as [[a b]|] eqn:Hg; [|discriminate].
  intros _. eapply go2f_reach; [constructor|exact Hg].
Qed.

(** C34 for programs that use both or and xor *)
Definition C34_mixed_claim : Prop := forall E1 E2, env_ok E1 -> env_ok E2 -> forall w1 w2 i x,
  reach2f E1 E2 MMix w1 w2 -> live w1 i -> covers w1 x -> covers w2 x -> @val E1 w1 i x = @val E2 w2 i x.
(** x0, x1, x2, x0 | x1, x0 & x2, x0 ^ x1: whether the last call finds the memo entry of the
    disjunction depends on whether the conjunction has overwritten it, hence on hash keys *)
Theorem C34_mixed_refuted : ~ C34_mixed_claim.
Proof.
  intros H. pose (E1 := tenv false false false). set (os := [OProj 0; OProj 1; OProj 2; OOr 0 1; OAnd 0 2; OXor 0 1]).
  assert (HR : reach2f E1 TE2 MMix (W1 E1 TE2 MMix os) (W2 E1 TE2 MMix os)) by (apply W12_reach; comp).
  assert (Hl : live (W1 E1 TE2 MMix os) 5) by (apply liveb_ok; comp).
  assert (Hc1 : covers (W1 E1 TE2 MMix os) [true; true; true]) by (apply N.leb_le; comp).
  assert (Hc2 : covers (W2 E1 TE2 MMix os) [true; true; true]) by (apply N.leb_le; comp).
  specialize (H E1 TE2 (tenv_ok _ _ _) HE2 _ _ 5%nat [true; true; true] HR Hl Hc1 Hc2).
  assert (@val E1 (W1 E1 TE2 MMix os) 5 [true; true; true] = Some true) as H1 by comp.
  assert (@val TE2 (W2 E1 TE2 MMix os) 5 [true; true; true] = Some false) as H2 by comp.
  rewrite H1, H2 in H. discriminate H.
Qed.

(** ** C61: the manager can be destroyed after a garbage collection, and destruction frees every node *)
Definition C61_claim (nd : bool) : Prop := forall E, env_ok E -> e_ndebug = nd -> forall w, reach_gc or_mode w ->
  exists w', shutdown w = WOk OutU w' /\ mgr_nr_nodes (w_s w') = 2.
Definition freed (r : wres) : bool := match r with WOk _ w => mgr_nr_nodes (w_s w) =? 2 | WFail _ _ => false end.
(** x0 & x1, ..., x0 & x10; all handles dropped; collect; destroy *)
Theorem C61_destruction_after_gc_refuted nd : ~ C61_claim nd.
Proof.
  intros H. pose (E := tenv nd false false). set (w := WG or_mode (projs 11 ++ ands 11 ++ map ODrop (seq 0 21) ++ [OGc 300])).
  assert (HR : reach_gc or_mode w) by (destruct nd; apply WG_reach; comp).
  destruct (H E (tenv_ok _ _ _) eq_refl w HR) as (w'&Hs&Hn). clear H HR.
  assert (Hf : freed (shutdown w) = false) by (destruct nd; comp).
  rewrite Hs in Hf. cbn [freed] in Hf. rewrite Hn in Hf. discriminate Hf.
Qed.
