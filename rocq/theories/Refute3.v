(** * Refute3.v -- bdd_and of a BDD with a rerouted arc (C65) *)
From Verif Require Export Refute2 PropsColl6.
Open Scope N_scope.

(** the conjunction of a rerouted BDD with itself has the same values *)
Definition C65_conjunction_claim (nd : bool) : Prop := forall E, env_ok E -> e_ndebug = nd -> forall c nr k m c',
  @built E c -> csmall c -> nr < nr_bdds c -> @node_nr E c nr k m -> cn_is_terminal c m = inr false -> @cn_set_lo_to_1 E c m = inr c' ->
  @csatisfiable E c' [nr; nr] -> exists r c'', @bdd_and2 E c' nr nr 100 = inr (r, c'') /\ forall x, ccovers c nr x -> @cval E c'' r x = @cval E c' nr x.
Definition R3 (nd : bool) : Env := tenv nd false false.
(** x0 & x1 *)
Definition w3 (nd : bool) : world := @Refute.W (R3 nd) MOrd [OProj 0; OProj 1; OAnd 0 1].
Definition co3 (nd : bool) : option coll := match @step (R3 nd) (QCollAdd coll_init 2) (w3 nd) with WOk (OutC _ c') _ => Some c' | _ => None end.
Definition c3_ : coll := Coll [Instr 2 1 0; Instr 2 3 1; Instr cbot cbot cbot; Instr ctop ctop ctop] [0; 4].
Lemma c3_built nd : @built (R3 nd) c3_.
Proof.
  assert (HR : @reach (R3 nd) MOrd (w3 nd)) by (destruct nd; apply W_reach; comp).
  assert (Hl : live (w3 nd) 2) by (destruct nd; apply liveb_ok; comp).
  assert (Hc : ~ @isconst (R3 nd) (w3 nd) 2) by (destruct nd; apply constb_ok; comp).
  assert (Hm : mgr_nr_nodes (w_s (w3 nd)) < 2 ^ 62) by (destruct nd; apply N.ltb_lt; comp).
  assert (He : co3 nd = Some c3_) by (destruct nd; comp). unfold co3 in He.
  destruct (@step (R3 nd) (QCollAdd coll_init 2) (w3 nd)) as [[] w'|] eqn:Hs; try discriminate He. injection He as ->.
  eapply (@built_add (R3 nd)); [apply (@built_init (R3 nd))|exact HR|exact Hl|exact Hc|exact Hm|exact Hs].
Qed.
(** both arcs of the second node now lead to 1: bdd_and takes it for a terminal *)
Definition c3' : coll := Coll [Instr 2 1 0; Instr 3 3 1; Instr cbot cbot cbot; Instr ctop ctop ctop] [0; 4].
Theorem C65_conjunction_refuted nd : ~ C65_conjunction_claim nd.
Proof.
  intros H. assert (Hnd : @e_ndebug (R3 nd) = nd) by done. assert (Hsm : csmall c3_) by (apply N.ltb_lt; comp).
  assert (Hm : @node_nr (R3 nd) c3_ 0 1 (1, 0)) by (exists 4; destruct nd; split_and!; comp).
  assert (Hset : @cn_set_lo_to_1 (R3 nd) c3_ (1, 0) = inr c3') by (destruct nd; comp).
  assert (Hsat : @csatisfiable (R3 nd) c3' [0; 0]) by (exists [true; true]; destruct nd; repeat constructor; comp).
  destruct (H (R3 nd) (tenv_ok _ _ _) Hnd c3_ 0 1 (1, 0) c3' (c3_built nd) Hsm eq_refl Hm eq_refl Hset Hsat) as (r&c''&He&Hx).
  destruct nd; [|vm_compute in He; discriminate He].
  assert (Hcov : ccovers c3_ 0 [false; false]).
  { intros v (e&(a&b&i&[Ha Hb]&Hi&Hei)&<-). injection Ha as <-. injection Hb as <-. assert (i = 0 \/ i = 1) as [-> | ->] by lia; injection Hei as <-; comp. }
  specialize (Hx _ Hcov).
  assert (Hv : match @bdd_and2 (R3 true) c3' 0 0 100 with inr (r, c'') => @cval (R3 true) c'' r [false; false] = Some true | inl _ => False end) by comp.
  rewrite He in Hv. rewrite Hv in Hx. assert (Hf : @cval (R3 true) c3' 0 [false; false] = Some false) by comp. rewrite Hf in Hx. discriminate Hx.
Qed.
