(** * PropsColl3.v -- export, import (C46, C47), the builder interface (C51), depths (C57) *)
From Verif Require Export PropsColl2 PropsState.
Open Scope N_scope.

(** ** vocabulary of C57 *)
(** a path of [n] arcs from [p] to a constant *)
Inductive down_path {E : Env} (h : heap) : ptr -> nat -> Prop :=
| dp_sink p : p = botsink \/ p = topsink -> down_path h p 0
| dp_lo p x n : p <> botsink -> p <> topsink -> h !! p = Some x -> down_path h (n_lo x) n -> down_path h p (S n)
| dp_hi p x n : p <> botsink -> p <> topsink -> h !! p = Some x -> down_path h (n_hi x) n -> down_path h p (S n).
Definition longest {E : Env} (h : heap) (p : ptr) (n : N) : Prop :=
  down_path h p (N.to_nat n) /\ forall m, down_path h p m -> N.of_nat m <= n.
(** the client: register the constants, then the nodes [l] one by one; the returned depths *)
Fixpoint depth_adds {E : Env} (l : list ptr) (d : gmap N N) : M (list N) :=
  match l with
  | [] => ret []
  | p :: l => let* (k, d) := depth_add_node p d in let* ks := depth_adds l d in ret (k :: ks)
  end.
Definition depths {E : Env} (l : list ptr) : M (list N) :=
  let* d := depth_add_sink true botsink ∅ in let* d := depth_add_sink false topsink d in depth_adds l d.

Section props_coll3.
Context {E : Env} (HE : env_ok E).

(** ** C46: export *)
Lemma centry_cvar c nr x : centry c nr x -> cvar c nr (i_idx x).
Proof. intros H. by exists x. Qed.
(** the stored BDD becomes a handle with the same function *)
Theorem C46_export md w c nr : reach md w -> built c -> csmall c -> nr < nr_bdds c -> (forall v, cvar c nr v -> v < nr_variables (w_s w)) ->
  (md_ord md = true -> cordered c nr) ->
  (forall x, covers w x -> is_Some (cval c nr x)) /\ yields w (OExport c nr) (fun x => default false (cval c nr x)).
Proof.
  intros HR HB Hsm Hn Hv Ho. pose proof (reach_inv HE _ _ HR) as HW. pose proof (built_CInv HE _ HB) as HI. destruct (croot_ex c nr HI Hn) as [t Ht].
  assert (Hc : forall x, covers w x -> cval c nr x = Some (evalt t (asg x))).
  { intros x Hx. eapply cval_covers; [done|done|]. intros v Hvv. specialize (Hv v Hvv). unfold covers in Hx. lia. }
  split; [intros x Hx; rewrite (Hc x Hx); eauto|].
  eapply (sem_yields HE md w _ (evalt t)); [done|snd_tac| | |].
  - simpl. split_and!; auto. intros x Hx. by apply Hv, centry_cvar.
  - destruct Ht as (a&Ha&Ht). exists a, t. done.
  - intros x Hx. by rewrite (Hc x Hx).
Qed.
Lemma newh_same md w i p t m : hrep w i p t -> sat m (w_s w) (fun q s' => Inv md (hcount (w_h w)) s' /\ ext (w_s w) s' /\ repr (s_heap s') q t) ->
  ensures (newh w m) (fun out w' => out = OutP p /\ hnd w' (length (w_h w)) = Some p).
Proof.
  intros Hr Hm. unfold newh. unfold sat in Hm. destruct (m (w_s w)) as [q s|[] s]; try done. destruct Hm as (HI&He&Hq).
  assert (q = p) as ->. { eapply repr_inj; [apply HI|exact Hq|]. eapply repr_ext; [exact (proj1 He)|apply Hr]. }
  assert (H0 : p <> 0) by apply Hr.
  destruct (ref_acquire_spec _ _ s p HI) as (s'&Hs'&_).
  { intros _. destruct (repr_in _ _ _ _ _ (i_heap _ _ _ HI) Hq). by eapply elem_of_dom_2. }
  rewrite Hs'. simpl. split; [done|]. unfold hnd. simpl. by rewrite lookup_app_r, Nat.sub_diag by lia.
Qed.
(** exporting what add_bdd stored gives the handle itself *)
Theorem C46_roundtrip md w c i p c' k w' : reach md w -> built c -> hnd w i = Some p -> p <> 0 -> ~ isconst w i -> mgr_nr_nodes (w_s w) < 2 ^ 62 ->
  step (QCollAdd c i) w = WOk (OutC k c') w' -> csmall c' ->
  ensures (step (OExport c' k) w') (fun out w'' => out = OutP p /\ hnd w'' (length (w_h w)) = Some p).
Proof.
  intros HR HB Hi H0 Hc Hsz Hst Hsm. pose proof (reach_inv HE _ _ HR) as HW. pose proof (built_CInv HE _ HB) as HI.
  destruct (winv_repr _ _ _ _ HW Hi H0) as [t Ht]. assert (Hr : hrep w i p t) by done.
  destruct (add_facts _ _ _ _ _ _ HW HI Hr Hc Hsz) as (po&l&_&H1&H2&H3&H4&_&_&_&Hup). cbv zeta in *. rewrite Hst in H1. injection H1 as -> -> ->.
  destruct (croot_seg _ _ _ H2 H4) as (a&b&Hs&Hg&Hrep). simpl. eapply newh_same; [exact Hr|].
  eapply (export_spec HE md _ _ _ a b H2 Hs); auto.
  - intros j x Hj Hx. assert (Ho : occurs (i_idx x) t).
    { eapply cvar_occurs; [exact H2|exact Hup|exact H4|]. apply centry_cvar. by exists a, b, j. }
    eapply hrep_occurs; [exact HW|exact Hr|exact Ho].
  - intros Hmo. eapply seg_ordered; [exact Hg|by apply Hup|exact Hrep|]. eapply ho_ord; [apply HW|done|exact Ht].
Qed.
(** more generally, in an ordered manager: the handle that has the function of the stored BDD *)
Theorem C46_export_canonical md w c nr i p : md_ord md = true -> reach md w -> built c -> csmall c -> nr < nr_bdds c -> cordered c nr ->
  (forall v, cvar c nr v -> v < nr_variables (w_s w)) -> hnd w i = Some p -> p <> 0 -> (forall x, covers w x -> cval c nr x = val w i x) ->
  ensures (step (OExport c nr) w) (fun out _ => out = OutP p).
Proof.
  intros Hmo HR HB Hsm Hn Ho Hv Hi H0 Heq. pose proof (reach_inv HE _ _ HR) as HW. pose proof (built_CInv HE _ HB) as HI.
  destruct (winv_repr _ _ _ _ HW Hi H0) as [t Ht]. assert (Hr : hrep w i p t) by done.
  destruct (croot_ex c nr HI Hn) as [u Hu]. destruct (croot_seg _ _ _ HI Hu) as (a&b&Hs&Hg&Hrep).
  assert (u = t) as ->.
  { apply canon; [by eapply cord_ordt|by eapply ho_ord; [apply HW|done|exact Ht]|by eapply croot_redt|by eapply repr_redt; [apply HW|exact Ht]|].
    intros r. specialize (Heq (tabx w r)).
    assert (Hcov : covers w (tabx w r)) by (unfold covers, nr_variables, tabx; rewrite map_length, seq_length; lia).
    rewrite (val_covers _ _ _ _ _ _ HW Hr Hcov), (tabx_val _ _ _ _ _ _ HW Hr) in Heq by done.
    specialize (Heq Hcov). rewrite (cval_croot _ _ _ _ HI Hu) in Heq. unfold tabx in Heq.
    assert (Hocc : forall v, occurs v u -> v < N.of_nat (length (s_vars (w_s w)))).
    { intros v Hov. apply Hv. by eapply croot_occurs. }
    pose proof (tabl_eval (length (s_vars (w_s w))) r u Hocc) as Htb. unfold tabl in Htb. congruence. }
  pose proof (newh_same md w i p t (export_bdd c nr) Hr) as Hns. cbn [step].
  assert (He : ensures (newh w (export_bdd c nr)) (fun out w' => out = OutP p /\ hnd w' (length (w_h w)) = Some p)).
  { apply Hns. eapply (export_spec HE md _ _ _ a b HI Hs); auto.
    - intros j x Hj Hx. apply Hv, centry_cvar. by exists a, b, j.
    - intros _. by eapply cordered_at. }
  destruct (newh w (export_bdd c nr)) as [o w'|[] w']; cbn [ensures] in *; tauto.
Qed.

(** ** C47: import into a manager *)
Theorem C47_import md w c nr : reach md w -> built c -> nr < nr_bdds c -> md_xor md = false -> (forall v, cvar c nr v -> v < topsink_index) ->
  (e_ndebug = true \/ csize_upto c nr <= 1002) -> (md_ord md = true /\ cordered c nr \/ forall v, cvar c nr v -> v + 1 < nr_variables (w_s w)) ->
  ensures (step (OImport c nr) w) (fun out w' => exists p, out = OutP p /\ hnd w' (length (w_h w)) = Some p /\
    (forall v, cvar c nr v -> v < nr_variables (w_s w')) /\
    evals w' (length (w_h w)) (fun x => default false (cval c nr x)) /\ forall x, covers w' x -> is_Some (cval c nr x)).
Proof.
  intros HR HB Hn Hx Hv Hd Ho. pose proof (reach_inv HE _ _ HR) as HW. pose proof (built_CInv HE _ HB) as HI. destruct (croot_ex c nr HI Hn) as [t Ht].
  assert (Ha : allowed md w (OImport c nr)).
  { simpl. split_and!; auto using mdx_or; [intros x Hx'; by apply Hv, centry_cvar|].
    destruct Ho as [Ho|Ho]; [by left|right]. intros x Hx'. by apply Ho, centry_cvar. }
  assert (Hs : opsem w (OImport c nr) (evalt t)). { destruct Ht as (a&Ha'&Ht). exists a, t. done. }
  pose proof (step_sem HE _ _ _ _ HW Ha Hs) as Hst. unfold ensures in *. destruct (step (OImport c nr) w) as [r w'|[] w'] eqn:Hstep; auto.
  destruct Hst as (p&u&->&HW'&Hl&Hh&Hr&Hu). specialize (Hu ltac:(snd_tac)). exists p.
  assert (Hvar : forall v, cvar c nr v -> v < nr_variables (w_s w')).
  { destruct (cseg_ex _ _ HI Hn) as (a&b&Hsg).
    assert (Him : sat (mgr_add_bdd c nr) (w_s w) (fun q s' => postlp (md_xor md = false) md (hcount (w_h w)) (w_s w) (evalt t) q s' /\ im_vars c b s' a)).
    { destruct Ht as (a'&Ha'&Ht). assert (a' = a) as -> by (destruct Hsg; congruence). eapply (import_spec HE md (mdx_or _ Hx) _ c nr a b HI Hsg _ t HW); auto.
      - intros i x Hi Hx'. apply Hv, centry_cvar. by exists a, b, i.
      - unfold csize_upto in Hd. by rewrite (proj2 Hsg) in Hd.
      - destruct Ho as [[Hmo Ho]|Ho]; [left; split; [done|by eapply cordered_at]|right]. intros i x Hi Hx'. apply Ho, centry_cvar. by exists a, b, i. }
    intros v (x&(a'&b'&i&Hs'&Hi&Hxi)&<-). assert (a' = a /\ b' = b) as [-> ->] by (destruct Hsg, Hs'; split; congruence).
    cbn [step] in Hstep. unfold newh in Hstep. unfold sat in Him. destruct (mgr_add_bdd c nr (w_s w)) as [q s1|[] s1] eqn:Hm; try done.
    destruct Him as [(HI1&_&u'&Hu'&_) Him]. destruct (ref_acquire_spec _ _ s1 q HI1) as (s2&Hs2&HX).
    { intros _. destruct (repr_in _ _ _ _ _ (i_heap _ _ _ HI1) Hu'). by eapply elem_of_dom_2. }
    rewrite Hs2 in Hstep. injection Hstep as _ <-. cbn [w_s]. specialize (Him i x ltac:(lia) Hxi). destruct HX as (_&[_ Hxv]&_). unfold nr_variables in *. lia. }
  assert (Hc : forall x, covers w' x -> cval c nr x = Some (evalt t (asg x))).
  { intros x Hx'. eapply cval_covers; [done|done|]. intros v Hvv. specialize (Hvar v Hvv). unfold covers in Hx'. lia. }
  split_and!; [done|apply Hr|done| |].
  - intros x Hx'. rewrite (val_covers _ _ _ _ _ _ HW' Hr Hx'), Hu. by rewrite (Hc x Hx').
  - intros x Hx'. rewrite (Hc x Hx'). eauto.
Qed.
(** with asserts, a BDD stored at offset 1000 or later cannot be imported *)
Theorem C47_offset_refuted md w c nr : reach md w -> built c -> nr < nr_bdds c -> e_ndebug = false -> 1003 <= csize_upto c nr ->
  step (OImport c nr) w = WFail EAssert w.
Proof.
  intros HR HB Hn Hd Hsz. pose proof (built_CInv HE _ HB) as HI. destruct (cseg_ex _ _ HI Hn) as (a&b&Hs). pose proof (ci_seg _ HI _ _ _ Hs) as Hg.
  pose proof (sg_ab _ _ _ Hg) as Hab. assert (Hb : csize_upto c nr = b) by (unfold csize_upto; by rewrite (proj2 Hs)). rewrite Hb in Hsz.
  assert (He : mgr_add_bdd c nr (w_s w) = Fail EAssert (w_s w)).
  { unfold mgr_add_bdd. rewrite (bind_eq _ _ _ _ _ (assert_eq _ (w_s w) (proj2 (N.ltb_lt _ _) Hn))).
    rewrite (bind_eq _ _ _ _ _ (liftR_eq _ _ (w_s w) (del_at_eq _ _ _ (proj1 Hs)))). rewrite (bind_eq _ _ _ _ _ (liftR_eq _ _ (w_s w) (del_at_eq _ _ _ (proj2 Hs)))).
    rewrite (down_to_cons a b), (down_to_cons a (b - 1)), (down_to_cons a (b - 1 - 1)) by lia.
    destruct (seg_ix _ _ _ Hg (b - 1)) as [x Hx]; [lia|]. destruct (seg_ix _ _ _ Hg (b - 1 - 1)) as [y Hy]; [lia|]. destruct (seg_ix _ _ _ Hg (b - 1 - 1 - 1)) as [z Hz]; [lia|].
    destruct (seg_last _ _ _ Hg (b - 1) x) as [bx Tx]; [lia|done|]. destruct (seg_last _ _ _ Hg (b - 1 - 1) y) as [by_ Ty]; [lia|done|].
    destruct (sg_node _ _ _ Hg (b - 1 - 1 - 1) z) as (Z1&Z2&_); [lia|done|].
    destruct (cterm_instr _ _ Tx) as (_&X1&X2). destruct (cterm_instr _ _ Ty) as (_&Y1&Y2). destruct (cnode_instr _ Z1 Z2) as (_&Zt&Zb).
    assert (St : forall j e bt l m, ix (c_ins c) j = Some e -> ci_is_top e = bt -> ci_is_bot e = negb bt ->
      exists m', import_loop c (j :: l) m (w_s w) = import_loop c l m' (w_s w)).
    { intros j e bt l m Hj T1 T2. cbn [import_loop]. rewrite (bind_eq _ _ _ _ _ (liftR_eq _ _ (w_s w) (vecR_eq _ _ _ Hj))). rewrite T1, T2.
      destruct bt; cbn [negb]; eauto. }
    assert (Hl : import_loop c (b - 1 :: b - 1 - 1 :: b - 1 - 1 - 1 :: down_to a (b - 1 - 1 - 1)) ∅ (w_s w) = Fail EAssert (w_s w)).
    { destruct (St _ _ _ (b - 1 - 1 :: b - 1 - 1 - 1 :: down_to a (b - 1 - 1 - 1)) ∅ Hx X1 X2) as [m ->].
      destruct (St _ _ _ (b - 1 - 1 - 1 :: down_to a (b - 1 - 1 - 1)) m Hy Y1 Y2) as [m' ->].
      cbn [import_loop]. rewrite (bind_eq _ _ _ _ _ (liftR_eq _ _ (w_s w) (vecR_eq _ _ _ Hz))). rewrite Zt, Zb.
      assert (b - 1 - 1 - 1 <? 1000 = false) as -> by (apply N.ltb_ge; lia). unfold bind at 1, assert_, assertR. by rewrite Hd. }
    unfold bind. by rewrite Hl. }
  simpl. unfold newh. rewrite He. by destruct w.
Qed.

(** ** C51: the builder interface *)
(** add nodes labelled [vs] *)
Fixpoint add_nodes (vs : list N) (c : coll) : R coll :=
  match vs with
  | [] => inr c
  | v :: vs => letR* x := add_bdd_node c v in add_nodes vs (snd x)
  end.
(** with asserts the first add_bdd_node fails its own range check *)
Theorem C51_builder_assert_refuted c v : built c -> csmall c -> e_ndebug = false -> add_bdd_node (snd (new_bdd c)) v = inl EAssert.
Proof.
  intros HB Hsm Hd. pose proof (built_CInv HE _ HB) as HI. pose proof (nr_bdds_len _ HI) as Hl. pose proof (del_len _ HI). unfold csmall in Hsm.
  unfold add_bdd_node, mk_cnode, new_bdd. cbn [snd c_ins c_del]. rewrite app_length. cbn [length].
  rewrite sub64_small by (unfold two64; lia). unfold assertRR at 1. rewrite Hd. unfold del_at at 1, vecR. cbn [c_del].
  rewrite lookup_app_r by lia. replace (N.to_nat (N.of_nat (length (c_del c) + 1) - 2 + 1) - length (c_del c))%nat with 0%nat by lia. cbn.
  rewrite N.ltb_irrefl. unfold assertR. by rewrite Hd.
Qed.
Lemma add_nodes_ndebug vs : forall c, e_ndebug = true -> add_nodes vs c = inr (Coll (c_ins c ++ map (fun v => Instr temp_undef temp_undef v) vs) (c_del c)).
Proof.
  induction vs as [|v vs IH]; intros c Hd; cbn [add_nodes map]; [rewrite app_nil_r; by destruct c|].
  unfold add_bdd_node, mk_cnode, assertRR. rewrite Hd. cbn [bindR snd fst]. rewrite IH by done. cbn [c_ins c_del]. by rewrite <- app_assoc.
Qed.
(** without asserts, close_bdd accepts the unfinished BDD (its loop never runs), evaluating it is
    out of bounds *)
Theorem C51_builder_ndebug_refuted c v vs x : built c -> csmall c -> 0 < nr_bdds c -> e_ndebug = true -> v < N.of_nat (length x) -> v < cbot ->
  N.of_nat (length vs) < 2 ^ 62 ->
  exists c1 c2, add_nodes (v :: vs) (snd (new_bdd c)) = inr c1 /\ close_bdd c1 = inr c2 /\ nr_bdds c2 = nr_bdds c + 1 /\ fst (new_bdd c) = nr_bdds c /\ c_evaluate c2 (fst (new_bdd c)) x = inl EUB.
Proof.
  intros HB Hsm Hn Hd Hv Hvb Hvs. pose proof (built_CInv HE _ HB) as HI. pose proof (nr_bdds_len _ HI) as Hl. pose proof (del_len _ HI) as Hdl. unfold csmall in Hsm.
  rewrite add_nodes_ndebug by done. remember (map (fun v => Instr temp_undef temp_undef v) (v :: vs)) as L eqn:HL. eexists _, _. split; [reflexivity|].
  assert (HLl : length L = S (length vs)) by (subst; cbn [length map]; by rewrite map_length).
  pose proof (back_del_len _ HI) as Hbk. unfold back_del in Hbk.
  assert (Hlast : ix (c_del c) (N.of_nat (length (c_del c)) - 1) = Some (N.of_nat (length (c_ins c)))).
  { pose proof (ci_last _ HI) as Hla. rewrite last_lookup in Hla. rewrite <- Hla. f_equal. lia. }
  assert (Hge : 3 <= N.of_nat (length (c_ins c))).
  { pose proof (ci_first _ HI) as H0. pose proof (del_mono _ _ _ _ _ HI H0 Hlast). lia. }
  unfold new_bdd. cbn [snd c_ins c_del]. unfold close_bdd. cbn [c_ins c_del].
  rewrite (app_length (c_del c)). cbn [length]. rewrite !sub64_small by (unfold two64; lia).
  replace (N.of_nat (length (c_del c) + 1) - 2) with (N.of_nat (length (c_del c)) - 1) by lia.
  assert (D1 : ix (c_del c ++ [N.of_nat (length (c_ins c))]) (N.of_nat (length (c_del c)) - 1) = Some (N.of_nat (length (c_ins c)))).
  { by apply lookup_app_l_Some. }
  assert (D2 : ix (c_del c ++ [N.of_nat (length (c_ins c))]) (N.of_nat (length (c_del c) + 1) - 1) = Some (N.of_nat (length (c_ins c)))).
  { rewrite lookup_app_r by lia. by replace (N.to_nat (N.of_nat (length (c_del c) + 1) - 1) - length (c_del c))%nat with 0%nat by lia. }
  unfold del_at. cbn [c_del]. rewrite (vecR_eq _ _ _ D1), (vecR_eq _ _ _ D2). cbn [bindR].
  rewrite sub64_small by (unfold two64; lia). rewrite N.min_l by (rewrite !app_length; lia).
  replace (N.to_nat (N.of_nat (length (c_ins c)) - 2 - N.of_nat (length (c_ins c)))) with 0%nat by lia. cbn [seq close_loop bindR]. change (map (fun k => N.of_nat (length (c_ins c)) + N.of_nat k) []) with (@nil N). cbn [close_loop bindR].
  rewrite (proj2 (N.ltb_ge _ _)) by (rewrite !app_length; lia).
  split; [reflexivity|]. replace (length (c_del c) + 1 - 1)%nat with (length (c_del c)) by lia. rewrite take_app.
  assert (Hnb : nr_bdds (Coll ((c_ins c ++ L) ++ [ci_topsink; ci_botsink])
     (c_del c ++ [N.of_nat (length ((c_ins c ++ L) ++ [ci_topsink; ci_botsink]))])) = nr_bdds c + 1).
  { unfold nr_bdds at 1. cbn [c_del]. rewrite app_length. cbn [length]. lia. }
  split; [exact Hnb|]. split; [done|]. cbn [fst]. unfold c_evaluate. rewrite Hnb, assertR_true by (apply N.ltb_lt; lia). cbn [bindR].
  assert (D3 : ix (c_del c) (nr_bdds c) = Some (N.of_nat (length (c_ins c)))) by (rewrite <- Hlast; f_equal; lia).
  unfold del_at. cbn [c_del]. rewrite (vecR_eq _ _ (N.of_nat (length (c_ins c)))) by (by apply lookup_app_l_Some). cbn [bindR c_ins].
  assert (Hx0 : ix ((c_ins c ++ L) ++ [ci_topsink; ci_botsink]) (N.of_nat (length (c_ins c))) = Some (Instr temp_undef temp_undef v)).
  { rewrite <- app_assoc, lookup_app_r by lia. subst L. by replace (N.to_nat (N.of_nat (length (c_ins c))) - length (c_ins c))%nat with 0%nat by lia. }
  cbn [c_eval_fuel c_ins]. rewrite (vecR_eq _ _ _ Hx0). cbn [bindR]. unfold ci_is_top, ci_is_bot. cbn [i_idx i_lo i_hi].
  rewrite (proj2 (N.eqb_neq v ctop)), (proj2 (N.eqb_neq v cbot)) by (unfold cbot, ctop in *; lia).
  rewrite assertR_true by (by apply N.ltb_lt). cbn [bindR]. destruct (lookup_lt_is_Some_2 x (N.to_nat v)) as [bv Hbv]; [lia|]. rewrite Hbv.
  rewrite !app_length. cbn [length]. destruct (length (c_ins c) + length (L) + 2)%nat as [|k] eqn:Hk; [lia|].
  cbn [c_eval_fuel c_ins]. unfold vecR. rewrite (proj2 (lookup_ge_None _ _)); [by destruct bv|].
  rewrite !app_length, HLl. cbn [length]. unfold temp_undef. lia.
Qed.

(** ** C57: depths *)
Lemma longest_sink h p : p = botsink \/ p = topsink -> longest h p 0.
Proof. intros Hp. split; [by apply dp_sink|]. intros m Hm. inversion Hm; subst; [lia|destruct Hp; done..]. Qed.
Lemma longest_node h p n a b : inner p -> h !! p = Some n -> longest h (n_lo n) a -> longest h (n_hi n) b -> longest h p (N.max a b + 1).
Proof.
  intros [Hb Ht] Hn [Ha Ha'] [Hb1 Hb2]. split.
  - replace (N.to_nat (N.max a b + 1)) with (S (N.to_nat (N.max a b))) by lia. destruct (N.max_spec a b) as [[_ ->]|[_ ->]]; [by eapply dp_hi|by eapply dp_lo].
  - intros m Hm. inversion Hm as [? [?|?]|? x k ? ? Hx Hk|? x k ? ? Hx Hk]; subst; try done; simplify_eq.
    + specialize (Ha' _ Hk). lia.
    + specialize (Hb2 _ Hk). lia.
Qed.
Lemma depth_adds_spec md H s l : Inv md H s -> forall a d, NoDup (a ++ l) -> (forall q, q ∈ l -> inner q /\ is_Some (s_heap s !! q)) ->
  (forall a' q b n c, l = a' ++ q :: b -> s_heap s !! q = Some n -> c = n_lo n \/ c = n_hi n -> inner c -> c ∈ a ++ a') ->
  (forall q, ~ inner q \/ q ∈ a -> exists k, d !! q = Some k /\ longest (s_heap s) q k) -> (forall q, inner q -> q ∉ a -> d !! q = None) ->
  exists ks, depth_adds l d s = Ok ks s /\ Forall2 (longest (s_heap s)) l ks.
Proof.
  intros HI. induction l as [|p l IH]; intros a d Hnd Hl Hb Hd Hd'; [exists []; auto|]. cbn [depth_adds].
  destruct (Hl p (elem_of_list_here _ _)) as [Hpi [n Hn]].
  assert (Hps : ~ sink p) by (intros [?|?]; by destruct Hpi).
  destruct (ho_node _ _ _ (i_heap _ _ _ HI) _ _ Hn Hps) as (_&_&_&t&Hr).
  assert (Hch : forall c, c = n_lo n \/ c = n_hi n -> exists k, d !! c = Some k /\ longest (s_heap s) c k).
  { intros c Hc. apply Hd. destruct (decide (c = botsink \/ c = topsink)) as [Hs|Hs].
    - left. intros [? ?]. by destruct Hs.
    - right. pose proof (Hb [] p l n c eq_refl Hn Hc) as Hin. rewrite app_nil_r in Hin. apply Hin. split; intros ->; auto. }
  destruct (Hch (n_lo n)) as (ka&Ka&La); [by left|]. destruct (Hch (n_hi n)) as (kb&Kb&Lb); [by right|].
  assert (Hpa : p ∉ a). { apply NoDup_app in Hnd as (_&Hx&_). intros Hin. apply (Hx p Hin). by left. }
  assert (He : depth_add_node p d s = Ok (N.max ka kb + 1, <[p := N.max ka kb + 1]> d) s).
  { unfold depth_add_node.
    assert (Ha : (if e_ndebug then ret tt else let* t0 := is_terminal p in assert_ (negb t0)) s = Ok tt s).
    { destruct e_ndebug; [done|]. rewrite (bind_eq _ _ _ _ _ (is_terminal_eq _ _ _ _ _ HI Hr)). apply assert_eq. by rewrite bool_decide_eq_false_2. }
    rewrite (bind_eq _ _ _ _ _ Ha), (bind_eq _ _ _ _ _ (getN_eq _ _ _ Hn)), Ka, Kb.
    rewrite (bind_eq _ _ _ _ _ (assert_eq _ s (bool_decide_eq_true_2 _ (Hd' p Hpi Hpa)))). unfold ins_new. by rewrite (Hd' p Hpi Hpa). }
  rewrite (bind_eq _ _ _ _ _ He).
  pose proof (longest_node _ _ _ _ _ Hpi Hn La Lb) as Lp.
  destruct (IH (a ++ [p]) (<[p := N.max ka kb + 1]> d)) as (ks&Hks&Hf).
  - by rewrite <- app_assoc.
  - intros q Hq. apply Hl. by right.
  - intros a' q b m c -> Hm Hc Hic. rewrite <- app_assoc. exact (Hb (p :: a') q b m c eq_refl Hm Hc Hic).
  - intros q Hq. destruct (decide (q = p)) as [->|Hne]; [rewrite lookup_insert; eauto|]. rewrite lookup_insert_ne by done.
    apply Hd. destruct Hq as [?|[?|?%elem_of_list_singleton]%elem_of_app]; [by left|by right|done].
  - intros q Hq [Hqa Hqp]%not_elem_of_app. rewrite lookup_insert_ne by (intros ->; apply Hqp; by left). auto.
  - exists ((N.max ka kb + 1) :: ks). rewrite (bind_eq _ _ _ _ _ Hks). auto.
Qed.
(** nodes added in any bottom-up order *)
Theorem C57_depths md w l : reach md w -> NoDup l -> (forall q, q ∈ l -> inner q /\ is_Some (s_heap (w_s w) !! q)) ->
  (forall a q b n c, l = a ++ q :: b -> s_heap (w_s w) !! q = Some n -> c = n_lo n \/ c = n_hi n -> inner c -> c ∈ a) ->
  exists ks, depths l (w_s w) = Ok ks (w_s w) /\ Forall2 (longest (s_heap (w_s w))) l ks.
Proof.
  intros HR Hnd Hl Hb. pose proof (reach_inv HE _ _ HR) as HW. unfold depths.
  assert (Hbt : botsink <> topsink) by apply bot_ne_top.
  assert (H1 : depth_add_sink true botsink ∅ (w_s w) = Ok (<[botsink := 0]> ∅) (w_s w)).
  { unfold depth_add_sink.
    assert (Ha : (if e_ndebug then ret tt else let* b := is_botsink botsink in assert_ b) (w_s w) = Ok tt (w_s w)).
    { destruct e_ndebug; [done|]. rewrite (bind_eq _ _ _ _ _ (is_botsink_eq md _ _ _ (Leaf false) HW (repr_bot _))). by apply assert_eq, bool_decide_eq_true_2. }
    rewrite (bind_eq _ _ _ _ _ Ha). rewrite (bind_eq _ _ _ _ _ (assert_eq _ (w_s w) (bool_decide_eq_true_2 _ (lookup_empty _)))).
    unfold ins_new. by rewrite lookup_empty. }
  rewrite (bind_eq _ _ _ _ _ H1).
  assert (Hte : (<[botsink:=0]> ∅ : gmap N N) !! topsink = None) by (by rewrite lookup_insert_ne).
  assert (H2 : depth_add_sink false topsink (<[botsink := 0]> ∅) (w_s w) = Ok (<[topsink := 0]> (<[botsink := 0]> ∅)) (w_s w)).
  { unfold depth_add_sink.
    assert (Ha : (if e_ndebug then ret tt else let* b := is_topsink topsink in assert_ b) (w_s w) = Ok tt (w_s w)).
    { destruct e_ndebug; [done|]. rewrite (bind_eq _ _ _ _ _ (is_topsink_eq md _ _ _ (Leaf true) HW (repr_top _))). by apply assert_eq, bool_decide_eq_true_2. }
    rewrite (bind_eq _ _ _ _ _ Ha). rewrite (bind_eq _ _ _ _ _ (assert_eq _ (w_s w) (bool_decide_eq_true_2 _ Hte))).
    unfold ins_new. by rewrite Hte. }
  rewrite (bind_eq _ _ _ _ _ H2). eapply (depth_adds_spec md _ _ l HW [] (<[topsink := 0]> (<[botsink := 0]> ∅))); auto.
  - intros q [Hq|Hq%elem_of_nil]; [|done]. exists 0. destruct (decide (q = topsink)) as [->|Hne].
    + rewrite lookup_insert. split; [done|]. apply longest_sink. by right.
    + destruct (decide (q = botsink)) as [->|Hne']; [|destruct Hq; by split]. rewrite lookup_insert_ne, lookup_insert by done. split; [done|]. apply longest_sink. by left.
  - intros q [Hq1 Hq2] _. rewrite !lookup_insert_ne by done. apply lookup_empty.
Qed.
(** in particular in the order of nodes_postorder; the last depth is that of the handle *)
Theorem C57_depths_postorder md w i p : reach md w -> hnd w i = Some p -> p <> 0 -> ~ isconst w i ->
  exists l ks k, step (QPost i) w = WOk (OutL l) w /\ depths l (w_s w) = Ok ks (w_s w) /\ Forall2 (longest (s_heap (w_s w))) l ks /\
    last ks = Some k /\ longest (s_heap (w_s w)) p k.
Proof.
  intros HR Hi H0 Hc. destruct (C17_postorder HE _ _ _ _ HR Hi H0 Hc) as (l&Hl&Hnd&Hin&Hlast&Hb).
  destruct (C57_depths md w l HR Hnd) as (ks&Hks&Hf).
  - intros q Hq%Hin. clear -Hq. induction Hq; auto. by split; [split|].
  - intros a q b n c He Hn Hcc Hic. by eapply Hb.
  - assert (exists k, last ks = Some k /\ longest (s_heap (w_s w)) p k) as (k&Hk&Hk').
    { apply last_Some in Hlast as [l' ->]. apply Forall2_app_inv_l in Hf as (k1&k2&_&Hf2&->). inversion Hf2 as [|? k ? ? Hk Hn]; subst.
      inversion Hn; subst. exists k. split; [by rewrite last_snoc|done]. }
    exists l, ks, k. done.
Qed.
End props_coll3.
