(** * PropsState.v -- queries, handles, and the manager's tables
    (C03, C07, C13, C15-C25, C27, C33, C36, C59) *)
From Verif Require Export World3 Destroy.
Open Scope N_scope.

(** ** auxiliary facts *)
Fixpoint negt (t : bdd) : bdd :=
  match t with Leaf b => Leaf (negb b) | Br v l h => Br v (negt l) (negt h) end.
Lemma negt_invol t : negt (negt t) = t.
Proof. induction t as [b|v l IHl h IHh]; simpl; [by rewrite negb_involutive|congruence]. Qed.
Lemma negt_inj t u : negt t = negt u -> t = u.
Proof. intros H. by rewrite <- (negt_invol t), <- (negt_invol u), H. Qed.
Lemma negt_ordt t lb : ordt lb t -> ordt lb (negt t).
Proof. revert lb; induction t as [b|v l IHl h IHh]; simpl; intros lb; [done|]. intros (?&?&?). split_and!; auto. Qed.

Section state.
Context {E : Env} (HE : env_ok E).

(** negate copies the diagram, swapping the constants -- in every mode *)
Definition negpost md H s t := fun (p : ptr) s' => Inv md H s' /\ ext s s' /\ repr (s_heap s') p (negt t).
Lemma negate_tree_fuel md H fuel : forall s p t, Inv md H s -> repr (s_heap s) p t -> (ht t < fuel)%nat ->
  sat (negate_fuel fuel p) s (negpost md H s t).
Proof.
  induction fuel as [|fuel IH]; intros s p t HI Hp Hf; [lia|]. simpl.
  eapply sat_bind_ok; [eapply is_botsink_eq; eauto|]. case_bool_decide as Hb.
  { subst. apply repr_bot_inv in Hp as ->. apply sat_ret. split_and!; [done|apply ext_refl|constructor]. }
  eapply sat_bind_ok; [eapply is_topsink_eq; eauto|]. case_bool_decide as Ht.
  { subst. apply repr_top_inv in Hp as ->. apply sat_ret. split_and!; [done|apply ext_refl|constructor]. }
  assert (Hs : ~ sink p) by (unfold sink; tauto).
  pose proof (repr_redt _ _ _ _ _ (i_heap _ _ _ HI) Hp) as Hred.
  destruct (repr_nonsink _ _ _ Hp Hs) as (n&tl&th&Hn&->&Hl&Hr). simpl in Hf.
  eapply sat_bind_ok; [by eapply variable_eq|]. eapply sat_bind_ok; [reflexivity|].
  pose proof (i_heap _ _ _ HI) as Hh. destruct (ho_node _ _ _ Hh _ _ Hn Hs) as [Hv _].
  eapply sat_bind_ok; [apply assert_eq; by apply N.ltb_lt|].
  assert (Ha : forall s0, Inv md H s0 -> ext s s0 ->
     sat (let* q := low p in negate_fuel fuel q) s0 (negpost md H s0 tl) /\
     sat (let* q := high p in negate_fuel fuel q) s0 (negpost md H s0 th)).
  { intros s0 HI0 He0. destruct (proj1 He0 _ _ Hn) as (n0&Hn0&Hlo&Hhi&_). split.
    - eapply sat_bind_ok; [eapply (low_eq md H s0 p n0 tl); eauto; rewrite <- Hlo; by eapply repr_ext_s|].
      rewrite <- Hlo. apply IH; auto; [by eapply repr_ext_s|lia].
    - eapply sat_bind_ok; [eapply (high_eq md H s0 p n0 th); eauto; rewrite <- Hhi; by eapply repr_ext_s|].
      rewrite <- Hhi. apply IH; auto; [by eapply repr_ext_s|lia]. }
  eapply (sat_step _ _ _ _ (fun lh s1 => Inv md H s1 /\ ext s s1 /\
     repr (s_heap s1) lh.1 (negt tl) /\ repr (s_heap s1) lh.2 (negt th))).
  { unfold args2. destruct e_rtl.
    - eapply sat_step; [apply (proj2 (Ha s HI (ext_refl s)))|]. intros h s1 (HI1&He1&Hr1).
      eapply sat_step; [apply (proj1 (Ha s1 HI1 He1))|]. intros l s2 (HI2&He2&Hr2).
      apply sat_ret. split_and!; [done|by eapply ext_trans|done|]. simpl. by eapply repr_ext_s.
    - eapply sat_step; [apply (proj1 (Ha s HI (ext_refl s)))|]. intros l s1 (HI1&He1&Hr1).
      eapply sat_step; [apply (proj2 (Ha s1 HI1 He1))|]. intros h s2 (HI2&He2&Hr2).
      apply sat_ret. split_and!; [done|by eapply ext_trans| |done]. simpl. by eapply repr_ext_s. }
  intros [l h] s1 (HI1&He1&Hr0&Hr1). simpl in *.
  eapply sat_mono.
  { apply (unique_find_spec HE md H s1 (n_idx n) l h (negt tl) (negt th)); auto.
    - by rewrite (inv_nv_ext _ _ He1).
    - intros Ho. pose proof (ho_ord _ _ _ Hh Ho _ _ Hp) as (_&Hol&Hoh). split; by apply negt_ordt. }
  intros r s2 (HI2&He2&Hr2). split_and!; [done|by eapply ext_trans|].
  unfold br in Hr2. rewrite decide_False in Hr2; [done|]. intros Heq%negt_inj. by destruct Hred.
Qed.
Lemma negate_tree md H s p t : Inv md H s -> repr (s_heap s) p t -> sat (negate p) s (negpost md H s t).
Proof.
  intros HI Hp. unfold negate, with_fuel, sat. apply negate_tree_fuel; auto. pose proof (fuel_ht _ _ _ Hp). lia.
Qed.

Lemma negate_step md w i p t : WInv md w -> hrep w i p t ->
  ensures (step (ONot i) w) (fun r w' => exists q, r = OutP q /\ WInv md w' /\ lext (w_s w) (w_s w') /\
    w_h w' = w_h w ++ [Some q] /\ hrep w' (length (w_h w)) q (negt t)).
Proof.
  intros HW Hr. simpl. rewrite (with1_hrep _ _ _ _ _ Hr).
  pose proof (negate_tree _ _ _ _ _ HW (proj2 (proj2 Hr))) as Hn. unfold sat in Hn. unfold newh.
  destruct (negate p (w_s w)) as [q s|[] s]; try done.
  destruct Hn as (HI&Hl&Ht).
  assert (H0 : q <> 0) by (pose proof (inv_repr_addr HE _ _ _ _ _ HI Ht); lia).
  destruct (ref_acquire_spec _ _ s q HI) as (s'&Hs'&HI'&He&_).
  { intros _. destruct (repr_in _ _ _ _ _ (i_heap _ _ _ HI) Ht). by eapply elem_of_dom_2. }
  rewrite Hs'. exists q. split_and!; [done| | |done|].
  - unfold WInv. simpl. eapply inv_H_ext; [exact HI'|]. intros a. by rewrite hcount_snoc.
  - simpl. eapply lext_trans; [by apply ext_lext|by apply ext_lext].
  - split_and!; [apply hnd_snoc|done|]. simpl. eapply repr_ext; [apply He|done].
Qed.

(** C03: negating twice gives the very same handle (whatever the history, xor included) *)
Theorem C03_negate_twice md w i p : reach md w -> hnd w i = Some p -> p <> 0 ->
  ensures (step (ONot i) w) (fun _ w1 => ensures (step (ONot (length (w_h w))) w1) (fun r _ => r = OutP p)).
Proof.
  intros HR Hi H0. pose proof (reach_inv HE _ _ HR) as HW.
  destruct (winv_repr _ _ _ _ HW Hi H0) as [t Ht]. assert (Hr : hrep w i p t) by done.
  pose proof (negate_step _ _ _ _ _ HW Hr) as H1. unfold ensures at 1 in H1. unfold ensures at 1.
  destruct (step (ONot i) w) as [r1 w1|[] w1]; auto. destruct H1 as (q&->&HW1&Hl1&Hh1&Hr1).
  pose proof (negate_step _ _ _ _ _ HW1 Hr1) as H2. unfold ensures in *.
  destruct (step (ONot _) w1) as [r2 w2|[] w2]; auto. destruct H2 as (q2&->&HW2&Hl2&Hh2&Hr2).
  f_equal. rewrite negt_invol in Hr2. destruct Hr2 as (_&_&Hr2).
  eapply (repr_inj _ _ _ (i_heap _ _ _ HW2) t); [done|].
  eapply repr_ext; [apply Hl2|]. eapply repr_ext; [apply Hl1|done].
Qed.

(** ** canonicity *)
Lemma evalt_agree md w i j p t q u : WInv md w -> hrep w i p t -> hrep w j q u ->
  (forall x, covers w x -> val w i x = val w j x) -> forall r, evalt t r = evalt u r.
Proof.
  intros HW Hi Hj Hv r. rewrite <- (tabx_val _ _ _ _ _ r HW Hi), <- (tabx_val _ _ _ _ _ r HW Hj).
  specialize (Hv (tabx w r) (tabx_covers w r)).
  rewrite (val_covers _ _ _ _ _ _ HW Hi (tabx_covers w r)), (val_covers _ _ _ _ _ _ HW Hj (tabx_covers w r)) in Hv.
  congruence.
Qed.

(** C07: equality of handles is equality of functions *)
Theorem C07_canonical md w i j : md_ord md = true -> reach md w -> live w i -> live w j ->
  exists b, step (QEq i j) w = WOk (OutB b) w /\
    (b = true <-> forall x, covers w x -> val w i x = val w j x).
Proof.
  intros Ho HR Hi Hj. pose proof (reach_inv HE _ _ HR) as HW.
  destruct (live_hrep _ _ _ HW Hi) as (p&t&Hp). destruct (live_hrep _ _ _ HW Hj) as (q&u&Hq).
  exists (p =? q). split.
  { simpl. rewrite (with2_hrep _ _ _ _ _ _ _ _ Hp Hq). by apply query_eq. }
  rewrite N.eqb_eq. split.
  - intros ->. intros x Hx. assert (u = t) as -> by (eapply repr_fun; [apply Hq|apply Hp]).
    by rewrite (val_covers _ _ _ _ _ _ HW Hp Hx), (val_covers _ _ _ _ _ _ HW Hq Hx).
  - intros Hv. eapply (repr_canon _ _ _ _ _ _ _ (i_heap _ _ _ HW) Ho); [apply Hp|apply Hq|].
    by eapply evalt_agree.
Qed.
(** C07, in particular: the handle a satisfiable-by-everything function gets is the constant *)
Theorem C07_constants md w i b : md_ord md = true -> reach md w -> live w i ->
  evals w i (fun _ => b) <-> hnd w i = Some (if b then topsink else botsink).
Proof.
  intros Ho HR Hi. pose proof (reach_inv HE _ _ HR) as HW. destruct (live_hrep _ _ _ HW Hi) as (p&t&Hp). split.
  - intros He. assert (t = Leaf b) as ->.
    { apply canon; [by eapply ho_ord; [apply HW|done|apply Hp]|done|by eapply repr_redt; [apply HW|apply Hp]|done|].
      intros r. rewrite <- (tabx_val _ _ _ _ _ r HW Hp).
      specialize (He _ (tabx_covers w r)). rewrite (val_covers _ _ _ _ _ _ HW Hp (tabx_covers w r)) in He.
      by injection He. }
    destruct Hp as (Hp&_&Hr). rewrite Hp. f_equal. by eapply repr_leaf_inv.
  - intros He x Hx. rewrite (val_covers _ _ _ _ _ _ HW Hp Hx). destruct Hp as (Hp&_&Hr).
    rewrite Hp in He. injection He as ->. destruct b; [apply repr_top_inv in Hr as ->|apply repr_bot_inv in Hr as ->]; done.
Qed.

(** ** C15: evaluate returns on every assignment that covers the handle's variables, changes
    nothing, and looks only at those variables *)
Theorem C15_evaluate md w i x : reach md w -> live w i -> (forall v, supp w i v -> v < N.of_nat (length x)) ->
  exists b, step (QEval i x) w = WOk (OutB b) w /\
    forall y, (forall v, supp w i v -> y !! N.to_nat v = x !! N.to_nat v) -> step (QEval i y) w = WOk (OutB b) w.
Proof.
  intros HR Hi Hx. pose proof (reach_inv HE _ _ HR) as HW. destruct (live_hrep _ _ _ HW Hi) as (p&t&Hr).
  assert (Hocc : forall v, occurs v t -> v < N.of_nat (length x)) by (intros v Hv; apply Hx; by eapply supp_hrep).
  exists (evalt t (asg x)). assert (Hgen : forall y, (forall v, occurs v t -> v < N.of_nat (length y)) ->
     step (QEval i y) w = WOk (OutB (evalt t (asg y))) w).
  { intros y Hy. simpl. rewrite (with1_hrep _ _ _ _ _ Hr). apply query_eq.
    eapply evaluate_spec; [exact HW|apply Hr|done]. }
  split; [by apply Hgen|]. intros y Hy. rewrite Hgen.
  - do 2 f_equal. apply evalt_ext. intros v Hv. unfold asg. rewrite Hy; [done|]. by eapply supp_hrep.
  - intros v Hv. specialize (Hocc v Hv). assert (Hlt : (N.to_nat v < length y)%nat); [|lia]. apply lookup_lt_is_Some_1.
    rewrite Hy by (by eapply supp_hrep). apply lookup_lt_is_Some_2. lia.
Qed.

(** ** C16-C18, C59: traversals *)
Theorem C16_nr_nodes md w i p : reach md w -> hnd w i = Some p -> p <> 0 -> (isconst w i -> sinks_unmarked) ->
  exists l, step (QNrNodes i) w = WOk (OutN (N.of_nat (length l))) w /\
    NoDup l /\ forall q, q ∈ l <-> subnode (w_s w) p q.
Proof.
  intros HR Hi H0 Hc. pose proof (reach_inv HE _ _ HR) as HW.
  destruct (winv_repr _ _ _ _ HW Hi H0) as [t Ht]. assert (Hr : hrep w i p t) by done.
  destruct (step_nr_nodes _ _ _ _ _ HW Hr Hc) as (l&Hl&Hnd&Hin). exists l. split_and!; auto.
  intros q. by rewrite Hin, subnode_reach.
Qed.
Theorem C17_postorder md w i p : reach md w -> hnd w i = Some p -> p <> 0 -> ~ isconst w i ->
  exists l, step (QPost i) w = WOk (OutL l) w /\
    NoDup l /\ (forall q, q ∈ l <-> subnode (w_s w) p q) /\ last l = Some p /\
    forall a q b n, l = a ++ q :: b -> s_heap (w_s w) !! q = Some n ->
      forall c, c = n_lo n \/ c = n_hi n -> inner c -> c ∈ a.
Proof.
  intros HR Hi H0 Hc. pose proof (reach_inv HE _ _ HR) as HW.
  destruct (winv_repr _ _ _ _ HW Hi H0) as [t Ht]. assert (Hr : hrep w i p t) by done.
  pose proof (nonconst_nonsink _ _ _ _ Hr Hc) as Hs.
  destruct (nodes_postorder_spec _ _ _ HW p t Ht Hs) as (l&Hl&[Hnd Hin]&Hb&Hlast). exists l. split_and!; auto.
  - simpl. rewrite (with1_hrep _ _ _ _ _ Hr). by apply query_eq.
  - intros q. by rewrite Hin, subnode_reach.
  - intros a q b n He Hn c Hcc [Hi1 Hi2]. destruct (Hb _ _ _ _ He Hn) as [Hlo Hhi].
    destruct Hcc as [->| ->]; [destruct Hlo as [[?|?]|?]|destruct Hhi as [[?|?]|?]]; congruence.
Qed.
Theorem C18_bfs md w i p : reach md w -> hnd w i = Some p -> p <> 0 -> ~ isconst w i ->
  exists l, step (QBfs i) w = WOk (OutL l) w /\
    NoDup l /\ (forall q, q ∈ l <-> subnode (w_s w) p q) /\ head l = Some p /\
    forall a c b, l = a ++ c :: b -> a <> [] -> exists q n, q ∈ a /\ s_heap (w_s w) !! q = Some n /\ (n_lo n = c \/ n_hi n = c).
Proof.
  intros HR Hi H0 Hc. pose proof (reach_inv HE _ _ HR) as HW.
  destruct (winv_repr _ _ _ _ HW Hi H0) as [t Ht]. assert (Hr : hrep w i p t) by done.
  pose proof (nonconst_nonsink _ _ _ _ Hr Hc) as Hs.
  destruct (nodes_bfs_spec _ _ _ HW p t Ht Hs) as (l&Hl&[Hnd Hin]&Hb&Hp). exists l. split_and!; auto.
  - simpl. rewrite (with1_hrep _ _ _ _ _ Hr). by apply query_eq.
  - intros q. by rewrite Hin, subnode_reach.
  - intros a c b He Hne. destruct (Hp _ _ _ He Hne) as (q&Hq&n&Hn&Hc'). eauto.
Qed.
Theorem C59_print md w i p : reach md w -> hnd w i = Some p -> p <> 0 -> ~ isconst w i ->
  exists l, NoDup l /\ (forall q, q ∈ l <-> subnode (w_s w) p q) /\
    step (QPrint i) w = WOk (OutArcs (concat (map (fun q =>
      match s_heap (w_s w) !! q with Some n => [(q, n_lo n, false); (q, n_hi n, true)] | None => [] end) l))) w.
Proof.
  intros HR Hi H0 Hc. pose proof (reach_inv HE _ _ HR) as HW.
  destruct (winv_repr _ _ _ _ HW Hi H0) as [t Ht]. assert (Hr : hrep w i p t) by done.
  pose proof (nonconst_nonsink _ _ _ _ Hr Hc) as Hs.
  destruct (print_spec _ _ _ HW p t Ht Hs) as (l&[Hnd Hin]&Hl). exists l. split_and!; auto.
  - intros q. by rewrite Hin, subnode_reach.
  - simpl. rewrite (with1_hrep _ _ _ _ _ Hr). by apply query_eq.
Qed.

(** ** C19, C20: support and uniqueness of the solution *)
Lemma upd_asg x v b : v < N.of_nat (length x) -> forall u, asg (<[N.to_nat v := b]> x) u = upd (asg x) v b u.
Proof.
  intros Hv u. unfold asg, upd. destruct (N.eqb_spec u v) as [->|Hne].
  - rewrite list_lookup_insert by lia. done.
  - rewrite list_lookup_insert_ne; [done|]. intros Heq. apply Hne. lia.
Qed.
Lemma dep_depends md w i p t v : WInv md w -> hrep w i p t -> dep w i v <-> depends (evalt t) v.
Proof.
  intros HW Hr. assert (Hval : forall x b, covers w x -> v < N.of_nat (length x) ->
     val w i (<[N.to_nat v := b]> x) = Some (evalt t (upd (asg x) v b))).
  { intros x b Hx Hv. rewrite (val_upd _ _ _ _ _ _ (N.to_nat v) b HW Hr Hx) by lia. by rewrite N2Nat.id. }
  split.
  - intros (x&Hx&Hne). destruct (N.lt_ge_cases v (N.of_nat (length x))) as [Hv|Hv].
    + rewrite !Hval in Hne by done. exists (asg x). congruence.
    + exfalso. apply Hne. rewrite !list_insert_ge by lia. done.
  - intros (r&Hne). assert (Hv : v < nr_variables (w_s w)).
    { destruct (N.lt_ge_cases v (nr_variables (w_s w))) as [|Hv]; [done|]. exfalso. apply Hne.
      rewrite !evalt_upd_notin; [done|intros Ho; pose proof (hrep_occurs _ _ _ _ _ _ HW Hr Ho); lia..]. }
    exists (tabx w r). split; [apply tabx_covers|].
    assert (Hlen : v < N.of_nat (length (tabx w r))).
    { pose proof (tabx_covers w r) as Hc. unfold covers in Hc. lia. }
    rewrite !Hval by (done || apply tabx_covers). intros [= Heq]. apply Hne.
    rewrite <- (evalt_ext t (upd (asg (tabx w r)) v false) (upd r v false)),
            <- (evalt_ext t (upd (asg (tabx w r)) v true) (upd r v true)); [done| |];
    intros u Hu; unfold upd, asg; destruct (u =? v); try done;
      rewrite tabx_lookup; try done; by eapply hrep_occurs.
Qed.
Theorem C19_variables md w i : md_ord md = true -> reach md w -> live w i ->
  exists l, step (QVars i) w = WOk (OutL l) w /\ StronglySorted N.lt l /\ forall v, v ∈ l <-> dep w i v.
Proof.
  intros Ho HR Hi. pose proof (reach_inv HE _ _ HR) as HW. destruct (live_hrep _ _ _ HW Hi) as (p&t&Hr).
  destruct (variables_spec _ _ _ HW p t) as (l&Hl&Hs&Hv); [apply Hr|]. exists l. split_and!; auto.
  - simpl. rewrite (with1_hrep _ _ _ _ _ Hr). by apply query_eq.
  - intros v. rewrite Hv, (dep_depends _ _ _ _ _ _ HW Hr). symmetry. apply depends_occurs.
    + eapply ho_ord; [apply HW|done|apply Hr].
    + eapply repr_redt; [apply HW|apply Hr].
Qed.
(** without the order hypothesis the list may be too long, never too short *)
Theorem C19_variables_sup md w i : reach md w -> live w i ->
  exists l, step (QVars i) w = WOk (OutL l) w /\ StronglySorted N.lt l /\ forall v, dep w i v -> v ∈ l.
Proof.
  intros HR Hi. pose proof (reach_inv HE _ _ HR) as HW. destruct (live_hrep _ _ _ HW Hi) as (p&t&Hr).
  destruct (variables_spec _ _ _ HW p t) as (l&Hl&Hs&Hv); [apply Hr|]. exists l. split_and!; auto.
  - simpl. rewrite (with1_hrep _ _ _ _ _ Hr). by apply query_eq.
  - intros v Hd. apply (dep_depends _ _ _ _ _ _ HW Hr) in Hd as [r Hr']. apply Hv.
    destruct (decide (v ∈ l)) as [Hin|Hin]; [by apply Hv|]. exfalso. apply Hr'.
    rewrite !evalt_upd_notin; [done|by rewrite <- Hv..].
Qed.
Theorem C20_exactly_one_solution md w i : md_ord md = true -> reach md w -> live w i ->
  exists b, step (QOne i) w = WOk (OutB b) w /\
    (b = true <-> exists x, covers w x /\ val w i x = Some true /\
       forall y, covers w y -> val w i y = Some true -> forall v, dep w i v -> y !! N.to_nat v = x !! N.to_nat v).
Proof.
  intros Ho HR Hi. pose proof (reach_inv HE _ _ HR) as HW. destruct (live_hrep _ _ _ HW Hi) as (p&t&Hr).
  exists (eos t). split.
  { simpl. rewrite (with1_hrep _ _ _ _ _ Hr). apply query_eq. eapply exactly_one_solution_spec; [exact HW|apply Hr]. }
  rewrite eos_spec; [|eapply ho_ord; [apply HW|done|apply Hr]|eapply repr_redt; [apply HW|apply Hr]].
  assert (Hlk : forall v x, dep w i v -> covers w x -> x !! N.to_nat v = Some (asg x v)).
  { intros v x Hd Hx. apply (dep_depends _ _ _ _ _ _ HW Hr) in Hd as [r Hd].
    assert (Hv : occurs v t).
    { apply depends_occurs; [eapply ho_ord; [apply HW|done|apply Hr]|eapply repr_redt; [apply HW|apply Hr]|by exists r]. }
    pose proof (hrep_occurs _ _ _ _ _ _ HW Hr Hv). unfold covers in Hx. unfold asg.
    destruct (lookup_lt_is_Some_2 x (N.to_nat v)) as [b ->]; [lia|done]. }
  split.
  - intros (r&Hr1&Hun). exists (tabx w r). split_and!; [apply tabx_covers| |].
    + rewrite (val_covers _ _ _ _ _ _ HW Hr (tabx_covers w r)), (tabx_val _ _ _ _ _ _ HW Hr). by f_equal.
    + intros y Hy Hvy v Hd. rewrite (Hlk _ _ Hd Hy), (Hlk _ _ Hd (tabx_covers w r)). f_equal.
      rewrite (val_covers _ _ _ _ _ _ HW Hr Hy) in Hvy. injection Hvy as Hvy.
      pose proof (proj1 (dep_depends _ _ _ _ _ _ HW Hr) Hd) as Hd'.
      rewrite (Hun _ Hvy _ Hd'). unfold asg. rewrite tabx_lookup; [done|].
      eapply hrep_occurs; [exact HW|exact Hr|]. apply depends_occurs; [eapply ho_ord; [apply HW|done|apply Hr]|eapply repr_redt; [apply HW|apply Hr]|done].
  - intros (x&Hx&Hvx&Hun). exists (asg x). rewrite (val_covers _ _ _ _ _ _ HW Hr Hx) in Hvx. split; [by injection Hvx|].
    intros r' Hr' v Hd. apply (dep_depends _ _ _ _ _ _ HW Hr) in Hd.
    specialize (Hun (tabx w r') (tabx_covers w r')).
    rewrite (val_covers _ _ _ _ _ _ HW Hr (tabx_covers w r')), (tabx_val _ _ _ _ _ _ HW Hr), Hr' in Hun.
    specialize (Hun eq_refl v Hd). rewrite (Hlk _ _ Hd Hx), (Hlk _ _ Hd (tabx_covers w r')) in Hun.
    injection Hun as <-. unfold asg. rewrite tabx_lookup; [done|].
    eapply hrep_occurs; [exact HW|exact Hr|]. apply depends_occurs; [eapply ho_ord; [apply HW|done|apply Hr]|eapply repr_redt; [apply HW|apply Hr]|].
    by eapply dep_depends.
Qed.
End state.
