(** * PropsGc2.v -- after one collection, a program that only reads and copies, moves, assigns
    and destroys handles cannot tell that the collection took place (C28). *)
From Verif Require Export PropsGc.
Open Scope N_scope.

(** calls that create no nodes and do not report reference or node counts *)
Definition is_read (o : op) : bool :=
  match o with
  | OTop | OBot | ONull | OCopy _ | OMove _ | OAssign _ _ | ODrop _ | OLow _ | OHigh _ | OBotOf _ | OTopOf _
  | OPostAll _ | OBfsAll _
  | QNrNodes _ | QOne _ | QEval _ _ | QVars _ | QPost _ | QBfs _ | QPrint _
  | QVar _ | QIsBot _ | QIsTop _ | QIsTerm _ | QEq _ _ | QFindMgr _ | QNrVars | QCollAdd _ _ => true
  | _ => false
  end.

(** the results of a program, call by call *)
Fixpoint outs {E : Env} (os : list op) (w : world) : option (list out * world) :=
  match os with
  | [] => Some ([], w)
  | o :: os => match step o w with
               | WOk r w1 => match outs os w1 with Some (rs, w2) => Some (r :: rs, w2) | None => None end
               | WFail _ _ => None
               end
  end.
(** each call is a read and meets its documented preconditions in the state it is made in *)
Fixpoint reads {E : Env} (md : mode) (os : list op) (w : world) : Prop :=
  match os with
  | [] => True
  | o :: os => is_read o = true /\ allowed md w o /\ forall r w1, step o w = WOk r w1 -> reads md os w1
  end.

Section gc2.
Context {E : Env} (HE : env_ok E).

Section sim.
Context (F : gset N) (d : ptr -> Z) (h0 : heap) (nv : Prop).

(** [s] ran without the collection (or the call that threw, C26), [t] with it; [F] are the nodes that
    were freed, [d] the references they held, [nv] says that both have the same variables *)
Record rel (s t : mstate) : Prop := {
  r_dom : dom (s_heap s) ⊆ dom (s_heap t);
  r_node : forall q n, s_heap s !! q = Some n -> q ∉ F ->
     s_heap t !! q = Some (with_xref (fun x => x - d q)%Z n) /\ n_lo n ∉ F /\ n_hi n ∉ F;
  r_refs : forall q, refs (s_heap s) q = refs h0 q;
  r_nv : nv -> length (s_vars t) = length (s_vars s)
}.

Definition sim2 {A} (m m' : M A) (P : A -> Prop) : Prop := forall s t, rel s t ->
  match m s with Ok a s' => P a /\ exists t', m' t = Ok a t' /\ rel s' t' | Fail _ _ => True end.
Notation sim m P := (sim2 m m P).

Lemma sim_ret {A} (a : A) (P : A -> Prop) : P a -> sim (ret a) P.
Proof. intros HP s t HR. split; eauto. Qed.
Lemma sim_fail {A} e (m' : M A) (P : A -> Prop) : sim2 (fail e) m' P.
Proof. intros s t HR. done. Qed.
Lemma sim_bind {A B} (m m' : M A) (k k' : A -> M B) P Q : sim2 m m' P -> (forall a, P a -> sim2 (k a) (k' a) Q) -> sim2 (bind m k) (bind m' k') Q.
Proof.
  intros Hm Hk s t HR. specialize (Hm s t HR). unfold bind. destruct (m s) as [a s'|]; [|done].
  destruct Hm as (HP&t'&->&HR'). by apply Hk.
Qed.
Lemma sim_liftR {A} (r : R A) (P : A -> Prop) : (forall a, r = inr a -> P a) -> sim (liftR r) P.
Proof. intros HP s t HR. unfold liftR. destruct r; [done|]. split; eauto. Qed.
Lemma sim_assert {B} b (k k' : M B) (Q : B -> Prop) : sim2 k k' Q -> sim2 (assert_ b ;;* k) (assert_ b ;;* k') Q.
Proof. intros Hk. eapply sim_bind; [apply sim_liftR with (P := fun _ => True); done|done]. Qed.
Lemma sim_fuel {A} (m : nat -> M A) P : (forall f f', (f <= f')%nat -> sim2 (m f) (m f') P) -> sim (with_fuel m) P.
Proof.
  intros Hm s t HR. unfold with_fuel. apply (Hm (fuel_of s) (fuel_of t)); [|done].
  unfold fuel_of. rewrite <- !(size_dom (D := gset N)). pose proof (subseteq_size _ _ (r_dom _ _ HR)). lia.
Qed.
Lemma sim_getN {B} p (k k' : node -> M B) Q : p ∉ F ->
  (forall n f, k' (with_xref f n) = k' n) -> (forall n, n_lo n ∉ F -> n_hi n ∉ F -> sim2 (k n) (k' n) Q) -> sim2 (bind (getN p) k) (bind (getN p) k') Q.
Proof.
  intros HF Hk1 Hk s t HR. unfold bind, getN. destruct (s_heap s !! p) as [n|] eqn:Hp; [|done].
  destruct (r_node _ _ HR p n Hp HF) as (Ht&Hl&Hh). rewrite Ht, Hk1. by apply Hk.
Qed.
Lemma sim_modN p f : p ∉ F -> (forall n, n_lo (f n) = n_lo n /\ n_hi (f n) = n_hi n) ->
  (forall n z, f (with_xref (fun x => x - z)%Z n) = with_xref (fun x => x - z)%Z (f n)) -> sim (modN p f) (fun _ => True).
Proof.
  intros HF Hf1 Hf2 s t HR. unfold modN, bind, getN. destruct (s_heap s !! p) as [n|] eqn:Hp; [|done].
  destruct (r_node _ _ HR p n Hp HF) as (Ht&Hl&Hh). rewrite Ht. unfold set_heap. split; [done|]. eexists. split; [done|].
  destruct (Hf1 n) as [Hfl Hfh]. split; cbn [s_heap s_vars].
  - rewrite !dom_insert_L. pose proof (r_dom _ _ HR). set_solver.
  - intros q m Hq HqF. destruct (decide (q = p)) as [->|Hne].
    + rewrite lookup_insert in Hq. injection Hq as <-. rewrite lookup_insert, Hf2, Hfl, Hfh. done.
    + rewrite lookup_insert_ne in Hq by done. rewrite lookup_insert_ne by done. by apply (r_node _ _ HR).
  - intros q. erewrite refs_update; [apply (r_refs _ _ HR)|exact Hp|done|done].
  - apply (r_nv _ _ HR).
Qed.
Lemma sim_mark p b : p ∉ F -> sim (modN p (with_mark b)) (fun _ => True).
Proof. intros HF. by apply sim_modN. Qed.
Lemma sim_inc p : p ∉ F -> sim (xref_inc p) (fun _ => True).
Proof. intros HF. apply sim_modN; [done|done|]. intros n z. unfold with_xref. cbn. f_equal. lia. Qed.
Lemma sim_dec p : p ∉ F -> sim (xref_dec p) (fun _ => True).
Proof. intros HF. apply sim_modN; [done|done|]. intros n z. unfold with_xref. cbn. f_equal. lia. Qed.

Local Ltac gn := apply sim_getN; [done|intros ??; reflexivity|intros ?n ?Hlo ?Hhi].
Local Ltac dB := match goal with |- sim2 (if ?a then _ else _) _ _ => destruct a end.
Local Ltac bindT := eapply sim_bind with (P := fun _ => True); [|intros ?a _].

Lemma sim_bot p : p ∉ F -> sim (is_botsink p) (fun _ => True).
Proof. intros HF. unfold is_botsink. gn. apply sim_assert. by apply sim_ret. Qed.
Lemma sim_top p : p ∉ F -> sim (is_topsink p) (fun _ => True).
Proof. intros HF. unfold is_topsink. gn. apply sim_assert. by apply sim_ret. Qed.
Lemma sim_term p : p ∉ F -> sim (is_terminal p) (fun _ => True).
Proof. intros HF. unfold is_terminal. bindT; [by apply sim_top|]. dB; [by apply sim_ret|by apply sim_bot]. Qed.
Lemma sim_marked p : p ∉ F -> sim (marked p) (fun _ => True).
Proof. intros HF. unfold marked. gn. by apply sim_ret. Qed.
Lemma sim_variable p : p ∉ F -> sim (variable p) (fun _ => True).
Proof. intros HF. unfold variable. gn. by apply sim_ret. Qed.
Context (H0F : 0 ∉ F) (HbF : botsink ∉ F) (HtF : topsink ∉ F).
Lemma sim_touch p : p ∉ F -> sim (touch p) (fun q => q ∉ F).
Proof. intros HF. unfold touch. destruct (p =? 0); [by apply sim_ret|]. gn. by apply sim_ret. Qed.
Lemma sim_low p : p ∉ F -> sim (low p) (fun q => q ∉ F).
Proof. intros HF. unfold low. gn. by apply sim_touch. Qed.
Lemma sim_high p : p ∉ F -> sim (high p) (fun q => q ∉ F).
Proof. intros HF. unfold high. gn. by apply sim_touch. Qed.
Lemma sim_evaluate p x : p ∉ F -> sim (evaluate p x) (fun _ => True).
Proof.
  intros HF. unfold evaluate. apply sim_fuel. intros f f' Hff. revert p HF f' Hff. induction f as [|f IH]; intros p HF f' Hff; [apply sim_fail|].
  destruct f' as [|f']; [lia|]. apply le_S_n in Hff. cbn [evaluate_fuel].
  bindT; [by apply sim_bot|]. dB; [by apply sim_ret|]. bindT; [by apply sim_top|]. dB; [by apply sim_ret|].
  gn. apply sim_assert. destruct (x !! _) as [[]|]; auto using sim_fail.
Qed.
Lemma sim_unmark p : p ∉ F -> sim (unmark p) (fun _ => True).
Proof.
  intros HF. unfold unmark. apply sim_fuel. intros f f' Hff. revert p HF f' Hff. induction f as [|f IH]; intros p HF f' Hff; [apply sim_fail|].
  destruct f' as [|f']; [lia|]. apply le_S_n in Hff. cbn [unmark_fuel].
  bindT; [by apply sim_term|]. dB; [by apply sim_ret|]. gn. destruct (n_mark n); [|by apply sim_ret].
  bindT; [by apply sim_mark|]. bindT; [by apply IH|]. gn. by apply IH.
Qed.
Lemma sim_nr_nodes p : p ∉ F -> sim (nr_nodes p) (fun _ => True).
Proof.
  intros HF. unfold nr_nodes. bindT; [by apply sim_marked|]. apply sim_assert.
  bindT; [|bindT; [by apply sim_unmark|by apply sim_ret]].
  apply sim_fuel. intros f f' Hff. revert p HF f' Hff. induction f as [|f IH]; intros p HF f' Hff; [apply sim_fail|].
  destruct f' as [|f']; [lia|]. apply le_S_n in Hff. cbn [nr_nodes_impl].
  bindT; [by apply sim_term|]. dB; [by apply sim_ret|]. gn. apply sim_assert. bindT; [by apply sim_mark|].
  bindT; [by apply sim_marked|]. bindT; [dB; [by apply sim_ret|by apply IH]|].
  bindT; [by apply sim_marked|]. bindT; [dB; [by apply sim_ret|by apply IH]|]. by apply sim_ret.
Qed.
Definition nF (l : list ptr) : Prop := Forall (fun q => q ∉ F) l.
Lemma sim_postorder p : p ∉ F -> sim (nodes_postorder p) nF.
Proof.
  intros HF. unfold nodes_postorder. bindT; [by apply sim_marked|]. apply sim_assert.
  eapply sim_bind with (P := nF); [|intros l Hl; bindT; [by apply sim_unmark|];
    bindT; [unfold assertM; destruct e_ndebug; [by apply sim_ret|];
            bindT; [bindT; [by apply sim_nr_nodes|by apply sim_ret]|by apply sim_liftR]|by apply sim_ret]].
  apply sim_fuel. intros f f' Hff. assert (HA : nF []) by constructor. revert HA. generalize (@nil ptr). revert p HF f' Hff.
  induction f as [|f IH]; intros p HF f' Hff acc HA; [apply sim_fail|].
  destruct f' as [|f']; [lia|]. apply le_S_n in Hff. cbn [postorder_impl].
  bindT; [by apply sim_term|]. dB; [by apply sim_ret|]. gn. apply sim_assert. bindT; [by apply sim_mark|].
  bindT; [by apply sim_marked|]. eapply sim_bind with (P := nF); [dB; [by apply sim_ret|by apply IH]|]. intros acc1 H1.
  bindT; [by apply sim_marked|]. eapply sim_bind with (P := nF); [dB; [by apply sim_ret|by apply IH]|]. intros acc2 H2.
  apply sim_ret. apply Forall_app_2; [done|]. by constructor.
Qed.
Lemma sim_bfs_child c q : c ∉ F -> nF q -> sim (bfs_child c q) nF.
Proof.
  intros HF HQ. unfold bfs_child. bindT; [by apply sim_term|]. dB; [by apply sim_ret|].
  bindT; [by apply sim_marked|]. dB; [by apply sim_ret|]. bindT; [by apply sim_mark|]. apply sim_ret.
  apply Forall_app_2; [done|]. by constructor.
Qed.
Lemma sim_bfs p : p ∉ F -> sim (nodes_bfs p) nF.
Proof.
  intros HF. unfold nodes_bfs. bindT; [by apply sim_marked|]. apply sim_assert. bindT; [by apply sim_mark|].
  eapply sim_bind with (P := nF); [|intros l Hl; bindT; [by apply sim_unmark|];
    bindT; [unfold assertM; destruct e_ndebug; [by apply sim_ret|];
            bindT; [bindT; [by apply sim_nr_nodes|by apply sim_ret]|by apply sim_liftR]|by apply sim_ret]].
  apply sim_fuel. intros f f' Hff.
  assert (Hgen : forall q acc f', (f <= f')%nat -> nF q -> nF acc -> sim2 (bfs_loop f q acc) (bfs_loop f' q acc) nF); [|apply Hgen; [done|by constructor|constructor]].
  clear p HF f' Hff. induction f as [|f IH]; intros q acc f' Hff HQ HA; [apply sim_fail|].
  destruct f' as [|f']; [lia|]. apply le_S_n in Hff. cbn [bfs_loop].
  destruct q as [|p q]; [by apply sim_ret|]. apply Forall_cons in HQ as [HF HQ].
  gn. apply sim_assert. eapply sim_bind; [by apply sim_bfs_child|]. intros q1 H1.
  eapply sim_bind; [by apply sim_bfs_child|]. intros q2 H2. apply IH; [done|done|].
  apply Forall_app_2; [done|]. by constructor.
Qed.
Lemma sim_variables p : p ∉ F -> sim (variables p) (fun _ => True).
Proof.
  intros HF. unfold variables. bindT; [|bindT; [by apply sim_unmark|by apply sim_ret]].
  apply sim_fuel. intros f f' Hff. generalize (@nil N). revert p HF f' Hff. induction f as [|f IH]; intros p HF f' Hff acc; [apply sim_fail|].
  destruct f' as [|f']; [lia|]. apply le_S_n in Hff. cbn [variables_impl].
  bindT; [by apply sim_term|]. dB; [by apply sim_ret|]. gn. apply sim_assert. bindT; [by apply sim_mark|].
  bindT; [by apply sim_marked|]. bindT; [dB; [by apply sim_ret|by apply IH]|].
  bindT; [by apply sim_marked|]. dB; [by apply sim_ret|by apply IH].
Qed.
Lemma sim_print p : p ∉ F -> sim (print p) (fun _ => True).
Proof.
  intros HF. unfold print. bindT; [|bindT; [by apply sim_unmark|by apply sim_ret]].
  apply sim_fuel. intros f f' Hff. generalize (@nil (ptr * ptr * bool)). revert p HF f' Hff. induction f as [|f IH]; intros p HF f' Hff acc; [apply sim_fail|].
  destruct f' as [|f']; [lia|]. apply le_S_n in Hff. cbn [print_rec].
  bindT; [by apply sim_term|]. dB; [by apply sim_ret|]. gn. apply sim_assert. bindT; [by apply sim_mark|].
  bindT; [by apply sim_marked|]. bindT; [dB; [by apply sim_ret|by apply IH]|].
  bindT; [by apply sim_marked|]. dB; [by apply sim_ret|by apply IH].
Qed.
Lemma sim_one p : p ∉ F -> sim (exactly_one_solution p) (fun _ => True).
Proof.
  intros HF. unfold exactly_one_solution. apply sim_fuel. intros f f' Hff. revert p HF f' Hff.
  induction f as [|f IH]; intros p HF f' Hff; [apply sim_fail|].
  destruct f' as [|f']; [lia|]. apply le_S_n in Hff. cbn [exactly_one_solution_fuel].
  bindT; [by apply sim_top|]. dB; [by apply sim_ret|]. bindT; [by apply sim_bot|]. dB; [by apply sim_ret|].
  gn. bindT; [by apply sim_bot|]. dB; [by apply IH|]. bindT; [by apply sim_bot|]. dB; [by apply IH|]. by apply sim_ret.
Qed.
Lemma sim_find_mgr p : p ∉ F -> sim (find_bdd_mgr p) (fun _ => True).
Proof.
  intros HF. unfold find_bdd_mgr. apply sim_fuel. intros f f' Hff. revert p HF f' Hff.
  induction f as [|f IH]; intros p HF f' Hff; [apply sim_fail|].
  destruct f' as [|f']; [lia|]. apply le_S_n in Hff. cbn [find_bdd_mgr_fuel].
  bindT; [by apply sim_term|]. gn. dB; [by apply sim_ret|].
  bindT; [by apply sim_term|]. dB; [|by apply IH]. gn. by apply sim_ret.
Qed.
Lemma sim_via {A} p (m : M A) P : p ∉ F -> sim m P -> sim (via_mgr p m) P.
Proof. intros HF Hm. unfold via_mgr. bindT; [by apply sim_find_mgr|]. destruct (a =? e_mgr); [done|apply sim_fail]. Qed.
Lemma sim_pass1 l : forall ins hash, nF l -> sim (add_pass1 l ins hash) (fun _ => True).
Proof.
  induction l as [|p l IH]; intros ins hash HL; cbn [add_pass1]; [by apply sim_ret|]. apply Forall_cons in HL as [HF HL].
  bindT; [destruct e_ndebug; [by apply sim_ret|]; bindT; [by apply sim_term|by apply sim_liftR]|].
  bindT; [by apply sim_variable|]. by apply IH.
Qed.
Lemma sim_pass2 l : forall off i ins hash, nF l -> sim (add_pass2 l off i ins hash) (fun _ => True).
Proof.
  induction l as [|p l IH]; intros off i ins hash HL; cbn [add_pass2]; [by apply sim_ret|]. apply Forall_cons in HL as [HF HL].
  eapply sim_bind; [by apply sim_low|]. intros lo _. eapply sim_bind; [by apply sim_high|]. intros hi _.
  destruct (hash !! lo); [|apply sim_assert, sim_fail]. destruct (hash !! hi); [|apply sim_assert, sim_fail].
  apply sim_assert, sim_assert. bindT; [by apply sim_liftR|]. by apply IH.
Qed.
Lemma sim_coll_add c p : p ∉ F -> sim (c_add_bdd c p) (fun _ => True).
Proof.
  intros HF. unfold c_add_bdd. apply sim_assert. eapply sim_bind; [by apply sim_postorder|]. intros po Hpo.
  assert (Hr : nF (reverse po)) by (by apply Forall_reverse).
  bindT; [by apply sim_pass1|]. destruct a as [ins hash]. destruct (last (reverse po)) as [q|] eqn:Hq; [|apply sim_fail].
  assert (HqF : q ∉ F). { apply last_Some_elem_of in Hq. by eapply Forall_forall in Hr. }
  bindT; [apply sim_via; [done|by apply sim_ret]|]. bindT; [by apply sim_pass2|].
  bindT; [by apply sim_liftR|]. bindT; [by apply sim_liftR|]. by apply sim_ret.
Qed.
Lemma sim_acquire p : p ∉ F -> sim (ref_acquire p) (fun _ => True).
Proof. intros HF. unfold ref_acquire. destruct (p =? 0); [by apply sim_ret|by apply sim_inc]. Qed.
Lemma sim_acquire_all l : nF l -> sim (acquire_all l) (fun _ => True).
Proof.
  induction l as [|p l IH]; intros HL; cbn [acquire_all]; [by apply sim_ret|]. apply Forall_cons in HL as [HF HL].
  bindT; [by apply sim_acquire|]. by apply IH.
Qed.
Lemma sim_assign p q : p ∉ F -> q ∉ F -> sim (ref_assign p q) (fun r => r = q).
Proof.
  intros HF HG. unfold ref_assign. bindT; [destruct (p =? 0); [by apply sim_ret|by apply sim_dec]|].
  bindT; [destruct (q =? 0); [by apply sim_ret|by apply sim_inc]|]. by apply sim_ret.
Qed.

(** ** worlds *)
Definition wrel (w w' : world) : Prop :=
  rel (w_s w) (w_s w') /\ w_h w' = w_h w /\ forall i p, hnd w i = Some p -> p ∉ F.
Definition wok (r : wres) (r' : wres) : Prop :=
  match r with WOk o w1 => exists w1', r' = WOk o w1' /\ wrel w1 w1' | WFail _ _ => True end.

Lemma hF_app w l : (forall i p, hnd w i = Some p -> p ∉ F) -> nF l -> forall s i p, hnd (W s (w_h w ++ map Some l)) i = Some p -> p ∉ F.
Proof.
  intros Hh Hl s i p Hp. apply hnd_lookup in Hp. cbn [w_h] in Hp. apply lookup_app_Some in Hp as [Hp|[_ Hp]].
  - eapply Hh. by apply hnd_lookup.
  - apply elem_of_list_lookup_2 in Hp. apply elem_of_list_fmap in Hp as (q&[= <-]&Hq). by eapply Forall_forall in Hl.
Qed.
Lemma wok_newh w w' (m : M ptr) : wrel w w' -> sim m (fun q => q ∉ F) -> wok (newh w m) (newh w' m).
Proof.
  intros (HR&Hw&HF) Hm. unfold newh. specialize (Hm _ _ HR). destruct (m (w_s w)) as [p s|]; [|done].
  destruct Hm as (HpF&t&->&HR1). pose proof (sim_acquire p HpF _ _ HR1) as Ha. destruct (ref_acquire p s) as [[] s2|]; [|done].
  destruct Ha as (_&t2&->&HR2). cbn [wok]. eexists. split; [done|]. split_and!; cbn [w_s w_h]; [done|by rewrite Hw|].
  apply (hF_app w [p]); [done|]. by constructor.
Qed.
Lemma wok_newhs w w' m : wrel w w' -> sim m nF -> wok (newhs w m) (newhs w' m).
Proof.
  intros (HR&Hw&HF) Hm. unfold newhs.
  assert (Hs : sim (let* l := m in acquire_all l ;;* ret l) nF).
  { eapply sim_bind; [done|]. intros l Hl. bindT; [by apply sim_acquire_all|]. by apply sim_ret. }
  specialize (Hs _ _ HR). destruct (bind m _ (w_s w)) as [l s|]; [|done].
  destruct Hs as (HlF&t&->&HR1). cbn [wok]. eexists. split; [done|]. split_and!; cbn [w_s w_h]; [done|by rewrite Hw|].
  by apply hF_app.
Qed.
Lemma wok_query {A} w w' (f : A -> out) (m : M A) P : wrel w w' -> sim m P -> wok (query w f m) (query w' f m).
Proof.
  intros (HR&Hw&HF) Hm. unfold query. specialize (Hm _ _ HR). destruct (m (w_s w)) as [p s|]; [|done].
  destruct Hm as (HpF&t&->&HR1). cbn [wok]. eexists. split; [done|]. split_and!; cbn [w_s w_h]; [done|by rewrite Hw|done].
Qed.
Lemma wok_with1 w w' i k k' : wrel w w' -> (forall p, hnd w i = Some p -> p ∉ F -> wok (k p) (k' p)) -> wok (with1 w i k) (with1 w' i k').
Proof.
  intros (HR&Hw&HF) Hk. unfold with1. assert (hnd w' i = hnd w i) as -> by (unfold hnd; by rewrite Hw).
  destruct (hnd w i) as [p|] eqn:Hp; [|done]. apply Hk; [done|]. by eapply HF.
Qed.
Lemma hF_set w i o : (forall i p, hnd w i = Some p -> p ∉ F) -> (forall p, o = Some p -> p ∉ F) ->
  forall s j p, hnd (W s (<[i := o]> (w_h w))) j = Some p -> p ∉ F.
Proof.
  intros Hh Ho s j p Hp. apply hnd_lookup in Hp. cbn [w_h] in Hp. apply list_lookup_insert_Some in Hp as [(_&?&_)|[_ Hp]]; [by apply Ho|].
  eapply Hh. by apply hnd_lookup.
Qed.

Lemma step_rel md w w' o : WInv md w -> (forall q, d q <= refs h0 q)%Z -> wrel w w' -> is_read o = true -> (o = QNrVars -> nv) -> wok (step o w) (step o w').
Proof.
  intros HW Hd Hrel Ho Hnv. destruct o; try discriminate Ho; cbn [step]; unfold with2;
    repeat (apply wok_with1; [done|intros ?p ?Hp ?HpF]);
    try (apply wok_newh; [done|]); try (apply wok_newhs; [done|]); try (eapply wok_query; [done|]).
  all: try (first [by apply sim_nr_nodes|by apply sim_one|by apply sim_evaluate|by apply sim_variables|by apply sim_postorder|
    by apply sim_bfs|by apply sim_print|by apply sim_variable|by apply sim_bot|by apply sim_top|by apply sim_term|by apply sim_find_mgr|by apply sim_coll_add
    |by apply sim_low|by apply sim_high]).
  all: try (apply sim_ret; first [done|exact I]).
  - (* drop *) destruct Hrel as (HR&Hw&HF).
    assert (Hs : match ref_release p (w_s w) with Ok _ s' => exists t', ref_release p (w_s w') = Ok tt t' /\ rel s' t' | Fail _ _ => True end).
    { unfold ref_release. destruct (N.eqb_spec p 0) as [|H0]; [by eexists|].
      destruct (s_heap (w_s w) !! p) as [n|] eqn:Hn; [|unfold bind, getN; by rewrite Hn].
      destruct (r_node _ _ HR p n Hn HpF) as (Ht&_).
      assert (Hx : (0 < n_xref n - d p)%Z).
      { rewrite (i_xref _ _ _ HW p n Hn), (r_refs _ _ HR). specialize (Hd p).
        pose proof (hcount_pos _ _ _ (proj1 (hnd_lookup _ _ _) Hp) H0). case_decide; lia. }
      assert ((let* n := getN p in assert_ (0 <? n_xref n)%Z ;;* xref_dec p) (w_s w') = xref_dec p (w_s w')) as ->.
      { rewrite (bind_eq _ _ _ _ _ (getN_eq _ _ _ Ht)). cbn [with_xref n_xref]. rewrite (proj2 (Z.ltb_lt _ _) Hx). done. }
      rewrite (bind_eq _ _ _ _ _ (getN_eq _ _ _ Hn)). unfold assert_, assertR. destruct (_ || _); [|done].
      pose proof (sim_dec p HpF _ _ HR) as Hs. unfold bind, liftR. destruct (xref_dec p (w_s w)) as [[] s'|]; [|done].
      destruct Hs as (_&t'&Ht'&HR'). by exists t'. }
    destruct (ref_release p (w_s w)) as [[] s'|]; [|done]. destruct Hs as (t'&->&HR'). cbn [wok]. eexists. split; [done|].
    split_and!; cbn [w_s w_h]; [done|by rewrite Hw|]. by apply hF_set.
  - (* assign *) destruct Hrel as (HR&Hw&HF). pose proof (sim_assign p p0 HpF HpF0 _ _ HR) as Hs.
    destruct (ref_assign p p0 (w_s w)) as [r s'|]; [|done]. destruct Hs as (->&t'&->&HR'). cbn [wok]. eexists. split; [done|].
    split_and!; cbn [w_s w_h]; [done|by rewrite Hw|]. apply hF_set; [done|]. by intros ? [= <-].
  - (* move *) destruct Hrel as (HR&Hw&HF). cbn [wok]. eexists. split; [done|]. split_and!; cbn [w_s w_h]; [done|by rewrite Hw|].
    apply (hF_app (W (w_s w) (<[i := Some 0]> (w_h w))) [p]); [|by constructor]. apply hF_set; [done|]. by intros ? [= <-].
  - apply sim_via; [done|by apply sim_ret].
  - apply sim_via; [done|by apply sim_ret].
  - by apply sim_ret with (P := fun _ => True).
  - instantiate (1 := fun _ => True). intros s t HR. cbn. split; [done|]. eexists. unfold nr_variables. rewrite (r_nv _ _ HR (Hnv eq_refl)). done.
Qed.
End sim.

(** a read never throws *)
Lemma read_ok md w o : WInv md w -> allowed md w o -> is_read o = true -> exists r w1, step o w = WOk r w1 /\ WInv md w1.
Proof.
  intros HW Ha Hr. pose proof (step_good HE md w o HW Ha) as Hg.
  assert (Hnt : forall w1, step o w <> WFail EThrow w1).
  { clear Hg. destruct (is_query o) eqn:Hq. { destruct (step_query md w o HW Ha Hq) as (r&->&_). done. }
    assert (Hacq : forall (p : ptr) s s', ref_acquire p s <> Fail EThrow s').
    { intros p s s'. unfold ref_acquire, xref_inc, modN, bind, getN, ret. destruct (p =? 0); [done|]. by destruct (s_heap s !! p). }
    assert (Hnew : forall (m : M ptr) w1, (forall s1, m (w_s w) <> Fail EThrow s1) -> newh w m <> WFail EThrow w1).
    { intros m w1 Hm. unfold newh. destruct (m (w_s w)) as [p s|e s]; [|intros [= -> _]; by eapply Hm].
      destruct (ref_acquire p s) as [? ?|e s2] eqn:Hq2; [done|]. intros [= -> _]. by eapply Hacq. }
    assert (Htouch : forall (p : ptr) s s', touch p s <> Fail EThrow s').
    { intros p s s'. unfold touch, bind, getN, ret. destruct (p =? 0); [done|]. by destruct (s_heap s !! p). }
    assert (Hdec : forall (p : ptr) s s', xref_dec p s <> Fail EThrow s').
    { intros p s s'. unfold xref_dec, modN, bind, getN, ret. by destruct (s_heap s !! p). }
    intros w1. destruct o; try discriminate Hr; try discriminate Hq; cbn [step]; unfold with2; simpl in Ha.
    - by apply Hnew.
    - by apply Hnew.
    - unfold with1. destruct (hnd w i) as [p|]; [|done]. by apply Hnew.
    - unfold with1. destruct (hnd w i) as [p|]; [|done]. destruct (ref_release p (w_s w)) as [|e s] eqn:Hq2; [done|].
      intros [= -> _]. revert Hq2. unfold ref_release. destruct (p =? 0); [done|]. unfold bind, getN. destruct (s_heap (w_s w) !! p); [|done].
      unfold assert_, assertR, liftR. destruct (_ || _); [|done]. apply Hdec.
    - unfold with1. destruct (hnd w i) as [p|]; [|done]. destruct (hnd w j) as [p0|]; [|done]. destruct (ref_assign p p0 (w_s w)) as [|e s] eqn:Hq2; [done|].
      intros [= -> _]. revert Hq2. unfold ref_assign, bind at 1. destruct (p =? 0).
      + cbn. unfold bind at 1. destruct (p0 =? 0); [done|]. destruct (xref_inc p0 (w_s w)) as [|e s2] eqn:Hi; [done|].
        intros [= -> _]. revert Hi. unfold xref_inc, modN, bind, getN. by destruct (s_heap (w_s w) !! p0).
      + destruct (xref_dec p (w_s w)) as [[] s2|e s2] eqn:Hi; [|intros [= -> _]; by eapply Hdec].
        unfold bind at 1. destruct (p0 =? 0); [done|]. destruct (xref_inc p0 s2) as [|e s3] eqn:Hj; [done|].
        intros [= -> _]. revert Hj. unfold xref_inc, modN, bind, getN. by destruct (s_heap s2 !! p0).
    - unfold with1. destruct (hnd w i) as [p|]; [|done]. apply Hnew. intros s1. unfold low, bind, getN. destruct (s_heap (w_s w) !! p); [apply Htouch|done].
    - unfold with1. destruct (hnd w i) as [p|]; [|done]. apply Hnew. intros s1. unfold high, bind, getN. destruct (s_heap (w_s w) !! p); [apply Htouch|done].
    - by apply Hnew.
    - unfold with1. by destruct (hnd w i).
    - destruct Ha as [Hi Hc]. destruct (live_hrep _ _ _ HW Hi) as (p&t&Hh).
      destruct (step_postorder _ _ _ _ _ HW Hh Hc) as (l&Hs&Hl&_). rewrite (with1_hrep _ _ _ _ _ Hh).
      destruct (newhs_spec _ _ _ _ HW Hs (reach_dom _ _ _ Hl)) as (s'&->&_). done.
    - destruct Ha as [Hi Hc]. destruct (live_hrep _ _ _ HW Hi) as (p&t&Hh).
      destruct (nodes_bfs_spec _ _ _ HW p t) as (l&Hs&Hl&_); [apply Hh|by eapply nonconst_nonsink|]. rewrite (with1_hrep _ _ _ _ _ Hh).
      destruct (newhs_spec _ _ _ _ HW Hs (reach_dom _ _ _ Hl)) as (s'&->&_). done.
    - destruct (live_hrep _ _ _ HW Ha) as (p&t&Hh). rewrite (with1_hrep _ _ _ _ _ Hh). apply Hnew. intros s1.
      unfold via_mgr, bind. rewrite (find_bdd_mgr_spec _ _ _ HW p t) by apply Hh. by rewrite N.eqb_refl.
    - destruct (live_hrep _ _ _ HW Ha) as (p&t&Hh). rewrite (with1_hrep _ _ _ _ _ Hh). apply Hnew. intros s1.
      unfold via_mgr, bind. rewrite (find_bdd_mgr_spec _ _ _ HW p t) by apply Hh. by rewrite N.eqb_refl. }
  destruct (step o w) as [r w1|e w1] eqn:Hst; cbn [ensures] in Hg.
  - exists r, w1. split; [done|apply Hg].
  - destruct e; try done. by edestruct Hnt.
Qed.

Lemma outs_rel F d h0 (nv : Prop) : 0 ∉ F -> botsink ∉ F -> topsink ∉ F -> forall md, (forall q, d q <= refs h0 q)%Z ->
  forall os w w', WInv md w -> reads md os w -> (QNrVars ∈ os -> nv) -> wrel F d h0 nv w w' ->
  exists rs w2 w2', outs os w = Some (rs, w2) /\ outs os w' = Some (rs, w2') /\ w_h w2' = w_h w2 /\ wrel F d h0 nv w2 w2'.
Proof.
  intros H0F HbF HtF md Hd os. induction os as [|o os IH]; intros w w' HW Hos Hnv Hrel; cbn [outs].
  - pose proof Hrel as (_&Hw&_). by exists [], w, w'.
  - destruct Hos as (Hro&Ha&Hos). destruct (read_ok md w o HW Ha Hro) as (r&w1&Hst&HW1).
    pose proof (step_rel F d h0 nv H0F HbF HtF md w w' o HW Hd Hrel Hro) as Hk. rewrite Hst in *. cbn [wok] in Hk.
    destruct Hk as (w1'&->&Hrel1). { intros ->. apply Hnv. by left. }
    destruct (IH w1 w1' HW1 (Hos _ _ eq_refl)) as (rs&w2&w2'&->&->&Hw2&Hrel2); [|done|]. { intros Hq. apply Hnv. by right. }
    by exists (r :: rs), w2, w2'.
Qed.

(** if the collection returns, then every program of reads gives, call by call, the same
    results -- addresses, values, node lists, exported collections -- and the same handles as it
    would have given without the collection, and never fails *)
Theorem C28_gc_transparent md w fuel out w' os : md_ord md = true -> reach md w -> step (OGc fuel) w = WOk out w' -> reads md os w ->
  exists rs w2 w2', outs os w = Some (rs, w2) /\ outs os w' = Some (rs, w2') /\ w_h w2' = w_h w2.
Proof.
  intros Ho HR Hs Hos. pose proof (reach_inv HE _ _ HR) as HW.
  pose proof (collect_garbage_spec md _ _ HW Ho fuel) as Hg. unfold gsat in Hg. cbn [step] in Hs. unfold query in Hs.
  destruct (collect_garbage fuel (w_s w)) as [[] s'|[] s']; try done. injection Hs as _ <-.
  destruct Hg as (F&s1&HG&Hh&Hnc&Hv). clear HR.
  set (d := fun q => (refs (s_heap (w_s w)) q - refs (liveh (w_s w) F) q)%Z).
  assert (Hsub : forall q, s_heap (w_s w) !! q = None -> q ∉ F).
  { intros q Hq HqF. destruct (g_F _ _ _ _ HG q HqF) as (_&[? ?]%elem_of_dom&_). congruence. }
  assert (Hd : forall q, (d q <= refs (s_heap (w_s w)) q)%Z). { intros q. unfold d. pose proof (refs_nonneg (liveh (w_s w) F) q). lia. }
  assert (H0F : 0 ∉ F).
  { apply Hsub. destruct (s_heap (w_s w) !! 0) as [n|] eqn:Hn; [|done]. pose proof (inv_addr HE _ _ _ _ _ HW Hn). lia. }
  assert (HbF : botsink ∉ F). { intros HF. destruct (g_F _ _ _ _ HG _ HF) as (Hns&_). apply Hns. by left. }
  assert (HtF : topsink ∉ F). { intros HF. destruct (g_F _ _ _ _ HG _ HF) as (Hns&_). apply Hns. by right. }
  assert (Hrel : wrel F d (s_heap (w_s w)) True w (W s' (w_h w))).
  { split_and!; [|done|].
    - split; cbn [w_s].
      + by rewrite Hh, (g_dom _ _ _ _ HG).
      + intros q n Hq HqF. destruct (g_node _ _ _ _ HG q n Hq HqF) as (n'&Hn'&(Hl&Hhi&Hi&Hk&Hm)&Hx). rewrite Hh. split_and!.
        * rewrite Hn'. f_equal. destruct n as [l1 h1 i1 k1 m1 x1], n' as [l2 h2 i2 k2 m2 x2]. cbn [n_lo n_hi n_idx n_key n_mark n_xref with_xref] in *. subst.
          unfold with_xref. cbn [n_lo n_hi n_idx n_key n_mark n_xref]. f_equal. pose proof (i_xref _ _ _ HW q _ Hq) as Hxq. cbn [n_xref] in Hxq.
          unfold d, cnt. rewrite Hxq. lia.
        * destruct (decide (sink q)) as [Hsk|Hsk]; [|by eapply grel_child].
          destruct (ho_sink _ _ _ (i_heap _ _ _ HW)) as [[x Hb] [y Ht]]. apply Hsub.
          assert (n_lo n = e_mgr) as -> by (destruct Hsk as [-> | ->]; rewrite Hq in *; simplify_eq; done).
          by eapply mgr_not_node.
        * destruct (decide (sink q)) as [Hsk|Hsk]; [|by eapply grel_child].
          destruct (ho_sink _ _ _ (i_heap _ _ _ HW)) as [[x Hb] [y Ht]]. apply Hsub.
          assert (n_hi n = e_mgr) as -> by (destruct Hsk as [-> | ->]; rewrite Hq in *; simplify_eq; done).
          by eapply mgr_not_node.
      + done.
      + by rewrite Hv, (g_nv _ _ _ _ HG).
    - intros i p Hp. by eapply hcount_F. }
  destruct (outs_rel F d _ True H0F HbF HtF md Hd os w _ HW Hos (fun _ => I) Hrel) as (rs&w2&w2'&?&?&?&_). by exists rs, w2, w2'.
Qed.
End gc2.
