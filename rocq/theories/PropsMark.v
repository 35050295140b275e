(** * PropsMark.v -- the mark bit (C62) *)
From Verif Require Export MarkModel PropsState.
Open Scope N_scope.

(** ** Specification *)
(** the states differ at most in mark bits *)
Definition same_but_marks (s s' : mstate) : Prop :=
  set_s_heap (s_heap s) s' = s /\ forall q, with_mark false <$> s_heap s' !! q = with_mark false <$> s_heap s !! q.

Section mark.
Context {E : Env} (HE : env_ok E).

(** ** Proof *)
Lemma mk_same S s : same_but_marks s (mk S s).
Proof.
  split; [by destruct s|]. intros q. simpl. rewrite markh_lookup. destruct (s_heap s !! q) as [n|]; [|done]. simpl. by case_decide.
Qed.
Lemma mark_dfs s md H (HI : Inv md H s) S p pre post S' : Dfs s S p pre post S' ->
  forall fuel t, repr (s_heap s) p t -> (ht t < fuel)%nat -> mark_fuel fuel p (mk S s) = Ok tt (mk S' s).
Proof.
  induction 1 as [S p Hsk|S p n pre1 post1 S1 pre2 post2 S2 Hs Hin Hp H1 IH1 H2 IH2]; intros fuel t Hr Hf; (destruct fuel as [|fuel]; [lia|]); simpl;
    rewrite (bind_eq _ _ _ _ _ (mk_terminal s _ _ HI S p _ Hr)).
  - case_bool_decide as Hs; [done|]. destruct Hsk as [?|Hin]; [done|].
    destruct (repr_nonsink _ _ _ Hr Hs) as (n&tl&th&Hn&->&Hl&Hh).
    rewrite (bind_eq _ _ _ _ _ (mk_getN s S p n Hn)). by rewrite decide_True.
  - rewrite bool_decide_eq_false_2 by done.
    destruct (repr_nonsink _ _ _ Hr Hs) as (n'&tl&th&Hn'&->&Hl&Hh). simplify_eq. simpl in Hf.
    destruct (ho_node _ _ _ (i_heap _ _ _ HI) p n Hp Hs) as (_&_&Hm&_).
    rewrite (bind_eq _ _ _ _ _ (mk_getN s S p n Hp)). rewrite decide_False by done. rewrite Hm.
    rewrite (bind_eq _ _ _ _ _ (mk_mod_mark s S p n Hp)).
    rewrite (bind_eq _ _ _ _ _ (IH1 fuel tl Hl ltac:(lia))).
    rewrite (bind_eq _ _ _ _ _ (mk_getN s S1 p n Hp)).
    assert (n_hi (if decide (p ∈ S1) then with_mark true n else n) = n_hi n) as -> by (by case_decide).
    apply (IH2 fuel th Hh). lia.
Qed.
Lemma inner_sink p : inner p <-> ~ sink p.
Proof. unfold inner, sink. tauto. Qed.
Lemma mk_marked s md H (HI : Inv md H s) S q n : s_heap s !! q = Some n -> inner q ->
  marked q (mk S s) = Ok (bool_decide (q ∈ S)) (mk S s).
Proof.
  intros Hq Hi. unfold marked. rewrite (bind_eq _ _ _ _ _ (mk_getN s S q n Hq)). apply inner_sink in Hi.
  destruct (ho_node _ _ _ (i_heap _ _ _ HI) q n Hq Hi) as (_&_&Hm&_). unfold ret. f_equal. case_decide.
  - by rewrite bool_decide_eq_true_2.
  - by rewrite bool_decide_eq_false_2.
Qed.

(** between calls no stored node is marked *)
Theorem C62_none_marked md w q n : reach md w -> s_heap (w_s w) !! q = Some n -> inner q ->
  ref_marked q (w_s w) = Ok false (w_s w).
Proof.
  intros HR Hq Hi. pose proof (reach_inv HE _ _ HR) as HW. pose proof (mk_marked _ _ _ HW ∅ q n Hq Hi) as Hm.
  rewrite mk_empty in Hm. exact Hm.
Qed.
(** node_struct::mark marks the nodes below, and no others; unmark_rec takes this back *)
Theorem C62_mark md w i p : reach md w -> hnd w i = Some p -> p <> 0 ->
  exists s', mark p (w_s w) = Ok tt s' /\ same_but_marks (w_s w) s' /\
    (forall q n, s_heap (w_s w) !! q = Some n -> inner q ->
       exists b, ref_marked q s' = Ok b s' /\ (b = true <-> subnode (w_s w) p q)) /\
    mark p s' = Ok tt s' /\
    ref_unmark_rec p s' = Ok tt (w_s w).
Proof.
  intros HR Hi H0. pose proof (reach_inv HE _ _ HR) as HW. destruct (winv_repr _ _ _ _ HW Hi H0) as [t Ht].
  pose proof (fuel_ht _ _ _ Ht) as Hf.
  destruct (decide (sink p)) as [Hs|Hs].
  - assert (Hd : Dfs (w_s w) ∅ p [] [] ∅) by (apply dfs_skip; by left).
    pose proof (mark_dfs _ _ _ HW _ _ _ _ _ Hd (fuel_of (w_s w)) t Ht ltac:(lia)) as Hm. rewrite mk_empty in Hm.
    exists (w_s w). split; [exact Hm|]. split; [rewrite <- (mk_empty (w_s w)) at 2; apply mk_same|]. split; [|split; [exact Hm|]].
    + intros q n Hq Hin. exists false. pose proof (mk_marked _ _ _ HW ∅ q n Hq Hin) as Hx. rewrite mk_empty in Hx. split; [exact Hx|].
      split; [done|]. rewrite subnode_reach. intros Hx2. exfalso. by destruct Hx2.
    + pose proof (unmark_unm _ _ _ HW ∅ p ∅ (unm_skip _ _ _ (or_introl Hs)) (fuel_of (w_s w)) t Ht ltac:(lia)) as Hu.
      rewrite mk_empty in Hu. exact Hu.
  - destruct (dfs_ex (w_s w) p t Ht ∅) as (pre&post&S'&Hd). destruct (dfs_all _ _ _ _ _ Hs Hd) as (HS&Hnd&Hpp&Hre&Hc).
    pose proof (mark_dfs _ _ _ HW _ _ _ _ _ Hd (fuel_of (w_s w)) t Ht ltac:(lia)) as Hm. rewrite mk_empty in Hm.
    exists (mk S' (w_s w)). split; [exact Hm|]. split; [apply mk_same|]. split; [|split].
    + intros q n Hq Hin. exists (bool_decide (q ∈ S')). split; [by apply (mk_marked _ _ _ HW S' q n)|].
      rewrite bool_decide_eq_true, HS, elem_of_list_to_set, Hre. by rewrite subnode_reach.
    + assert (Hp : p ∈ S') by (destruct (dfs_root _ _ _ _ _ _ Hd); done).
      unfold mark, with_fuel. rewrite mk_fuel.
      apply (mark_dfs _ _ _ HW S' p [] [] S' (dfs_skip _ _ _ (or_intror Hp)) _ t Ht). lia.
    + by eapply (trav_finish _ _ _ HW).
Qed.
(** node_ref::mark marks that node only, node_ref::unmark takes this back *)
Theorem C62_ref_mark md w i p : reach md w -> hnd w i = Some p -> p <> 0 -> ~ isconst w i ->
  exists s', ref_mark p (w_s w) = Ok tt s' /\ same_but_marks (w_s w) s' /\
    (forall q n, s_heap (w_s w) !! q = Some n -> inner q -> ref_marked q s' = Ok (q =? p) s') /\
    ref_unmark p s' = Ok tt (w_s w) /\ ref_unmark_rec p s' = Ok tt (w_s w).
Proof.
  intros HR Hi H0 Hc. pose proof (reach_inv HE _ _ HR) as HW. destruct (winv_repr _ _ _ _ HW Hi H0) as [t Ht].
  pose proof (nonconst_nonsink _ _ _ _ (conj Hi (conj H0 Ht) : hrep w i p t) Hc) as Hs.
  destruct (repr_nonsink _ _ _ Ht Hs) as (n&tl&th&Hn&->&Hl&Hh).
  destruct (ho_node _ _ _ (i_heap _ _ _ HW) p n Hn Hs) as (_&_&Hm&_).
  pose proof (mk_mod_mark (w_s w) ∅ p n Hn) as Hx. rewrite mk_empty in Hx.
  exists (mk ({[p]} ∪ ∅) (w_s w)). split; [exact Hx|]. split; [apply mk_same|]. split_and!.
  - intros q m Hq Hin. pose proof (mk_marked _ _ _ HW ({[p]} ∪ ∅) q m Hq Hin) as Hy. unfold ref_marked. rewrite Hy. f_equal.
    destruct (N.eqb_spec q p) as [->|Hne]; [apply bool_decide_eq_true_2; set_solver|apply bool_decide_eq_false_2; set_solver].
  - unfold ref_unmark. rewrite (mk_mod_unmark (w_s w) ({[p]} ∪ ∅) p n Hn Hm).
    rewrite (ltac:(set_solver) : ({[p]} ∪ ∅) ∖ {[p]} =@{gset N} ∅). by rewrite mk_empty.
  - pose proof (fuel_ht _ _ _ Ht) as Hf. destruct (unm_ex (w_s w) p _ Ht ({[p]} ∪ ∅)) as (S'&Hu).
    assert (S' = ∅) as ->.
    { inversion Hu as [? ? Hsk|? ? n' S1 S2 Hs' Hin Hp' H1 H2]; subst; [destruct Hsk; [done|set_solver]|].
      apply unm_sub in H1. apply unm_sub in H2. set_solver. }
    unfold ref_unmark_rec, unmark, with_fuel. rewrite mk_fuel.
    rewrite (unmark_unm _ _ _ HW _ _ _ Hu _ _ Ht) by lia. by rewrite mk_empty.
Qed.
(** a client that leaves a handle marked cannot ask for its size: the assertion fails *)
Theorem C62_marked_nr_nodes md w i p s' : reach md w -> hnd w i = Some p -> p <> 0 -> ~ isconst w i -> e_ndebug = false ->
  ref_mark p (w_s w) = Ok tt s' -> exists s'', nr_nodes p s' = Fail EAssert s'' /\ nodes_postorder p s' = Fail EAssert s''.
Proof.
  intros HR Hi H0 Hc Hnd Hr. pose proof (reach_inv HE _ _ HR) as HW. destruct (winv_repr _ _ _ _ HW Hi H0) as [t Ht].
  pose proof (nonconst_nonsink _ _ _ _ (conj Hi (conj H0 Ht) : hrep w i p t) Hc) as Hs.
  destruct (repr_nonsink _ _ _ Ht Hs) as (n&tl&th&Hn&->&Hl&Hh).
  pose proof (mk_mod_mark (w_s w) ∅ p n Hn) as Hx. rewrite mk_empty in Hx. unfold ref_mark in Hr. rewrite Hx in Hr. injection Hr as <-.
  exists (mk ({[p]} ∪ ∅) (w_s w)).
  pose proof (mk_marked _ _ _ HW ({[p]} ∪ ∅) p n Hn (proj2 (inner_sink p) Hs)) as Hy. rewrite bool_decide_eq_true_2 in Hy by set_solver.
  unfold nr_nodes, nodes_postorder. rewrite !(bind_eq _ _ _ _ _ Hy). cbn [negb].
  unfold assert_, assertR, liftR, bind. by rewrite Hnd.
Qed.
End mark.
