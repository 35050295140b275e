(** * Trav2.v -- nodes_bfs, variables, exactly_one_solution, evaluate, find_bdd_mgr *)
From Verif Require Export Trav.
Open Scope N_scope.

(** the assignment given by a vector of booleans *)
Definition asg (x : list bool) : asgn := fun v => default false (x !! N.to_nat v).

(** the variables a function depends on *)
Definition depends (phi : bfun) (v : N) : Prop := exists r, phi (upd r v false) <> phi (upd r v true).
(** exactly one assignment of the variables it depends on makes [phi] true *)
Definition one_model (phi : bfun) : Prop :=
  exists r, phi r = true /\ forall r', phi r' = true -> forall v, depends phi v -> r' v = r v.

Lemma depends_ext phi psi v : (forall r, phi r = psi r) -> depends phi v -> depends psi v.
Proof. intros He (r&Hr). exists r. by rewrite <- !He. Qed.
Lemma one_model_ext phi psi : (forall r, phi r = psi r) -> one_model phi -> one_model psi.
Proof.
  intros He (r&Hr&Hu). exists r. split; [by rewrite <- He|]. intros r' Hr' v Hv. apply Hu; [by rewrite He|].
  eapply depends_ext; [|exact Hv]. done.
Qed.

Global Instance occurs_dec v t : Decision (occurs v t).
Proof. induction t as [b|w l IHl h IHh]; simpl; apply _. Defined.
Lemma depends_occurs t v : ordt 0 t -> redt t -> depends (evalt t) v <-> occurs v t.
Proof.
  intros Ho Hr. split.
  - intros (r&Hne). destruct (decide (occurs v t)) as [|Hn]; [done|]. by rewrite !evalt_upd_notin in Hne.
  - intros Hoc. by apply occurs_dep.
Qed.

Fixpoint eos (t : bdd) : bool :=
  match t with
  | Leaf b => b
  | Br _ l h => if decide (l = Leaf false) then eos h else if decide (h = Leaf false) then eos l else false
  end.

Lemma sat_tree t : ordt 0 t -> redt t -> t <> Leaf false -> exists r, evalt t r = true.
Proof.
  intros Ho Hr Hne. destruct (distinguish t (Leaf false)) as [r Hd]; [done|done|done|done|done|].
  exists r. simpl in Hd. by destruct (evalt t r).
Qed.

Lemma evalt_br_at v l h r lb b : ordt lb l -> ordt lb h -> v < lb -> evalt (Br v l h) (upd r v b) = evalt (if b then h else l) r.
Proof. intros. destruct b; [eapply evalt_br_hi|eapply evalt_br_lo]; eauto. Qed.

Lemma eos_spec t : ordt 0 t -> redt t -> eos t = true <-> one_model (evalt t).
Proof.
  generalize 0 as lb.
  assert (Hlift : forall v l h (b : bool) lb, ordt lb (Br v l h) -> redt (Br v l h) ->
    (if b then l else h) = Leaf false ->
    one_model (evalt (if b then h else l)) <-> one_model (evalt (Br v l h))).
  { intros v l h b lb (Hlb&Hol&Hoh) Hrt Hz. pose proof Hrt as (Hne&Hrl&Hrh).
    set (u := if b then h else l). assert (Hou : ordt (v + 1) u) by (by destruct b).
    assert (Hru : redt u) by (by destruct b).
    assert (Ht : forall r, evalt (Br v l h) r = Bool.eqb (r v) b && evalt u r).
    { intros r. unfold u. simpl. destruct b; subst; destruct (r v); simpl; rewrite ?Hz; try done. }
    assert (Ho0 : ordt 0 (Br v l h)) by (split_and!; auto; lia).
    assert (Hou0 : ordt 0 u) by (eapply ordt_weaken; [|exact Hou]; lia).
    assert (Hdep : forall w, depends (evalt (Br v l h)) w <-> w = v \/ depends (evalt u) w).
    { intros w. rewrite !depends_occurs by done. simpl. unfold u. destruct b; rewrite Hz; simpl; tauto. }
    split.
    - intros (r&Hr&Hu). exists (upd r v b). split.
      + rewrite (evalt_br_at v l h r (v + 1)) by (auto; lia). done.
      + intros r' Hr' w Hw. rewrite Ht in Hr'. apply andb_true_iff in Hr' as [Hv Hr'].
        apply Hdep in Hw as [->|Hw]; [rewrite upd_same; by apply eqb_prop|].
        rewrite upd_other; [by apply Hu|]. intros ->. apply depends_occurs in Hw; auto.
        pose proof (ordt_occurs _ _ _ Hou Hw). lia.
    - intros (r&Hr&Hu). exists r. rewrite Ht in Hr. apply andb_true_iff in Hr as [Hv Hr]. split; [done|].
      intros r' Hr' w Hw. assert (w <> v).
      { intros ->. apply depends_occurs in Hw; auto. pose proof (ordt_occurs _ _ _ Hou Hw). lia. }
      rewrite <- (Hu (upd r' v b)).
      + by rewrite upd_other.
      + rewrite (evalt_br_at v l h r' (v + 1)) by (auto; lia). done.
      + apply Hdep. by right. }
  induction t as [b|v l IHl h IHh]; intros lb Ho Hr.
  - simpl. split.
    + intros ->. exists (fun _ => false). split; [done|]. intros r' _ w (r0&Hd). done.
    + intros (r&Hr'&_). done.
  - pose proof Ho as (Hlb&Hol&Hoh). pose proof Hr as (Hne&Hrl&Hrh).
    cbn [eos]. destruct (decide (l = Leaf false)) as [Hl|Hl].
    + rewrite (IHh (v + 1)) by done. exact (Hlift v l h true lb Ho Hr Hl).
    + destruct (decide (h = Leaf false)) as [Hh|Hh].
      * rewrite (IHl (v + 1)) by done. exact (Hlift v l h false lb Ho Hr Hh).
      * split; [done|]. intros (r&Hr'&Hu). exfalso.
        destruct (sat_tree l) as [r0 H0]; auto; [eapply ordt_weaken; [|exact Hol]; lia|].
        destruct (sat_tree h) as [r1 H1]; auto; [eapply ordt_weaken; [|exact Hoh]; lia|].
        assert (Hdv : depends (evalt (Br v l h)) v).
        { apply depends_occurs; auto; [|by left]. split_and!; auto; lia. }
        pose proof (Hu (upd r0 v false)) as E0. pose proof (Hu (upd r1 v true)) as E1.
        rewrite (evalt_br_at v l h r0 (v + 1)) in E0 by (auto; lia).
        rewrite (evalt_br_at v l h r1 (v + 1)) in E1 by (auto; lia).
        specialize (E0 H0 v Hdv). specialize (E1 H1 v Hdv). rewrite upd_same in E0, E1. congruence.
Qed.

(** sorting *)
Lemma unique_adj_elem l x : x ∈ unique_adj l <-> x ∈ l.
Proof.
  induction l as [|a l IH]; [done|]. destruct l as [|b l]; [done|].
  change (unique_adj (a :: b :: l)) with (if a =? b then unique_adj (b :: l) else a :: unique_adj (b :: l)).
  destruct (N.eqb_spec a b) as [->|Hne].
  - rewrite IH. rewrite !elem_of_cons. tauto.
  - rewrite elem_of_cons, IH. by rewrite (elem_of_cons (b :: l)).
Qed.
Lemma unique_adj_sorted l : StronglySorted N.le l -> StronglySorted N.lt (unique_adj l).
Proof.
  induction l as [|a l IH]; intros Hs; [constructor|]. apply StronglySorted_inv in Hs as [Hs Hf].
  destruct l as [|b l]; [repeat constructor|].
  change (unique_adj (a :: b :: l)) with (if a =? b then unique_adj (b :: l) else a :: unique_adj (b :: l)).
  destruct (N.eqb_spec a b) as [->|Hne]; [by apply IH|]. constructor; [by apply IH|].
  apply Forall_forall. intros x Hx. rewrite unique_adj_elem in Hx.
  apply StronglySorted_inv in Hs as [Hs Hf2].
  rewrite Forall_forall in Hf. rewrite Forall_forall in Hf2. pose proof (Hf b ltac:(left)).
  apply elem_of_cons in Hx as [->|Hx]; [lia|]. specialize (Hf2 x Hx). lia.
Qed.
Lemma sort_unique_spec l : StronglySorted N.lt (sort_unique l) /\ forall x, x ∈ sort_unique l <-> x ∈ l.
Proof.
  split.
  - apply unique_adj_sorted. apply StronglySorted_merge_sort; apply _.
  - intros x. unfold sort_unique. rewrite unique_adj_elem. by rewrite merge_sort_Permutation.
Qed.

Section st.
Context {E : Env}.
Context (s : mstate) (md : mode) (H : ptr -> Z) (HI : Inv md H s).
Notation h := (s_heap s).

Lemma reach_occurs p t v : repr h p t -> occurs v t <-> exists q n, reach_in h p q /\ h !! q = Some n /\ n_idx n = v.
Proof.
  intros Hr. split.
  - induction Hr as [| |p n tl th Hs Hp Hl IHl Hh IHh]; simpl; try done. intros [->|[Ho|Ho]].
    + exists p, n. split_and!; auto. by eapply ri_refl.
    + destruct (IHl Ho) as (q&m&?&?&?). exists q, m. split_and!; auto. by eapply ri_lo.
    + destruct (IHh Ho) as (q&m&?&?&?). exists q, m. split_and!; auto. by eapply ri_hi.
  - intros (q&m&Hre&Hq&Hm). revert t Hr. induction Hre as [p n Hs Hp|p n q Hs Hp Hre IH|p n q Hs Hp Hre IH]; intros t Hr;
      destruct (repr_nonsink _ _ _ Hr Hs) as (n'&tl&th&Hn'&->&Hl&Hh); simplify_eq; simpl.
    + by left.
    + right. left. by apply IH.
    + right. right. by apply IH.
Qed.

Lemma sink_repr p : sink p -> exists b, repr h p (Leaf b).
Proof. intros [->| ->]; eexists; constructor. Qed.
Lemma unmark_sink p : sink p -> unmark p s = Ok tt s.
Proof.
  intros Hs. destruct (sink_repr p Hs) as [b Hr]. unfold unmark, with_fuel. destruct (fuel_of s) as [|f] eqn:Hf; [unfold fuel_of in Hf; lia|]. simpl.
  rewrite (bind_eq _ _ _ _ _ (is_terminal_eq _ _ _ _ _ HI Hr)). by rewrite bool_decide_eq_true_2 by done.
Qed.
(** on a constant, nr_nodes is 0 unless its assert trips over the uninitialised mark bit *)
Lemma nr_nodes_sink p : sink p -> (e_ndebug = true \/ e_botmark = false /\ e_topmark = false) -> nr_nodes p s = Ok 0 s.
Proof.
  intros Hs Hok. destruct (sink_repr p Hs) as [b Hr]. unfold nr_nodes.
  assert (exists m, marked p s = Ok m s /\ (e_botmark = false /\ e_topmark = false -> m = false)) as (m&Hm&Hmm).
  { destruct (ho_sink _ _ _ (i_heap _ _ _ HI)) as [[x Hb] [y Ht]]. unfold marked.
    destruct Hs as [->| ->]; [rewrite (bind_eq _ _ _ _ _ (getN_eq _ _ _ Hb))|rewrite (bind_eq _ _ _ _ _ (getN_eq _ _ _ Ht))]; eexists; (split; [reflexivity|simpl; tauto]). }
  rewrite (bind_eq _ _ _ _ _ Hm).
  assert (Ha : assert_ (negb m) s = Ok tt s).
  { unfold assert_, assertR. destruct Hok as [->|Hok]; [by rewrite orb_true_r|]. by rewrite Hmm. }
  rewrite (bind_eq _ _ _ _ _ Ha).
  assert (Hv : with_fuel (fun f => nr_nodes_impl f p) s = Ok 0 s).
  { unfold with_fuel. destruct (fuel_of s) as [|f] eqn:Hf; [unfold fuel_of in Hf; lia|]. simpl.
    rewrite (bind_eq _ _ _ _ _ (is_terminal_eq _ _ _ _ _ HI Hr)). by rewrite bool_decide_eq_true_2 by done. }
  rewrite (bind_eq _ _ _ _ _ Hv). by rewrite (bind_eq _ _ _ _ _ (unmark_sink p Hs)).
Qed.
Lemma variables_spec p t : repr h p t -> exists l, variables p s = Ok l s /\ StronglySorted N.lt l /\ forall v, v ∈ l <-> occurs v t.
Proof.
  intros Hr. destruct (decide (sink p)) as [Hs|Hs].
  - exists []. split_and!; [|constructor|].
    + assert (Hv : with_fuel (fun f => variables_impl f p []) s = Ok [] s).
      { unfold with_fuel. destruct (fuel_of s) as [|f] eqn:Hf; [unfold fuel_of in Hf; lia|]. simpl.
        rewrite (bind_eq _ _ _ _ _ (is_terminal_eq _ _ _ _ _ HI Hr)). by rewrite bool_decide_eq_true_2 by done. }
      unfold variables. rewrite (bind_eq _ _ _ _ _ Hv). by rewrite (bind_eq _ _ _ _ _ (unmark_sink p Hs)).
    + intros v. destruct Hs as [->| ->]; [apply repr_bot_inv in Hr as ->|apply repr_top_inv in Hr as ->]; simpl; split; try done; intros Hv; by apply elem_of_nil in Hv.
  - destruct (dfs_ex s p t Hr ∅) as (pre&post&S'&Hd).
    destruct (dfs_all s _ _ _ _ Hs Hd) as (HS&Hnd&Hpp&Hre&Hc).
    set (l := concat (map (fun q => match h !! q with Some n => [n_idx n] | None => [] end) pre)).
    exists (sort_unique l). destruct (sort_unique_spec l) as [Hss Hel]. split_and!; auto.
    + unfold variables.
      assert (Hn : with_fuel (fun f => variables_impl f p []) s = Ok l (mk S' s)).
      { unfold with_fuel. rewrite variables_gtrav. eapply gtrav_root; eauto; [by intros ? ? ? ? _ _ ->|done|].
        apply (dfs_acc_pre s (fun _ n => [n_idx n]) _ _ _ _ _ Hd []). }
      rewrite (bind_eq _ _ _ _ _ Hn). by rewrite (bind_eq _ _ _ _ _ (trav_finish _ _ _ HI _ _ _ _ _ Hr Hs Hd)).
    + intros v. rewrite Hel. rewrite (reach_occurs p t v Hr). unfold l. rewrite elem_of_list_In, in_concat. split.
      * intros (x&Hx&Hv). apply in_map_iff in Hx as (q&Hq&Hin). apply elem_of_list_In in Hin. apply Hre in Hin.
        destruct (h !! q) as [n|] eqn:Hn; subst x; [|done]. destruct Hv as [<-|[]]. eauto.
      * intros (q&n&Hq&Hn&Hv). exists [n_idx n]. split; [|by left].
        apply in_map_iff. exists q. rewrite Hn. split; [done|]. apply elem_of_list_In. by apply Hre.
Qed.

Lemma evaluate_fuel_spec x fuel : forall p t, repr h p t -> (ht t < fuel)%nat -> (forall v, occurs v t -> v < N.of_nat (length x)) ->
  evaluate_fuel fuel p x s = Ok (evalt t (asg x)) s.
Proof.
  induction fuel as [|fuel IH]; intros p t Hr Hf Hx; [lia|]. simpl.
  rewrite (bind_eq _ _ _ _ _ (is_botsink_eq _ _ _ _ _ HI Hr)).
  case_bool_decide as Hb; [subst; by apply repr_bot_inv in Hr as ->|].
  rewrite (bind_eq _ _ _ _ _ (is_topsink_eq _ _ _ _ _ HI Hr)).
  case_bool_decide as Ht; [subst; by apply repr_top_inv in Hr as ->|].
  destruct (repr_nonsink _ _ _ Hr) as (n&tl&th&Hn&->&Hl&Hh); [intros [?|?]; done|].
  rewrite (bind_eq _ _ _ _ _ (getN_eq _ _ _ Hn)). simpl in Hf, Hx.
  pose proof (Hx (n_idx n) ltac:(auto)) as Hi.
  rewrite (bind_eq _ _ _ _ _ (assert_eq _ _ (proj2 (N.ltb_lt _ _) Hi))).
  simpl. unfold asg at 1. destruct (lookup_lt_is_Some_2 x (N.to_nat (n_idx n))) as [b Hb']; [lia|].
  rewrite Hb'. simpl. destruct b; apply IH; auto; lia.
Qed.
Lemma evaluate_spec p t x : repr h p t -> (forall v, occurs v t -> v < N.of_nat (length x)) ->
  evaluate p x s = Ok (evalt t (asg x)) s.
Proof. intros Hr Hx. apply evaluate_fuel_spec; auto. pose proof (fuel_ht _ _ _ Hr). lia. Qed.

Lemma eos_fuel_spec fuel : forall p t, repr h p t -> (ht t < fuel)%nat ->
  exactly_one_solution_fuel fuel p s = Ok (eos t) s.
Proof.
  induction fuel as [|fuel IH]; intros p t Hr Hf; [lia|]. simpl.
  rewrite (bind_eq _ _ _ _ _ (is_topsink_eq _ _ _ _ _ HI Hr)).
  case_bool_decide as Ht; [subst; by apply repr_top_inv in Hr as ->|].
  rewrite (bind_eq _ _ _ _ _ (is_botsink_eq _ _ _ _ _ HI Hr)).
  case_bool_decide as Hb; [subst; by apply repr_bot_inv in Hr as ->|].
  destruct (repr_nonsink _ _ _ Hr) as (n&tl&th&Hn&->&Hl&Hh); [intros [?|?]; done|].
  rewrite (bind_eq _ _ _ _ _ (getN_eq _ _ _ Hn)). simpl in Hf.
  rewrite (bind_eq _ _ _ _ _ (is_botsink_eq _ _ _ _ _ HI Hl)).
  assert (Hbl : forall q u, repr h q u -> bool_decide (q = botsink) = bool_decide (u = Leaf false)).
  { intros q u Hq. apply bool_decide_ext. split; intros ->; [by eapply repr_bot_inv|]. by apply repr_leaf_inv in Hq. }
  rewrite (Hbl _ _ Hl). simpl. destruct (decide (tl = Leaf false)) as [Hd|Hd].
  - rewrite bool_decide_eq_true_2 by done. apply IH; auto. lia.
  - rewrite bool_decide_eq_false_2 by done.
    rewrite (bind_eq _ _ _ _ _ (is_botsink_eq _ _ _ _ _ HI Hh)). rewrite (Hbl _ _ Hh).
    destruct (decide (th = Leaf false)) as [Hd'|Hd'].
    + rewrite bool_decide_eq_true_2 by done. apply IH; auto. lia.
    + by rewrite bool_decide_eq_false_2 by done.
Qed.
Lemma exactly_one_solution_spec p t : repr h p t -> exactly_one_solution p s = Ok (eos t) s.
Proof. intros Hr. apply eos_fuel_spec; auto. pose proof (fuel_ht _ _ _ Hr). lia. Qed.

Lemma sink_lo p n : sink p -> h !! p = Some n -> n_lo n = e_mgr.
Proof. destruct (inv_sinks _ _ _ HI) as (a&b&Ha&Hb&_&_&Hla&_&Hlb&_). intros [->| ->] Hn; congruence. Qed.
Lemma find_bdd_mgr_fuel_spec fuel : forall p t, repr h p t -> (ht t < fuel)%nat -> find_bdd_mgr_fuel fuel p s = Ok e_mgr s.
Proof.
  induction fuel as [|fuel IH]; intros p t Hr Hf; [lia|]. simpl.
  rewrite (bind_eq _ _ _ _ _ (is_terminal_eq _ _ _ _ _ HI Hr)).
  destruct (repr_in _ _ _ _ _ (i_heap _ _ _ HI) Hr) as [n Hn]. rewrite (bind_eq _ _ _ _ _ (getN_eq _ _ _ Hn)).
  case_bool_decide as Hs; [by rewrite (sink_lo p n)|].
  destruct (repr_nonsink _ _ _ Hr Hs) as (n'&tl&th&Hn'&->&Hl&Hh). simplify_eq. simpl in Hf.
  rewrite (bind_eq _ _ _ _ _ (is_terminal_eq _ _ _ _ _ HI Hl)). case_bool_decide as Hs'.
  - destruct (repr_in _ _ _ _ _ (i_heap _ _ _ HI) Hl) as [m Hm]. rewrite (bind_eq _ _ _ _ _ (getN_eq _ _ _ Hm)).
    by rewrite (sink_lo (n_lo n) m).
  - apply (IH _ th); auto. lia.
Qed.
Lemma find_bdd_mgr_spec p t : repr h p t -> find_bdd_mgr p s = Ok e_mgr s.
Proof. intros Hr. eapply find_bdd_mgr_fuel_spec; eauto. pose proof (fuel_ht _ _ _ Hr). lia. Qed.
Lemma via_mgr_spec {A} (m : M A) p t : repr h p t -> via_mgr p m s = m s.
Proof. intros Hr. unfold via_mgr. rewrite (bind_eq _ _ _ _ _ (find_bdd_mgr_spec p t Hr)). by rewrite N.eqb_refl. Qed.

(** ** breadth-first search *)
Lemma bfs_child_eq c t q S : repr h c t -> exists q' S', bfs_child c q (mk S s) = Ok q' (mk S' s) /\
  ((sink c \/ c ∈ S) /\ q' = q /\ S' = S \/ (~ sink c /\ c ∉ S) /\ q' = q ++ [c] /\ S' = {[c]} ∪ S).
Proof.
  intros Hr. unfold bfs_child. rewrite (bind_eq _ _ _ _ _ (mk_terminal s _ _ HI S c t Hr)).
  case_bool_decide as Hs; [do 2 eexists; split; [done|]; left; auto|].
  destruct (child_marked _ _ _ HI S c t Hr) as (b&Hb&Hb1&Hb2). rewrite (bind_eq _ _ _ _ _ Hb).
  destruct (decide (c ∈ S)) as [Hin|Hin].
  - destruct b; [|by destruct (Hb1 eq_refl)]. do 2 eexists; split; [done|]. left; auto.
  - rewrite Hb2 by done. destruct (repr_in _ _ _ _ _ (i_heap _ _ _ HI) Hr) as [n Hn].
    rewrite (bind_eq _ _ _ _ _ (mk_mod_mark s S c n Hn)). do 2 eexists; split; [done|]. right; auto.
Qed.

Definition parent (q c : ptr) : Prop := exists n, h !! q = Some n /\ (n_lo n = c \/ n_hi n = c).
Record Good (p : ptr) (nodes q : list ptr) : Prop := {
  g_nd : NoDup (nodes ++ q);
  g_re : forall x, x ∈ nodes ++ q -> reach_in h p x;
  g_cl : closed s (list_to_set nodes) (list_to_set (nodes ++ q));
  g_hd : head (nodes ++ q) = Some p;
  g_par : forall a c b, nodes ++ q = a ++ c :: b -> a <> [] -> exists x, x ∈ a /\ parent x c
}.

Lemma reach_snoc p x n : reach_in h p x -> h !! x = Some n ->
  (forall c, (c = n_lo n \/ c = n_hi n) -> ~ sink c -> is_Some (h !! c) -> reach_in h p c).
Proof.
  intros Hre Hx c Hc Hs [m Hm]. induction Hre as [p k Hp Hk|p k q Hp Hk Hre IH|p k q Hp Hk Hre IH].
  - simplify_eq. destruct Hc as [->| ->]; [eapply ri_lo|eapply ri_hi]; eauto; by eapply ri_refl.
  - eapply ri_lo; eauto.
  - eapply ri_hi; eauto.
Qed.
Lemma reach_node p q : reach_in h p q -> ~ sink q /\ is_Some (h !! q).
Proof. induction 1; eauto. Qed.

(** push one child of x (already in the list) *)
Lemma good_push p nodes q c x : Good p nodes q -> x ∈ nodes ++ q -> parent x c -> ~ sink c -> is_Some (h !! c) -> c ∉ nodes ++ q ->
  Good p nodes (q ++ [c]).
Proof.
  intros HG Hx Hpar Hs Hc Hni. destruct HG as [Hnd Hre Hcl Hhd Hp]. split.
  - rewrite app_assoc. apply NoDup_app. split_and!; [done| |apply NoDup_singleton].
    intros y Hy ->%elem_of_list_singleton. done.
  - intros y. rewrite app_assoc, elem_of_app, elem_of_list_singleton. intros [Hy| ->]; [auto|].
    destruct Hpar as (n&Hn&Hcc). eapply reach_snoc; eauto. naive_solver.
  - intros y n Hy Hn. destruct (Hcl y n Hy Hn) as [Ha Hb].
    rewrite app_assoc, list_to_set_app_L. split; [destruct Ha|destruct Hb]; auto; right; apply elem_of_union; auto.
  - rewrite app_assoc. destruct (nodes ++ q); done.
  - intros a d b Heq Ha. rewrite app_assoc in Heq. destruct (exists_last (l := d :: b)) as (b'&z&Hz); [done|].
    rewrite Hz, app_assoc in Heq. apply app_inj_tail in Heq as [Heq <-].
    destruct b' as [|d' b']; simpl in Hz; injection Hz as -> Hz.
    + rewrite app_nil_r in Heq. subst a. eauto.
    + by eapply Hp.
Qed.

Lemma good_len p nodes q : Good p nodes q -> (length nodes + length q <= size h)%nat.
Proof.
  intros HG. rewrite <- app_length, <- (size_dom (D := gset N) h), <- (size_list_to_set (C := gset N)) by apply HG.
  apply subseteq_size. intros x Hx. apply elem_of_list_to_set in Hx. apply HG in Hx. apply reach_node in Hx as [_ ?].
  by apply elem_of_dom.
Qed.

Lemma bfs_loop_spec p fuel : forall nodes q, Good p nodes q -> (size h < fuel + length nodes)%nat ->
  exists l, bfs_loop fuel q nodes (mk (list_to_set (nodes ++ q)) s) = Ok l (mk (list_to_set l) s) /\ Good p l [].
Proof.
  induction fuel as [|fuel IH]; intros nodes q HG Hf.
  { exfalso. pose proof (good_len _ _ _ HG). lia. }
  destruct q as [|x q]; simpl.
  { exists nodes. rewrite app_nil_r. done. }
  destruct (reach_node p x) as [Hsx [n Hn]]; [apply HG, elem_of_app; right; by left|].
  rewrite (bind_eq _ _ _ _ _ (mk_getN s _ x n Hn)).
  assert (x ∈ (list_to_set (nodes ++ x :: q) : gset N)) as Hxin.
  { apply elem_of_list_to_set, elem_of_app. right. by left. }
  rewrite decide_True by done. rewrite (bind_eq _ _ _ _ _ (assert_eq _ _ (eq_refl : n_mark (with_mark true n) = true))).
  cbn [n_lo n_hi with_mark].
  destruct (node_children _ _ _ _ _ (i_heap _ _ _ HI) Hn Hsx) as (tl&th&Hl&Hh).
  (* move x to nodes after pushing children; do it first logically *)
  assert (HG0 : Good p nodes (x :: q)) by done.
  destruct (bfs_child_eq (n_lo n) tl q (list_to_set (nodes ++ x :: q)) Hl) as (q1&S1&E1&H1).
  rewrite (bind_eq _ _ _ _ _ E1).
  assert (Good p nodes (x :: q1) /\ S1 = list_to_set (nodes ++ x :: q1) /\ (sink (n_lo n) \/ n_lo n ∈ S1)) as (HG1&HS1&Hc1).
  { destruct H1 as [(Hsk&->&->)|((Hs&Hni)&->&->)]; [done|]. split_and!.
    - change (x :: q ++ [n_lo n]) with ((x :: q) ++ [n_lo n]). eapply (good_push p nodes (x :: q) _ x); eauto.
      + apply elem_of_app. right. by left.
      + exists n. auto.
      + apply (repr_in _ _ _ _ _ (i_heap _ _ _ HI)) in Hl as [? ?]. eauto.
      + intros Hin. apply Hni. by apply elem_of_list_to_set.
    - apply set_eq. intros y. rewrite elem_of_union, elem_of_singleton, !elem_of_list_to_set, !elem_of_app, !elem_of_cons, elem_of_app, elem_of_list_singleton. tauto.
    - right. apply elem_of_union. left. by apply elem_of_singleton. }
  destruct (bfs_child_eq (n_hi n) th q1 S1 Hh) as (q2&S2&E2&H2).
  rewrite (bind_eq _ _ _ _ _ E2).
  assert (Good p nodes (x :: q2) /\ S2 = list_to_set (nodes ++ x :: q2) /\ (sink (n_hi n) \/ n_hi n ∈ S2) /\ S1 ⊆ S2) as (HG2&HS2&Hc2&Hsub).
  { destruct H2 as [(Hsk&->&->)|((Hs&Hni)&->&->)]; [done|]. split_and!.
    - change (x :: q1 ++ [n_hi n]) with ((x :: q1) ++ [n_hi n]). eapply (good_push p nodes (x :: q1) _ x); eauto.
      + apply elem_of_app. right. by left.
      + exists n. auto.
      + apply (repr_in _ _ _ _ _ (i_heap _ _ _ HI)) in Hh as [? ?]. eauto.
      + intros Hin. apply Hni. rewrite HS1. by apply elem_of_list_to_set.
    - rewrite HS1. apply set_eq. intros y. rewrite elem_of_union, elem_of_singleton, !elem_of_list_to_set, !elem_of_app, !elem_of_cons, elem_of_app, elem_of_list_singleton. tauto.
    - right. apply elem_of_union. left. by apply elem_of_singleton.
    - apply union_subseteq_r. }
  assert (Hass : nodes ++ x :: q2 = (nodes ++ [x]) ++ q2) by (by rewrite <- app_assoc).
  rewrite HS2, Hass. apply IH; [|rewrite app_length; simpl; lia].
  destruct HG2 as [Hnd Hre Hcl Hhd Hpar]. rewrite Hass in *. split; auto.
  intros y m Hy Hm. rewrite list_to_set_app_L in Hy. apply elem_of_union in Hy as [Hy|Hy].
  - by apply (Hcl y m).
  - simpl in Hy. rewrite elem_of_union, elem_of_singleton in Hy. destruct Hy as [->|Hy]; [|by apply elem_of_empty in Hy].
    assert (m = n) as -> by congruence. rewrite <- HS2. split; [destruct Hc1; auto|done].
Qed.

Lemma nodes_bfs_spec p t : repr h p t -> ~ sink p ->
  exists l, nodes_bfs p s = Ok l s /\ lists_reach s p l /\ head l = Some p /\
    forall a c b, l = a ++ c :: b -> a <> [] -> exists x, x ∈ a /\ parent x c.
Proof.
  intros Hr Hs. destruct (repr_nonsink _ _ _ Hr Hs) as (n&tl&th&Hn&Ht&Hl&Hh).
  assert (HG : Good p [] [p]).
  { split; simpl.
    - apply NoDup_singleton.
    - intros x ->%elem_of_list_singleton. by eapply ri_refl.
    - intros x m Hx. set_solver.
    - done.
    - intros a c b Heq Ha. destruct a as [|? [|]]; done. }
  destruct (bfs_loop_spec p (fuel_of s) [] [p] HG) as (l&Hloop&HG').
  { unfold fuel_of. simpl. lia. }
  destruct HG' as [Hnd Hre Hcl Hhd Hpar]. rewrite app_nil_r in *.
  assert (Hpl : p ∈ l) by (destruct l; [done|]; simpl in Hhd; simplify_eq; by left).
  assert (Hlr : lists_reach s p l).
  { split; [done|]. intros x. split; [auto|]. intros Hx. apply (elem_of_list_to_set (C := gset N)).
    eapply reach_closed; eauto. by apply elem_of_list_to_set. }
  exists l. split_and!; auto.
  unfold nodes_bfs. rewrite (bind_eq _ _ _ _ _ (not_marked _ _ _ HI p t Hr Hs)).
  rewrite (bind_eq _ _ _ _ _ (assert_eq (negb false) _ eq_refl)).
  assert (Hm : modN p (with_mark true) s = Ok tt (mk {[p]} s)).
  { rewrite <- (mk_empty s) at 1. rewrite (mk_mod_mark s ∅ p n Hn). by rewrite union_empty_r_L. }
  rewrite (bind_eq _ _ _ _ _ Hm).
  assert (Hlp : with_fuel (fun f => bfs_loop f [p] []) (mk {[p]} s) = Ok l (mk (list_to_set l) s)).
  { unfold with_fuel. rewrite mk_fuel. rewrite <- Hloop. do 2 f_equal. simpl. set_solver. }
  rewrite (bind_eq _ _ _ _ _ Hlp).
  assert (Hun : unmark p (mk (list_to_set l) s) = Ok tt s).
  { eapply unmark_reach; eauto; [by apply elem_of_list_to_set|]. intros q Hq. apply elem_of_list_to_set in Hq. auto. }
  rewrite (bind_eq _ _ _ _ _ Hun).
  destruct (nr_nodes_spec _ _ _ HI p t Hr Hs) as (l'&Hl'&Hnn). unfold assertM. destruct e_ndebug; [done|].
  assert (Ha : (let* b := (let* n := nr_nodes p in ret (N.of_nat (length l) =? n)) in assert_ b) s = Ok tt s).
  { rewrite (bind_eq _ _ s true s); [done|]. unfold bind. rewrite Hnn. unfold ret.
    rewrite (lists_reach_len s p l' l) by done. by rewrite N.eqb_refl. }
  by rewrite (bind_eq _ _ _ _ _ Ha).
Qed.
End st.
