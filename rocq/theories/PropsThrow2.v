(** * PropsThrow2.v -- reference counts, marks and nodes after a call that throws (C26)

    As in PropsThrow.v the first part is not about well-formed states: it shows that every function of
    the manager leaves each reference count equal to handles plus arcs, also when it throws. *)
From Verif Require Export PropsThrow PropsGc2.
Open Scope N_scope.

Section throw2.
Context {E : Env} (HE : env_ok E).

(** counts are right for the handles [H], and no arc or handle dangles *)
Record rcs (H : ptr -> Z) (s : mstate) : Prop := {
  rc_nc : nc_ok (s_heap s) (s_nc s);
  rc_kids : forall q n, s_heap s !! q = Some n -> ~ sink q -> is_Some (s_heap s !! n_lo n) /\ is_Some (s_heap s !! n_hi n);
  rc_xref : xref_ok H (s_heap s);
  rc_pos : forall p, (0 <= H p)%Z;
  rc_dom : forall p, H p <> 0%Z -> is_Some (s_heap s !! p);
  rc_sinks : is_Some (s_heap s !! botsink) /\ is_Some (s_heap s !! topsink)
}.

Section kx.
Context (H : ptr -> Z).
Definition kx {A} (m : M A) : Prop := forall s, rcs H s ->
  match m s with
  | Ok _ s' => rcs H s'
  | Fail EThrow s' => rcs H s'
  | Fail _ _ => True
  end.
Lemma kx_bind {A B} (m : M A) (k : A -> M B) : kx m -> (forall a, kx (k a)) -> kx (bind m k).
Proof.
  intros Hm Hk s Hs. unfold bind. specialize (Hm s Hs). destruct (m s) as [a s1|e s1]; [|done].
  by apply Hk.
Qed.
Lemma kx_ret {A} (a : A) : kx (ret a).
Proof. by intros s Hs. Qed.
Lemma kx_fail {A} e : kx (fail (A := A) e).
Proof. intros s Hs. by destruct e. Qed.
Lemma kx_get : kx get.
Proof. by intros s Hs. Qed.
Lemma kx_liftR {A} (r : R A) : kx (liftR r).
Proof. intros s Hs. unfold liftR. destruct r as [[]|]; done. Qed.
Lemma kx_assert b : kx (assert_ b).
Proof. apply kx_liftR. Qed.
Lemma kx_assertM m : kx m -> kx (assertM m).
Proof. intros Hm. unfold assertM. destruct e_ndebug; [apply kx_ret|]. apply kx_bind; [done|]. intros. apply kx_assert. Qed.
Lemma kx_args2 {A B} (a : M A) (b : M B) : kx a -> kx b -> kx (args2 a b).
Proof. intros Ha Hb. unfold args2. destruct e_rtl; repeat (apply kx_bind; [done|intros ?]); apply kx_ret. Qed.
Lemma kx_args3 {A B C} (a : M A) (b : M B) (c : M C) : kx a -> kx b -> kx c -> kx (args3 a b c).
Proof. intros Ha Hb Hc. unfold args3. destruct e_rtl; repeat (apply kx_bind; [done|intros ?]); apply kx_ret. Qed.
Lemma kx_with_fuel {A} (m : nat -> M A) : (forall n, kx (m n)) -> kx (with_fuel m).
Proof. intros Hm s. apply Hm. Qed.
Lemma kx_getN p : kx (getN p).
Proof. intros s Hs. unfold getN. by destruct (_ !! _). Qed.
Lemma kx_getV v : kx (getV v).
Proof. intros s Hs. unfold getV. by destruct (_ !! _). Qed.
Lemma kx_set_vars f : kx (set_vars f).
Proof. intros s []. by split. Qed.
Lemma kx_set_pcs f : kx (set_pcs f).
Proof. intros s []. by split. Qed.
Lemma kx_set_memo f : kx (set_memo f).
Proof. intros s []. by split. Qed.
Lemma insert_some (h : heap) p n q : is_Some (h !! q) -> is_Some (<[p := n]> h !! q).
Proof. intros Hq. destruct (decide (q = p)) as [->|]; [rewrite lookup_insert; eauto|by rewrite lookup_insert_ne]. Qed.
Lemma kx_mark p b : kx (modN p (with_mark b)).
Proof.
  intros s Hs. unfold modN, bind, getN, set_heap. destruct (s_heap s !! p) as [n|] eqn:Hp; [|done].
  destruct Hs as [H1 H2 H3 H0 H4 [H5 H6]]. split; cbn [s_heap s_nc].
  - by eapply nc_ok_insert.
  - intros q m Hq Hns. destruct (decide (q = p)) as [->|Hne].
    + rewrite lookup_insert in Hq. injection Hq as <-. destruct (H2 _ _ Hp Hns). split; by apply insert_some.
    + rewrite lookup_insert_ne in Hq by done. destruct (H2 _ _ Hq Hns). split; by apply insert_some.
  - intros q m Hq. erewrite refs_update; [|exact Hp|done|done]. destruct (decide (q = p)) as [->|Hne].
    + rewrite lookup_insert in Hq. injection Hq as <-. cbn. by apply H3.
    + rewrite lookup_insert_ne in Hq by done. by apply H3.
  - exact H0.
  - intros q Hq. by apply insert_some, H4.
  - split; by apply insert_some.
Qed.
Lemma inc_some p q h : is_Some (h !! q) -> is_Some (inc p h !! q).
Proof. rewrite inc_lookup. intros [n ->]. case_decide; eauto. Qed.
Lemma new_heap_some p v l r key h q : is_Some (h !! q) -> is_Some (new_heap p v l r key h !! q).
Proof. intros Hq. unfold new_heap. by apply insert_some, inc_some, inc_some. Qed.
Lemma kx_alloc {A} v l h (k : ptr -> M A) : (forall p, kx (k p)) -> kx (let* p := reserve_node in init_new_node p v l h ;;* k p).
Proof.
  intros Hk s Hs. destruct (reserve_node_spec HE s (rc_nc _ _ Hs)) as (p&nc'&Hr&Hnone&_&Hnc).
  rewrite (bind_eq _ _ _ _ _ Hr). set (s1 := set_s_nc nc' s).
  unfold init_new_node. unfold bind at 1. unfold bind at 1.
  destruct (assert_ (v <? maxvarsize) s1) as [[] s2|e s2] eqn:Ha.
  2:{ unfold assert_, liftR in Ha. destruct (assertR _) as [e'|] eqn:He; [|done]. injection Ha as <- <-. unfold assertR in He. destruct (_ || _); [done|by injection He as <-]. }
  assert (s2 = s1) as ->. { unfold assert_, liftR in Ha. destruct (assertR _); [done|]. by injection Ha as _ <-. }
  destruct (s_heap s !! h) as [nh|] eqn:Hh.
  2:{ unfold bind at 1. unfold xref_inc, modN, bind, getN. cbn [s_heap s1 set_s_nc]. by rewrite Hh. }
  rewrite (bind_eq _ _ _ _ _ (xref_inc_eq h s1 nh Hh)).
  destruct (s_heap s !! l) as [nl|] eqn:Hl.
  2:{ unfold bind at 1. unfold xref_inc, modN, bind, getN. cbn [s_heap s1 set_s_nc set_s_heap].
      rewrite inc_lookup, Hl. by case_decide. }
  destruct (inc_some h l (s_heap s) ltac:(eauto)) as [nl' Hl'].
  rewrite (bind_eq _ _ _ _ _ (xref_inc_eq l (set_s_heap (inc h (s_heap s1)) s1) nl' Hl')).
  unfold bind at 1, get. unfold bind at 1, set_rnd. unfold set_heap, set_s_heap. cbn [s_heap s_nc s_pcs s_memo s_vars s_rnd s1 set_s_nc].
  apply Hk. set (key := e_rand _). set (h' := new_heap p (v mod maxvarsize) l h key (s_heap s)).
  change (<[p := _]> _) with h'.
  destruct Hs as [H1 H2 H3 H0 H4 [[nb H5] [nt H6]]].
  assert (Hps : ~ sink p) by (intros [-> | ->]; congruence).
  split; cbn [s_heap s_nc].
  - destruct (Hnc (Node l h (v mod maxvarsize) key false 0)) as (A1&A2&A3&A4&A5&A6).
    assert (Hd : dom h' = dom (<[p := Node l h (v mod maxvarsize) key false 0]> (s_heap s))).
    { unfold h', new_heap. rewrite !dom_insert_L. f_equal. apply set_eq. intros q. rewrite !elem_of_dom, !inc_lookup.
      destruct (s_heap s !! q); repeat case_decide; cbn; split; intros []; eauto; done. }
    split_and!; auto.
    + by rewrite A5, <- !(size_dom (D := gset N)), Hd.
    + intros q. rewrite Hd. apply A6.
  - intros q n Hq Hns. destruct (decide (q = p)) as [->|Hqp].
    + unfold h' in Hq. rewrite new_heap_same in Hq. injection Hq as <-. cbn [n_lo n_hi]. split; apply new_heap_some; eauto.
    + destruct (new_heap_inv _ _ _ _ _ _ _ _ Hqp Hq) as (n0&Hn0&Hlo&Hhi&_). rewrite <- Hlo, <- Hhi.
      destruct (H2 _ _ Hn0 Hns). split; by apply new_heap_some.
  - intros q n Hq.
    assert (Hpn : inc l (inc h (s_heap s)) !! p = None) by (rewrite !inc_lookup, Hnone; by repeat case_decide).
    assert (Href : refs h' q = (refs (s_heap s) q + arcs (Node l h (v mod maxvarsize) key false 0) q)%Z).
    { unfold h', new_heap. rewrite refs_insert by done. rewrite !refs_inc. rewrite decide_False by done. done. }
    rewrite Href. destruct (decide (q = p)) as [->|Hqp].
    + unfold h' in Hq. rewrite new_heap_same in Hq. injection Hq as <-. cbn [n_xref].
      rewrite (refs_zero (s_heap s) p).
      2:{ intros q n Hqn Hns. destruct (H2 _ _ Hqn Hns) as [[? ?] [? ?]]. split; congruence. }
      assert (H p = 0%Z) as ->. { destruct (decide (H p = 0%Z)); [done|]. destruct (H4 p) as [? ?]; [done|]. congruence. }
      unfold arcs. cbn [n_lo n_hi]. rewrite !decide_False; [lia|done|congruence|congruence].
    + unfold h' in Hq. rewrite new_heap_other in Hq by done. destruct (s_heap s !! q) as [n0|] eqn:Hn0; simpl in Hq; simplify_eq. simpl.
      rewrite (H3 q n0 Hn0). unfold arcs. cbn [n_lo n_hi]. repeat case_decide; subst; try done; lia.
  - exact H0.
  - intros q Hq. by apply new_heap_some, H4.
  - split; apply new_heap_some; eauto.
Qed.

Ltac kx0 := lazymatch goal with
  | |- kx (ret _) => apply kx_ret
  | |- kx (fail _) => apply kx_fail
  | |- kx get => apply kx_get
  | |- kx (assert_ _) => apply kx_assert
  | |- kx (liftR _) => apply kx_liftR
  | |- kx (getN _) => apply kx_getN
  | |- kx (getV _) => apply kx_getV
  | |- kx (set_vars _) => apply kx_set_vars
  | |- kx (set_pcs _) => apply kx_set_pcs
  | |- kx (set_memo _) => apply kx_set_memo
  | |- kx (modN _ (with_mark _)) => apply kx_mark
  end.
Ltac kx1 := lazymatch goal with
  | |- kx (bind reserve_node _) => apply kx_alloc; intros ?
  | |- kx (bind _ _) => apply kx_bind; [|intros ?]
  | |- kx (args2 _ _) => apply kx_args2
  | |- kx (args3 _ _ _) => apply kx_args3
  | |- kx (assertM _) => apply kx_assertM
  | |- kx (with_fuel _) => apply kx_with_fuel; intros ?
  | |- kx (match ?x with _ => _ end) => destruct x
  | |- kx (let _ := _ in _) => cbv zeta
  end.
Ltac kxt := repeat first [kx0 | kx1 | solve [eauto 2 with kx nocore]].
Create HintDb kx discriminated.
#[local] Hint Constants Opaque : kx.
#[local] Hint Variables Opaque : kx.
Lemma kx_is_bot p : kx (is_botsink p). Proof. unfold is_botsink. kxt. Qed.
Lemma kx_is_top p : kx (is_topsink p). Proof. unfold is_topsink. kxt. Qed.
Hint Resolve kx_is_bot kx_is_top : kx.
Lemma kx_is_term p : kx (is_terminal p). Proof. unfold is_terminal. kxt. Qed.
Lemma kx_touch p : kx (touch p). Proof. unfold touch. kxt. Qed.
Hint Resolve kx_is_term kx_touch : kx.
Lemma kx_low p : kx (low p). Proof. unfold low. kxt. Qed.
Lemma kx_high p : kx (high p). Proof. unfold high. kxt. Qed.
Lemma kx_variable p : kx (variable p). Proof. unfold variable. kxt. Qed.
Lemma kx_marked p : kx (marked p). Proof. unfold marked. kxt. Qed.
Hint Resolve kx_low kx_high kx_variable kx_marked : kx.
Lemma kx_evaluate p x : kx (evaluate p x).
Proof. unfold evaluate. apply kx_with_fuel. intros n. revert p. induction n as [|n IH]; intros p; cbn [evaluate_fuel]; kxt. Qed.
Lemma kx_unmark_fuel n : forall p, kx (unmark_fuel n p).
Proof. induction n as [|n IH]; intros p; cbn [unmark_fuel]; kxt. Qed.
Hint Resolve kx_unmark_fuel : kx.
Lemma kx_unmark p : kx (unmark p). Proof. unfold unmark. kxt. Qed.
Hint Resolve kx_unmark : kx.
Lemma kx_nr_impl n : forall p, kx (nr_nodes_impl n p).
Proof. induction n as [|n IH]; intros p; cbn [nr_nodes_impl]; kxt. Qed.
Hint Resolve kx_nr_impl : kx.
Lemma kx_nr_nodes p : kx (nr_nodes p). Proof. unfold nr_nodes. kxt. Qed.
Hint Resolve kx_nr_nodes : kx.
Lemma kx_post_impl n : forall p acc, kx (postorder_impl n p acc).
Proof. induction n as [|n IH]; intros p acc; cbn [postorder_impl]; kxt. Qed.
Hint Resolve kx_post_impl : kx.
Lemma kx_postorder p : kx (nodes_postorder p). Proof. unfold nodes_postorder. kxt. Qed.
Hint Resolve kx_postorder : kx.
Lemma kx_bfs_child c q : kx (bfs_child c q). Proof. unfold bfs_child. kxt. Qed.
Hint Resolve kx_bfs_child : kx.
Lemma kx_bfs_loop n : forall q l, kx (bfs_loop n q l).
Proof. induction n as [|n IH]; intros q l; cbn [bfs_loop]; kxt. Qed.
Hint Resolve kx_bfs_loop : kx.
Lemma kx_bfs p : kx (nodes_bfs p). Proof. unfold nodes_bfs. kxt. Qed.
Hint Resolve kx_bfs : kx.
Lemma kx_vars_impl n : forall p acc, kx (variables_impl n p acc).
Proof. induction n as [|n IH]; intros p acc; cbn [variables_impl]; kxt. Qed.
Hint Resolve kx_vars_impl : kx.
Lemma kx_variables p : kx (variables p). Proof. unfold variables. kxt. Qed.
Lemma kx_one n : forall p, kx (exactly_one_solution_fuel n p).
Proof. induction n as [|n IH]; intros p; cbn [exactly_one_solution_fuel]; kxt. Qed.
Lemma kx_find_fuel n : forall p, kx (find_bdd_mgr_fuel n p).
Proof. induction n as [|n IH]; intros p; cbn [find_bdd_mgr_fuel]; kxt. Qed.
Hint Resolve kx_variables kx_one kx_find_fuel : kx.
Lemma kx_find p : kx (find_bdd_mgr p). Proof. unfold find_bdd_mgr. kxt. Qed.
Lemma kx_print_rec n : forall p l, kx (print_rec n p l).
Proof. induction n as [|n IH]; intros p l; cbn [print_rec]; kxt. Qed.
Hint Resolve kx_find kx_print_rec : kx.
Lemma kx_print p : kx (print p). Proof. unfold print. kxt. Qed.
Hint Resolve kx_print : kx.

Lemma kx_reserve_page cls : kx (reserve_page cls). Proof. unfold reserve_page. kxt. Qed.
Hint Resolve kx_reserve_page : kx.
Lemma kx_new_page m : kx (new_page m). Proof. unfold new_page. kxt. Qed.
Lemma kx_free_page pg m : kx (free_page pg m). Proof. unfold free_page, push_page. kxt. Qed.
Hint Resolve kx_new_page kx_free_page : kx.
Lemma kx_setV v t : kx (setV v t). Proof. unfold setV. kxt. Qed.
Hint Resolve kx_setV : kx.
Lemma kx_double v : kx (double_cache v). Proof. unfold double_cache. kxt. Qed.
Hint Resolve kx_double : kx.
Lemma kx_uf n : forall v l h, kx (unique_find_fuel n v l h).
Proof. induction n as [|n IH]; intros v l h; cbn [unique_find_fuel]; kxt. Qed.
Lemma kx_ufv v l h : kx (unique_find_v v l h). Proof. apply kx_uf. Qed.
Hint Resolve kx_ufv : kx.
(** no count is negative, so nothing is revived *)
Lemma kx_lookup f g h : kx (cache_lookup f g h).
Proof.
  unfold cache_lookup. do 3 (apply kx_bind; [kxt|intros ?]). cbv zeta. destruct (_ =? 0); [kxt|]. destruct (_ && _); [|kxt].
  intros s Hs. unfold bind at 1, getN. destruct (s_heap s !! _) as [n|] eqn:Hn; [|done].
  assert ((n_xref n <? 0)%Z = false) as ->; [|done]. apply Z.ltb_ge. rewrite (rc_xref _ _ Hs _ _ Hn).
  pose proof (rc_pos _ _ Hs (m_r (memo_get (s_memo a) a1))). pose proof (refs_nonneg (s_heap s) (m_r (memo_get (s_memo a) a1))).
  case_decide; lia.
Qed.
Lemma kx_insert f g h r : kx (cache_insert f g h r). Proof. unfold cache_insert. kxt. Qed.
Hint Resolve kx_lookup kx_insert : kx.
Lemma kx_new_var : kx TableModel.new_var. Proof. unfold TableModel.new_var. kxt. Qed.
Hint Resolve kx_new_var : kx.
Lemma kx_add_variable : kx add_variable. Proof. unfold add_variable. kxt. Qed.
Hint Resolve kx_add_variable : kx.
Lemma kx_add_variables n : kx (add_variables n).
Proof. induction n as [|n IH]; cbn [add_variables]; kxt. Qed.
Hint Resolve kx_add_variables : kx.
Lemma kx_ensure v : kx (ensure_var v). Proof. unfold ensure_var. kxt. Qed.
Hint Resolve kx_ensure : kx.
Lemma kx_proj v : kx (projection v). Proof. unfold projection. kxt. Qed.
Lemma kx_nproj v : kx (neg_projection v). Proof. unfold neg_projection. kxt. Qed.
Lemma kx_negate_fuel n : forall p, kx (negate_fuel n p).
Proof. induction n as [|n IH]; intros p; cbn [negate_fuel]; kxt. Qed.
Hint Resolve kx_proj kx_nproj kx_negate_fuel : kx.
Lemma kx_negate p : kx (negate p). Proof. unfold negate. kxt. Qed.
Lemma kx_muf v l h : kx (mgr_unique_find v l h). Proof. unfold mgr_unique_find. kxt. Qed.
Hint Resolve kx_negate kx_muf : kx.
Lemma kx_and_fuel n : forall f g, kx (and_fuel n f g).
Proof. induction n as [|n IH]; intros f g; cbn [and_fuel]; kxt. Qed.
Lemma kx_or_fuel n : forall f g, kx (or_fuel n f g).
Proof. induction n as [|n IH]; intros f g; cbn [or_fuel]; kxt. Qed.
Lemma kx_xor_fuel n : forall f g, kx (xor_fuel n f g).
Proof. induction n as [|n IH]; intros f g; cbn [xor_fuel]; kxt. Qed.
Hint Resolve kx_and_fuel kx_or_fuel kx_xor_fuel : kx.
Lemma kx_and f g : kx (and_rec f g). Proof. unfold and_rec. kxt. Qed.
Lemma kx_or f g : kx (or_rec f g). Proof. unfold or_rec. kxt. Qed.
Lemma kx_xor f g : kx (xor_rec f g). Proof. unfold xor_rec. kxt. Qed.
Hint Resolve kx_and kx_or kx_xor : kx.
Lemma kx_ite_fuel n : forall f g h, kx (ite_fuel n f g h).
Proof. induction n as [|n IH]; intros f g h; cbn [ite_fuel]; kxt. Qed.
Hint Resolve kx_ite_fuel : kx.
Lemma kx_ite f g h : kx (ite_rec f g h). Proof. unfold ite_rec. kxt. Qed.
Lemma kx_lim_fuel n : forall f g L, kx (and_limited_fuel n f g L).
Proof. induction n as [|n IH]; intros f g L; cbn [and_limited_fuel]; kxt. Qed.
Hint Resolve kx_ite kx_lim_fuel : kx.
Lemma kx_lim f g L : kx (and_rec_limited f g L). Proof. unfold and_rec_limited. kxt. Qed.
Hint Resolve kx_lim : kx.
Lemma kx_variadic op : (forall a b, kx (op a b)) -> forall l p, kx (nary_variadic op p l).
Proof. intros Hop l. induction l as [|q l IH]; intros p; cbn [nary_variadic]; [kxt|]. destruct l; [apply Hop|]. kxt. Qed.
Lemma kx_range op : (forall a b, kx (op a b)) -> forall n l, kx (nary_range op n l).
Proof. intros Hop n. induction n as [|n IH]; intros l; cbn [nary_range]; kxt. Qed.
Lemma kx_via {A} a (m : M A) : kx m -> kx (via_mgr a m).
Proof. intros Hm. unfold via_mgr. kxt. Qed.
Lemma kx_andv p l : kx (and_variadic p l). Proof. apply kx_variadic, kx_and. Qed.
Lemma kx_orv p l : kx (or_variadic p l). Proof. apply kx_variadic, kx_or. Qed.
Lemma kx_xorv p l : kx (xor_variadic p l). Proof. apply kx_variadic, kx_xor. Qed.
Lemma kx_andr l : kx (and_range l). Proof. apply kx_range, kx_and. Qed.
Lemma kx_orr l : kx (or_range l). Proof. apply kx_range, kx_or. Qed.
Lemma kx_xorr l : kx (xor_range l). Proof. apply kx_range, kx_xor. Qed.
Hint Resolve kx_andv kx_orv kx_xorv kx_andr kx_orr kx_xorr kx_via : kx.
Lemma kx_af_fuel n : forall l, kx (all_false_fuel n l).
Proof. induction n as [|n IH]; intros l; cbn [all_false_fuel]; kxt. Qed.
Hint Resolve kx_af_fuel : kx.
Lemma kx_all_false l : kx (all_false l). Proof. unfold all_false. kxt. Qed.
Lemma kx_not_both a b : kx (not_both a b). Proof. unfold not_both. kxt. Qed.
Hint Resolve kx_all_false kx_not_both : kx.
Lemma kx_amo_fuel n : forall l, kx (at_most_one_fuel n l).
Proof. induction n as [|n IH]; intros l; cbn [at_most_one_fuel]; kxt. Qed.
Hint Resolve kx_amo_fuel : kx.
Lemma kx_amo l : kx (at_most_one l). Proof. unfold at_most_one. kxt. Qed.
Hint Resolve kx_amo : kx.
Lemma kx_simplex l : kx (simplex l). Proof. unfold simplex. kxt. Qed.
Lemma kx_alo l : kx (at_least_one l). Proof. unfold at_least_one. kxt. Qed.
Lemma kx_tabulate f l : (forall i, kx (f i)) -> kx (tabulateM f l).
Proof. intros Hf. induction l as [|i l IH]; cbn [tabulateM]; kxt. Qed.
Lemma kx_vec l i : kx (vec_at l i). Proof. unfold vec_at. kxt. Qed.
Hint Resolve kx_simplex kx_alo kx_vec : kx.
Lemma kx_halves r l b : (forall l b, kx (r l b)) -> kx (combine_halves r l b).
Proof. intros Hr. unfold combine_halves. kxt; apply kx_tabulate; intros; kxt. Qed.
Lemma kx_al_fuel n : forall l b, kx (at_least_fuel n l b).
Proof. induction n as [|n IH]; intros l b; cbn [at_least_fuel]; kxt; by apply kx_halves. Qed.
Lemma kx_am_fuel n : forall l b, kx (at_most_fuel n l b).
Proof. induction n as [|n IH]; intros l b; cbn [at_most_fuel]; kxt; by apply kx_halves. Qed.
Lemma kx_card_fuel n : forall l b, kx (cardinality_fuel n l b).
Proof. induction n as [|n IH]; intros l b; cbn [cardinality_fuel]; kxt; by apply kx_halves. Qed.
Lemma kx_al l b : kx (at_least l b). Proof. apply kx_al_fuel. Qed.
Lemma kx_am l b : kx (at_most l b). Proof. apply kx_am_fuel. Qed.
Lemma kx_card l b : kx (cardinality l b). Proof. apply kx_card_fuel. Qed.
Lemma kx_rebase_node vm q nm : kx (rebase_node vm q nm). Proof. unfold rebase_node. kxt. Qed.
Hint Resolve kx_al kx_am kx_card kx_rebase_node : kx.
Lemma kx_rebase_loop vm qs : forall nm, kx (rebase_loop vm qs nm).
Proof. induction qs as [|q qs IH]; intros nm; cbn [rebase_loop]; kxt. Qed.
Hint Resolve kx_rebase_loop : kx.
Lemma kx_rebase_copy vm p : kx (rebase_copy vm p). Proof. unfold rebase_copy. kxt. Qed.
Hint Resolve kx_rebase_copy : kx.
Lemma kx_rebase_map p vm : kx (rebase_map p vm). Proof. unfold rebase_map. kxt. Qed.
Lemma kx_rebase_vec p vm : kx (rebase_vec p vm). Proof. unfold rebase_vec. kxt. Qed.
Hint Resolve kx_rebase_map kx_rebase_vec : kx.
Lemma kx_pass1 nodes : forall ins hash, kx (add_pass1 nodes ins hash).
Proof. induction nodes as [|p nodes IH]; intros; cbn [add_pass1]; kxt. Qed.
Lemma kx_pass2 nodes : forall off i ins hash, kx (add_pass2 nodes off i ins hash).
Proof. induction nodes as [|p nodes IH]; intros; cbn [add_pass2]; kxt. Qed.
Hint Resolve kx_pass1 kx_pass2 : kx.
Lemma kx_c_add c p : kx (c_add_bdd c p). Proof. unfold c_add_bdd. kxt; apply kx_via; kxt. Qed.
Lemma kx_export_ref c a b i m : kx (export_ref c a b i m). Proof. unfold export_ref. kxt. Qed.
Hint Resolve kx_export_ref : kx.
Lemma kx_export_loop c a b l : forall m, kx (export_loop c a b l m).
Proof. induction l as [|i l IH]; intros; cbn [export_loop]; kxt. Qed.
Lemma kx_import_loop c l : forall m, kx (import_loop c l m).
Proof. induction l as [|i l IH]; intros; cbn [import_loop]; kxt. Qed.
Hint Resolve kx_export_loop kx_import_loop : kx.
Lemma kx_export c nr : kx (export_bdd c nr). Proof. unfold export_bdd. kxt. Qed.
Lemma kx_import c nr : kx (mgr_add_bdd c nr). Proof. unfold mgr_add_bdd. kxt. Qed.
Hint Resolve kx_c_add kx_export kx_import kx_evaluate : kx.
Lemma kx_exactly p : kx (exactly_one_solution p). Proof. unfold exactly_one_solution. kxt. Qed.
Hint Resolve kx_exactly : kx.


(** only the two calls that drop a reference count are not covered, and these never throw *)
Lemma nothrow_modN p f s s' : modN p f s <> Fail EThrow s'.
Proof. unfold modN, bind, getN, ret, set_heap. by destruct (s_heap s !! p). Qed.
Lemma nothrow_bind {A B} (m : M A) (k : A -> M B) s : (forall s', m s <> Fail EThrow s') -> (forall a s1 s', k a s1 <> Fail EThrow s') ->
  forall s', bind m k s <> Fail EThrow s'.
Proof. intros Hm Hk s'. unfold bind. destruct (m s) as [a s1|e s1] eqn:Hs; [apply Hk|]. intros [= -> ->]. by eapply Hm. Qed.
Lemma nothrow_acquire p s s' : ref_acquire p s <> Fail EThrow s'.
Proof. unfold ref_acquire. destruct (p =? 0); [done|]. apply nothrow_modN. Qed.
Lemma nothrow_release p s s' : ref_release p s <> Fail EThrow s'.
Proof.
  unfold ref_release. destruct (p =? 0); [done|]. apply nothrow_bind.
  - intros s1. unfold getN. by destruct (_ !! _).
  - intros n s1 s2. revert s2. apply nothrow_bind; [|intros; apply nothrow_modN].
    intros s2. unfold assert_, assertR, liftR. by destruct (_ || _).
Qed.
Lemma nothrow_assign p q s s' : ref_assign p q s <> Fail EThrow s'.
Proof.
  unfold ref_assign. revert s'. apply nothrow_bind; [intros s1; destruct (p =? 0); [done|apply nothrow_modN]|].
  intros _ s1. apply nothrow_bind; [intros s2; destruct (q =? 0); [done|apply nothrow_modN]|]. done.
Qed.
Lemma nothrow_acquire_all l s s' : acquire_all l s <> Fail EThrow s'.
Proof.
  revert s s'. induction l as [|p l IH]; intros s; cbn [acquire_all]; [done|]. apply nothrow_bind; [apply nothrow_acquire|]. intros _. apply IH.
Qed.

Definition thr (w : world) (r : wres) : Prop :=
  match r with WFail EThrow w' => rcs H (w_s w') | _ => True end.
Lemma thr_newh w m : rcs H (w_s w) -> kx m -> thr w (newh w m).
Proof.
  intros Hs Hm. unfold newh. specialize (Hm _ Hs). destruct (m (w_s w)) as [p s|[] s]; try done.
  destruct (ref_acquire p s) as [[] s'|[] s'] eqn:Ha; try done. by apply nothrow_acquire in Ha.
Qed.
Lemma thr_query {A} w (f : A -> out) m : rcs H (w_s w) -> kx m -> thr w (query w f m).
Proof. intros Hs Hm. unfold query. specialize (Hm _ Hs). destruct (m (w_s w)) as [p s|[] s]; done. Qed.
Lemma thr_newhs w m : rcs H (w_s w) -> kx m -> thr w (newhs w m).
Proof.
  intros Hs Hm. unfold newhs. unfold bind. specialize (Hm _ Hs). destruct (m (w_s w)) as [l s|[] s]; try done.
  destruct (acquire_all l s) as [[] s'|[] s'] eqn:Ha; try done. by apply nothrow_acquire_all in Ha.
Qed.
Lemma thr_with1 w i k : (forall p, thr w (k p)) -> thr w (with1 w i k).
Proof. intros Hk. unfold with1. destruct (hnd w i); [apply Hk|done]. Qed.
Lemma thr_with2 w i j k : (forall p q, thr w (k p q)) -> thr w (with2 w i j k).
Proof. intros Hk. unfold with2. apply thr_with1. intros p. by apply thr_with1. Qed.
Lemma thr_withl w l k : (forall ps, thr w (k ps)) -> thr w (withl w l k).
Proof. intros Hk. unfold withl. destruct (hnds w l); [apply Hk|done]. Qed.
Lemma step_thr o w : (forall fuel, o <> OGc fuel) -> rcs H (w_s w) -> thr w (step o w).
Proof.
  intros Hgc Hs. destruct o; try (by exfalso; eapply Hgc); cbn [step];
    repeat first [apply thr_with1; intros ? | apply thr_with2; intros ? ? | apply thr_withl; intros ?];
    try (apply thr_newh; [exact Hs|]; unfold op_and, op_or, op_xor, op_not; try apply kx_via; kxt);
    try (apply thr_query; [exact Hs|]; kxt); try (apply thr_newhs; [exact Hs|]; kxt).
  - pose proof (kx_lim p p0 limit _ Hs) as Hl. destruct (and_rec_limited p p0 limit (w_s w)) as [[r n] s|[] s]; try done.
    destruct (ref_acquire r s) as [[] s'|[] s'] eqn:Ha; try done. by apply nothrow_acquire in Ha.
  - destruct (ref_release p (w_s w)) as [[] s|[] s] eqn:Ha; try done. by apply nothrow_release in Ha.
  - destruct (ref_assign p p0 (w_s w)) as [r s|[] s] eqn:Ha; try done. by apply nothrow_assign in Ha.
  - unfold reference_count. kxt.
  - done.
Qed.
End kx.

Lemma winv_rcs md w : WInv md w -> rcs (hcount (w_h w)) (w_s w).
Proof.
  intros HW. split.
  - apply HW.
  - intros q n Hq Hns. destruct (node_children _ _ _ _ _ (i_heap _ _ _ HW) Hq Hns) as (tl&th&Hl&Hr).
    destruct (repr_in _ _ _ _ _ (i_heap _ _ _ HW) Hl) as [a Ha]. destruct (repr_in _ _ _ _ _ (i_heap _ _ _ HW) Hr) as [b Hb]. eauto.
  - apply HW.
  - apply HW.
  - intros p Hp. apply elem_of_dom. by apply (i_Hdom _ _ _ HW).
  - destruct (ho_sink _ _ _ (i_heap _ _ _ HW)) as [[x Hb] [y Ht]]. eauto.
Qed.

(** ** C26: after a call that throws ... *)
(** ... every reference count is still handles plus arcs, and no arc or handle dangles *)
Theorem C26_references md w o w' : reach md w -> allowed md w o -> step o w = WFail EThrow w' ->
  (forall p n, s_heap (w_s w') !! p = Some n ->
    n_xref n = (hcount (w_h w') p + Z.of_nat (arcs_into (s_heap (w_s w')) p) + if decide (inner p) then 0 else 1)%Z /\
    (inner p -> is_Some (s_heap (w_s w') !! n_lo n) /\ is_Some (s_heap (w_s w') !! n_hi n))) /\
  (forall i p, hnd w' i = Some p -> p <> 0 -> is_Some (s_heap (w_s w') !! p)).
Proof.
  intros HR Ha Hs. pose proof (reach_inv HE _ _ HR) as HW.
  pose proof (step_thr (hcount (w_h w)) o w) as Hk. pose proof (C26_handles_survive HE md w o EThrow w' HR Ha Hs) as [Hh _].
  rewrite Hs in Hk. assert (HS : rcs (hcount (w_h w)) (w_s w')). { apply Hk; [by intros fuel ->|by eapply winv_rcs]. }
  split.
  - intros p n Hp. rewrite Hh, <- refs_arcs. split.
    + rewrite (rc_xref _ _ HS p n Hp). unfold inner, sink. repeat case_decide; try lia; naive_solver.
    + intros Hin. apply (rc_kids _ _ HS p n Hp). intros [-> | ->]; by destruct Hin.
  - intros i p Hp H0. apply (rc_dom _ _ HS). unfold hnd in Hp. rewrite Hh in Hp.
    pose proof (hcount_pos _ _ _ (proj1 (hnd_lookup w i p) Hp) H0). lia.
Qed.

(** ... every program that creates no nodes gives, call by call, the same results and the same handles
    as if the call had not been made, and never fails (the number of variables aside, which the call
    may have increased) *)
Theorem C26_transparent md w o w' os : reach md w -> allowed md w o -> step o w = WFail EThrow w' -> reads md os w ->
  (QNrVars ∈ os -> nr_variables (w_s w') = nr_variables (w_s w)) ->
  exists rs w2 w2', outs os w = Some (rs, w2) /\ outs os w' = Some (rs, w2') /\ w_h w2' = w_h w2.
Proof.
  intros HR Ha Hs Hos Hnv. pose proof (reach_inv HE _ _ HR) as HW.
  pose proof (C22_total HE md w o HR Ha) as Hg. rewrite Hs in Hg. destruct Hg as (_&_&Hum).
  pose proof (step_kept HE o w) as Hk. rewrite Hs in Hk. destruct Hk as [Hh Hk]. { by intros fuel ->. } { apply HW. }
  pose proof (step_thr (hcount (w_h w)) o w) as Hx. rewrite Hs in Hx.
  assert (HS : rcs (hcount (w_h w)) (w_s w')). { apply Hx; [by intros fuel ->|by eapply winv_rcs]. } clear Hx.
  set (h := s_heap (w_s w)) in *. set (h' := s_heap (w_s w')) in *.
  set (d := fun q => (refs h q - refs h' q)%Z).
  assert (Hd : forall q, (d q <= refs h q)%Z). { intros q. unfold d. pose proof (refs_nonneg h' q). lia. }
  destruct (outs_rel HE ∅ d h (length (s_vars (w_s w')) = length (s_vars (w_s w))) ltac:(set_solver) ltac:(set_solver) ltac:(set_solver) md Hd os w w' HW Hos)
    as (rs&w2&w2'&?&?&?&_).
  - intros Hq. specialize (Hnv Hq). unfold nr_variables in Hnv. lia.
  - split_and!; [|done|set_solver]. split.
    + intros p [n Hp]%elem_of_dom. destruct (Hk _ _ Hp) as (n'&Hp'&_). by eapply elem_of_dom_2.
    + intros q n Hq _. change (h !! q = Some n) in Hq. split_and!; [|set_solver..]. destruct (Hk _ _ Hq) as (n'&Hp'&Hl&Hhi&Hi&Hky).
      fold h'. rewrite Hp'. f_equal.
      assert (Hm : n_mark n' = n_mark n).
      { rewrite (Hum q n' Hp'). destruct (ho_sink _ _ _ (i_heap _ _ _ HW)) as [[x Hb] [y Ht]]. fold h in Hb, Ht.
        destruct (decide (q = botsink)) as [->|Hqb]; [rewrite Hb in Hq; by injection Hq as <-|].
        destruct (decide (q = topsink)) as [->|Hqt]; [rewrite Ht in Hq; by injection Hq as <-|].
        symmetry. apply (ho_node _ _ _ (i_heap _ _ _ HW) q n Hq). by intros [?|?]. }
      pose proof (rc_xref _ _ HS q n' Hp') as Hx'. pose proof (i_xref _ _ _ HW q n Hq) as Hx. fold h in Hx. fold h' in Hx'.
      destruct n as [l1 h1 i1 k1 m1 x1], n' as [l2 h2 i2 k2 m2 x2]. unfold with_xref. cbn [n_lo n_hi n_idx n_key n_mark n_xref] in *. subst.
      f_equal. unfold d. lia.
    + done.
    + done.
  - by exists rs, w2, w2'.
Qed.
End throw2.
