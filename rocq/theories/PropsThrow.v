(** * PropsThrow.v -- what a call leaves untouched even when it fails (C26)

    Unlike the other files this argument is not about well-formed states: every function of the
    manager (garbage collection and destruction aside), whatever its arguments and however it
    ends, keeps the children and the variable of every stored node. *)
From Verif Require Export PropsCap.
Open Scope N_scope.

Section throw.
Context {E : Env} (HE : env_ok E).

Definition skel (h h' : heap) : Prop := forall p n, h !! p = Some n ->
  exists n', h' !! p = Some n' /\ n_lo n' = n_lo n /\ n_hi n' = n_hi n /\ n_idx n' = n_idx n /\ n_key n' = n_key n.
Lemma skel_refl h : skel h h.
Proof. intros p n Hp. eauto 10. Qed.
Lemma skel_trans a b c : skel a b -> skel b c -> skel a c.
Proof.
  intros H1 H2 p n Hp. destruct (H1 _ _ Hp) as (n1&Hp1&?&?&?&?). destruct (H2 _ _ Hp1) as (n2&Hp2&?&?&?&?).
  exists n2. split_and!; congruence.
Qed.
Lemma skel_size h h' : skel h h' -> (size h <= size h')%nat.
Proof.
  intros Hs. rewrite <- !(size_dom (D := gset N)). apply subseteq_size. intros p [n Hp]%elem_of_dom.
  destruct (Hs _ _ Hp) as (n'&Hp'&_). by eapply elem_of_dom_2.
Qed.

(** [kp m]: from a state with a consistent node cache [m] keeps the stored nodes *)
Definition kp {A} (m : M A) : Prop := forall s, nc_ok (s_heap s) (s_nc s) ->
  match m s with
  | Ok _ s' => nc_ok (s_heap s') (s_nc s') /\ skel (s_heap s) (s_heap s')
  | Fail _ s' => skel (s_heap s) (s_heap s')
  end.
Lemma kp_bind {A B} (m : M A) (k : A -> M B) : kp m -> (forall a, kp (k a)) -> kp (bind m k).
Proof.
  intros Hm Hk s Hs. unfold bind. specialize (Hm s Hs). destruct (m s) as [a s1|e s1]; [|done].
  destruct Hm as [Hs1 H1]. specialize (Hk a s1 Hs1). destruct (k a s1) as [b s2|e s2].
  - destruct Hk. split; [done|]. by eapply skel_trans.
  - by eapply skel_trans.
Qed.
Lemma kp_ret {A} (a : A) : kp (ret a).
Proof. intros s Hs. split; [done|apply skel_refl]. Qed.
Lemma kp_fail {A} e : kp (fail (A := A) e).
Proof. intros s Hs. apply skel_refl. Qed.
Lemma kp_get : kp get.
Proof. intros s Hs. split; [done|apply skel_refl]. Qed.
Lemma kp_liftR {A} (r : R A) : kp (liftR r).
Proof. intros s Hs. unfold liftR. destruct r; [apply skel_refl|split; [done|apply skel_refl]]. Qed.
Lemma kp_assert b : kp (assert_ b).
Proof. apply kp_liftR. Qed.
Lemma kp_assertM m : kp m -> kp (assertM m).
Proof. intros Hm. unfold assertM. destruct e_ndebug; [apply kp_ret|]. apply kp_bind; [done|]. intros. apply kp_assert. Qed.
Lemma kp_args2 {A B} (a : M A) (b : M B) : kp a -> kp b -> kp (args2 a b).
Proof. intros Ha Hb. unfold args2. destruct e_rtl; repeat (apply kp_bind; [done|intros ?]); apply kp_ret. Qed.
Lemma kp_args3 {A B C} (a : M A) (b : M B) (c : M C) : kp a -> kp b -> kp c -> kp (args3 a b c).
Proof. intros Ha Hb Hc. unfold args3. destruct e_rtl; repeat (apply kp_bind; [done|intros ?]); apply kp_ret. Qed.
Lemma kp_with_fuel {A} (m : nat -> M A) : (forall n, kp (m n)) -> kp (with_fuel m).
Proof. intros Hm s. apply Hm. Qed.
Lemma kp_getN p : kp (getN p).
Proof. intros s Hs. unfold getN. destruct (_ !! _); [split; [done|]|]; apply skel_refl. Qed.
Lemma kp_getV v : kp (getV v).
Proof. intros s Hs. unfold getV. destruct (_ !! _); [split; [done|]|]; apply skel_refl. Qed.
Lemma kp_set_vars f : kp (set_vars f).
Proof. intros s Hs. split; [done|apply skel_refl]. Qed.
Lemma kp_set_pcs f : kp (set_pcs f).
Proof. intros s Hs. split; [done|apply skel_refl]. Qed.
Lemma kp_set_memo f : kp (set_memo f).
Proof. intros s Hs. split; [done|apply skel_refl]. Qed.
Lemma nc_ok_insert h nc p n n' : h !! p = Some n -> nc_ok h nc -> nc_ok (<[p := n']> h) nc.
Proof.
  intros Hp (H1&H2&H3&H4&H5&H6). split_and!; auto.
  - rewrite map_size_insert_Some by eauto. done.
  - intros q. rewrite dom_insert_lookup_L by eauto. apply H6.
Qed.
Lemma kp_modN p f : (forall n, n_lo (f n) = n_lo n /\ n_hi (f n) = n_hi n /\ n_idx (f n) = n_idx n /\ n_key (f n) = n_key n) -> kp (modN p f).
Proof.
  intros Hf s Hs. unfold modN, bind, getN, set_heap. destruct (s_heap s !! p) as [n|] eqn:Hp; [|apply skel_refl].
  cbn [s_heap s_nc]. split; [by eapply nc_ok_insert|]. intros q m Hq. destruct (decide (q = p)) as [->|Hne].
  - exists (f n). rewrite lookup_insert. assert (m = n) as -> by congruence. split; [done|apply Hf].
  - exists m. by rewrite lookup_insert_ne.
Qed.
Lemma kp_mark p b : kp (modN p (with_mark b)).
Proof. by apply kp_modN. Qed.
Lemma kp_inc p : kp (xref_inc p).
Proof. by apply kp_modN. Qed.
Lemma kp_dec p : kp (xref_dec p).
Proof. by apply kp_modN. Qed.
(** a new node goes to a fresh address *)
Lemma skel_modN p f s a s' : (forall n, n_lo (f n) = n_lo n /\ n_hi (f n) = n_hi n /\ n_idx (f n) = n_idx n /\ n_key (f n) = n_key n) ->
  modN p f s = Ok a s' -> skel (s_heap s) (s_heap s') /\ s_nc s' = s_nc s /\ dom (s_heap s') = dom (s_heap s).
Proof.
  intros Hf. unfold modN, bind, getN, set_heap. destruct (s_heap s !! p) as [n|] eqn:Hp; [|done]. intros [= _ <-].
  cbn [s_heap s_nc]. split_and!; [|done|apply dom_insert_lookup_L; eauto].
  intros q m Hq. destruct (decide (q = p)) as [->|Hne].
  - exists (f n). rewrite lookup_insert. assert (m = n) as -> by congruence. split; [done|apply Hf].
  - exists m. by rewrite lookup_insert_ne.
Qed.
Lemma modN_fail p f s e s' : modN p f s = Fail e s' -> s' = s.
Proof. unfold modN, bind, getN, set_heap. destruct (_ !! _); [done|]. by intros [= _ <-]. Qed.
Lemma kp_alloc {A} v l h (k : ptr -> M A) : (forall p, kp (k p)) -> kp (let* p := reserve_node in init_new_node p v l h ;;* k p).
Proof.
  intros Hk s Hs. destruct (reserve_node_spec HE s Hs) as (p&nc'&Hr&Hnone&_&Hnc).
  rewrite (bind_eq _ _ _ _ _ Hr). set (s1 := set_s_nc nc' s).
  assert (H1 : skel (s_heap s) (s_heap s1)) by apply skel_refl.
  unfold init_new_node. unfold bind at 1. unfold bind at 1.
  destruct (assert_ (v <? maxvarsize) s1) as [[] s2|e s2] eqn:Ha.
  2:{ unfold assert_, liftR in Ha. destruct (assertR _); [|done]. by injection Ha as <- <-. }
  assert (s2 = s1) as ->. { unfold assert_, liftR in Ha. destruct (assertR _); [done|]. by injection Ha as _ <-. }
  unfold bind at 1. destruct (xref_inc h s1) as [[] s2|e s2] eqn:Hh; [|apply modN_fail in Hh as ->; done].
  apply skel_modN in Hh as (H2&Hn2&Hd2); [|done].
  unfold bind at 1. destruct (xref_inc l s2) as [[] s3|e s3] eqn:Hl; [|apply modN_fail in Hl as ->; done].
  apply skel_modN in Hl as (H3&Hn3&Hd3); [|done].
  unfold bind at 1, get. unfold bind at 1, set_rnd. unfold set_heap. cbn [s_heap s_nc s_pcs s_memo s_vars s_rnd].
  match goal with |- context [k p ?st] => set (s4 := st) end.
  assert (Hp3 : s_heap s3 !! p = None).
  { apply not_elem_of_dom. rewrite Hd3, Hd2. by apply not_elem_of_dom. }
  assert (H4 : skel (s_heap s) (s_heap s4)).
  { eapply skel_trans; [exact H1|]. eapply skel_trans; [exact H2|]. eapply skel_trans; [exact H3|].
    intros q m Hq. exists m. unfold s4. cbn [s_heap]. rewrite lookup_insert_ne; [done|]. congruence. }
  assert (Hs4 : nc_ok (s_heap s4) (s_nc s4)).
  { unfold s4. cbn [s_heap s_nc]. rewrite Hn3, Hn2. unfold s1. cbn [s_nc set_s_nc].
    destruct (Hnc (Node l h (v mod maxvarsize) (e_rand (s_rnd s3)) false 0)) as (A1&A2&A3&A4&A5&A6). split_and!; auto.
    - rewrite A5, <- !(size_dom (D := gset N)), !dom_insert_L, Hd3, Hd2. done.
    - intros q Hq. apply A6. rewrite dom_insert_L in Hq |- *. by rewrite Hd3, Hd2 in Hq. }
  specialize (Hk p s4 Hs4). destruct (k p s4) as [b s5|e s5].
  - destruct Hk. split; [done|]. by eapply skel_trans.
  - by eapply skel_trans.
Qed.

Ltac kp0 := lazymatch goal with
  | |- kp (ret _) => apply kp_ret
  | |- kp (fail _) => apply kp_fail
  | |- kp get => apply kp_get
  | |- kp (assert_ _) => apply kp_assert
  | |- kp (liftR _) => apply kp_liftR
  | |- kp (getN _) => apply kp_getN
  | |- kp (getV _) => apply kp_getV
  | |- kp (set_vars _) => apply kp_set_vars
  | |- kp (set_pcs _) => apply kp_set_pcs
  | |- kp (set_memo _) => apply kp_set_memo
  | |- kp (modN _ (with_mark _)) => apply kp_mark
  | |- kp (xref_inc _) => apply kp_inc
  | |- kp (xref_dec _) => apply kp_dec
  end.
Ltac kp1 := lazymatch goal with
  | |- kp (bind reserve_node _) => apply kp_alloc; intros ?
  | |- kp (bind _ _) => apply kp_bind; [|intros ?]
  | |- kp (args2 _ _) => apply kp_args2
  | |- kp (args3 _ _ _) => apply kp_args3
  | |- kp (assertM _) => apply kp_assertM
  | |- kp (with_fuel _) => apply kp_with_fuel; intros ?
  | |- kp (match ?x with _ => _ end) => destruct x
  | |- kp (let _ := _ in _) => cbv zeta
  end.
Ltac kpt := repeat first [kp0 | kp1 | solve [eauto 2 with kp nocore]].
Create HintDb kp discriminated.
#[local] Hint Constants Opaque : kp.
#[local] Hint Variables Opaque : kp.
Lemma kp_is_bot p : kp (is_botsink p). Proof. unfold is_botsink. kpt. Qed.
Lemma kp_is_top p : kp (is_topsink p). Proof. unfold is_topsink. kpt. Qed.
Hint Resolve kp_is_bot kp_is_top : kp.
Lemma kp_is_term p : kp (is_terminal p). Proof. unfold is_terminal. kpt. Qed.
Lemma kp_touch p : kp (touch p). Proof. unfold touch. kpt. Qed.
Hint Resolve kp_is_term kp_touch : kp.
Lemma kp_low p : kp (low p). Proof. unfold low. kpt. Qed.
Lemma kp_high p : kp (high p). Proof. unfold high. kpt. Qed.
Lemma kp_variable p : kp (variable p). Proof. unfold variable. kpt. Qed.
Lemma kp_marked p : kp (marked p). Proof. unfold marked. kpt. Qed.
Hint Resolve kp_low kp_high kp_variable kp_marked : kp.
Lemma kp_evaluate p x : kp (evaluate p x).
Proof. unfold evaluate. apply kp_with_fuel. intros n. revert p. induction n as [|n IH]; intros p; cbn [evaluate_fuel]; kpt. Qed.
Lemma kp_unmark_fuel n : forall p, kp (unmark_fuel n p).
Proof. induction n as [|n IH]; intros p; cbn [unmark_fuel]; kpt. Qed.
Hint Resolve kp_unmark_fuel : kp.
Lemma kp_unmark p : kp (unmark p). Proof. unfold unmark. kpt. Qed.
Hint Resolve kp_unmark : kp.
Lemma kp_nr_impl n : forall p, kp (nr_nodes_impl n p).
Proof. induction n as [|n IH]; intros p; cbn [nr_nodes_impl]; kpt. Qed.
Hint Resolve kp_nr_impl : kp.
Lemma kp_nr_nodes p : kp (nr_nodes p). Proof. unfold nr_nodes. kpt. Qed.
Hint Resolve kp_nr_nodes : kp.
Lemma kp_post_impl n : forall p acc, kp (postorder_impl n p acc).
Proof. induction n as [|n IH]; intros p acc; cbn [postorder_impl]; kpt. Qed.
Hint Resolve kp_post_impl : kp.
Lemma kp_postorder p : kp (nodes_postorder p). Proof. unfold nodes_postorder. kpt. Qed.
Hint Resolve kp_postorder : kp.
Lemma kp_bfs_child c q : kp (bfs_child c q). Proof. unfold bfs_child. kpt. Qed.
Hint Resolve kp_bfs_child : kp.
Lemma kp_bfs_loop n : forall q l, kp (bfs_loop n q l).
Proof. induction n as [|n IH]; intros q l; cbn [bfs_loop]; kpt. Qed.
Hint Resolve kp_bfs_loop : kp.
Lemma kp_bfs p : kp (nodes_bfs p). Proof. unfold nodes_bfs. kpt. Qed.
Hint Resolve kp_bfs : kp.
Lemma kp_vars_impl n : forall p acc, kp (variables_impl n p acc).
Proof. induction n as [|n IH]; intros p acc; cbn [variables_impl]; kpt. Qed.
Hint Resolve kp_vars_impl : kp.
Lemma kp_variables p : kp (variables p). Proof. unfold variables. kpt. Qed.
Lemma kp_one n : forall p, kp (exactly_one_solution_fuel n p).
Proof. induction n as [|n IH]; intros p; cbn [exactly_one_solution_fuel]; kpt. Qed.
Lemma kp_find_fuel n : forall p, kp (find_bdd_mgr_fuel n p).
Proof. induction n as [|n IH]; intros p; cbn [find_bdd_mgr_fuel]; kpt. Qed.
Hint Resolve kp_variables kp_one kp_find_fuel : kp.
Lemma kp_find p : kp (find_bdd_mgr p). Proof. unfold find_bdd_mgr. kpt. Qed.
Lemma kp_print_rec n : forall p l, kp (print_rec n p l).
Proof. induction n as [|n IH]; intros p l; cbn [print_rec]; kpt. Qed.
Hint Resolve kp_find kp_print_rec : kp.
Lemma kp_print p : kp (print p). Proof. unfold print. kpt. Qed.
Lemma kp_acquire p : kp (ref_acquire p). Proof. unfold ref_acquire. kpt. Qed.
Lemma kp_release p : kp (ref_release p). Proof. unfold ref_release. kpt. Qed.
Lemma kp_assign p q : kp (ref_assign p q). Proof. unfold ref_assign. kpt. Qed.
Hint Resolve kp_print kp_acquire kp_release kp_assign : kp.

Lemma kp_reserve_page cls : kp (reserve_page cls). Proof. unfold reserve_page. kpt. Qed.
Hint Resolve kp_reserve_page : kp.
Lemma kp_new_page m : kp (new_page m). Proof. unfold new_page. kpt. Qed.
Lemma kp_free_page pg m : kp (free_page pg m). Proof. unfold free_page, push_page. kpt. Qed.
Hint Resolve kp_new_page kp_free_page : kp.
Lemma kp_setV v t : kp (setV v t). Proof. unfold setV. kpt. Qed.
Hint Resolve kp_setV : kp.
Lemma kp_double v : kp (double_cache v). Proof. unfold double_cache. kpt. Qed.
Hint Resolve kp_double : kp.
Lemma kp_uf n : forall v l h, kp (unique_find_fuel n v l h).
Proof. induction n as [|n IH]; intros v l h; cbn [unique_find_fuel]; kpt. Qed.
Lemma kp_ufv v l h : kp (unique_find_v v l h). Proof. apply kp_uf. Qed.
Hint Resolve kp_ufv : kp.
Lemma kp_zero p : kp (modN p (with_xref (fun _ => 0%Z))).
Proof. by apply kp_modN. Qed.
Hint Resolve kp_zero kp_inc : kp.
Lemma kp_revive_fuel n : forall p, kp (recursively_revive_fuel n p).
Proof. induction n as [|n IH]; intros p; cbn [recursively_revive_fuel]; kpt. Qed.
Hint Resolve kp_revive_fuel : kp.
Lemma kp_revive p : kp (recursively_revive p). Proof. unfold recursively_revive. kpt. Qed.
Hint Resolve kp_revive : kp.
Lemma kp_lookup f g h : kp (cache_lookup f g h). Proof. unfold cache_lookup. kpt. Qed.
Lemma kp_insert f g h r : kp (cache_insert f g h r). Proof. unfold cache_insert. kpt. Qed.
Hint Resolve kp_lookup kp_insert : kp.
Lemma kp_new_var : kp TableModel.new_var. Proof. unfold TableModel.new_var. kpt. Qed.
Hint Resolve kp_new_var : kp.
Lemma kp_add_variable : kp add_variable. Proof. unfold add_variable. kpt. Qed.
Hint Resolve kp_add_variable : kp.
Lemma kp_add_variables n : kp (add_variables n).
Proof. induction n as [|n IH]; cbn [add_variables]; kpt. Qed.
Hint Resolve kp_add_variables : kp.
Lemma kp_ensure v : kp (ensure_var v). Proof. unfold ensure_var. kpt. Qed.
Hint Resolve kp_ensure : kp.
Lemma kp_proj v : kp (projection v). Proof. unfold projection. kpt. Qed.
Lemma kp_nproj v : kp (neg_projection v). Proof. unfold neg_projection. kpt. Qed.
Lemma kp_negate_fuel n : forall p, kp (negate_fuel n p).
Proof. induction n as [|n IH]; intros p; cbn [negate_fuel]; kpt. Qed.
Hint Resolve kp_proj kp_nproj kp_negate_fuel : kp.
Lemma kp_negate p : kp (negate p). Proof. unfold negate. kpt. Qed.
Lemma kp_muf v l h : kp (mgr_unique_find v l h). Proof. unfold mgr_unique_find. kpt. Qed.
Hint Resolve kp_negate kp_muf : kp.
Lemma kp_and_fuel n : forall f g, kp (and_fuel n f g).
Proof. induction n as [|n IH]; intros f g; cbn [and_fuel]; kpt. Qed.
Lemma kp_or_fuel n : forall f g, kp (or_fuel n f g).
Proof. induction n as [|n IH]; intros f g; cbn [or_fuel]; kpt. Qed.
Lemma kp_xor_fuel n : forall f g, kp (xor_fuel n f g).
Proof. induction n as [|n IH]; intros f g; cbn [xor_fuel]; kpt. Qed.
Hint Resolve kp_and_fuel kp_or_fuel kp_xor_fuel : kp.
Lemma kp_and f g : kp (and_rec f g). Proof. unfold and_rec. kpt. Qed.
Lemma kp_or f g : kp (or_rec f g). Proof. unfold or_rec. kpt. Qed.
Lemma kp_xor f g : kp (xor_rec f g). Proof. unfold xor_rec. kpt. Qed.
Hint Resolve kp_and kp_or kp_xor : kp.
Lemma kp_ite_fuel n : forall f g h, kp (ite_fuel n f g h).
Proof. induction n as [|n IH]; intros f g h; cbn [ite_fuel]; kpt. Qed.
Hint Resolve kp_ite_fuel : kp.
Lemma kp_ite f g h : kp (ite_rec f g h). Proof. unfold ite_rec. kpt. Qed.
Lemma kp_lim_fuel n : forall f g L, kp (and_limited_fuel n f g L).
Proof. induction n as [|n IH]; intros f g L; cbn [and_limited_fuel]; kpt. Qed.
Hint Resolve kp_ite kp_lim_fuel : kp.
Lemma kp_lim f g L : kp (and_rec_limited f g L). Proof. unfold and_rec_limited. kpt. Qed.
Hint Resolve kp_lim : kp.
Lemma kp_variadic op : (forall a b, kp (op a b)) -> forall l p, kp (nary_variadic op p l).
Proof. intros Hop l. induction l as [|q l IH]; intros p; cbn [nary_variadic]; [kpt|]. destruct l; [apply Hop|]. kpt. Qed.
Lemma kp_range op : (forall a b, kp (op a b)) -> forall n l, kp (nary_range op n l).
Proof. intros Hop n. induction n as [|n IH]; intros l; cbn [nary_range]; kpt. Qed.
Lemma kp_via {A} a (m : M A) : kp m -> kp (via_mgr a m).
Proof. intros Hm. unfold via_mgr. kpt. Qed.
Lemma kp_andv p l : kp (and_variadic p l). Proof. apply kp_variadic, kp_and. Qed.
Lemma kp_orv p l : kp (or_variadic p l). Proof. apply kp_variadic, kp_or. Qed.
Lemma kp_xorv p l : kp (xor_variadic p l). Proof. apply kp_variadic, kp_xor. Qed.
Lemma kp_andr l : kp (and_range l). Proof. apply kp_range, kp_and. Qed.
Lemma kp_orr l : kp (or_range l). Proof. apply kp_range, kp_or. Qed.
Lemma kp_xorr l : kp (xor_range l). Proof. apply kp_range, kp_xor. Qed.
Hint Resolve kp_andv kp_orv kp_xorv kp_andr kp_orr kp_xorr kp_via : kp.
Lemma kp_af_fuel n : forall l, kp (all_false_fuel n l).
Proof. induction n as [|n IH]; intros l; cbn [all_false_fuel]; kpt. Qed.
Hint Resolve kp_af_fuel : kp.
Lemma kp_all_false l : kp (all_false l). Proof. unfold all_false. kpt. Qed.
Lemma kp_not_both a b : kp (not_both a b). Proof. unfold not_both. kpt. Qed.
Hint Resolve kp_all_false kp_not_both : kp.
Lemma kp_amo_fuel n : forall l, kp (at_most_one_fuel n l).
Proof. induction n as [|n IH]; intros l; cbn [at_most_one_fuel]; kpt. Qed.
Hint Resolve kp_amo_fuel : kp.
Lemma kp_amo l : kp (at_most_one l). Proof. unfold at_most_one. kpt. Qed.
Hint Resolve kp_amo : kp.
Lemma kp_simplex l : kp (simplex l). Proof. unfold simplex. kpt. Qed.
Lemma kp_alo l : kp (at_least_one l). Proof. unfold at_least_one. kpt. Qed.
Lemma kp_tabulate f l : (forall i, kp (f i)) -> kp (tabulateM f l).
Proof. intros Hf. induction l as [|i l IH]; cbn [tabulateM]; kpt. Qed.
Lemma kp_vec l i : kp (vec_at l i). Proof. unfold vec_at. kpt. Qed.
Hint Resolve kp_simplex kp_alo kp_vec : kp.
Lemma kp_halves r l b : (forall l b, kp (r l b)) -> kp (combine_halves r l b).
Proof. intros Hr. unfold combine_halves. kpt; apply kp_tabulate; intros; kpt. Qed.
Lemma kp_al_fuel n : forall l b, kp (at_least_fuel n l b).
Proof. induction n as [|n IH]; intros l b; cbn [at_least_fuel]; kpt; by apply kp_halves. Qed.
Lemma kp_am_fuel n : forall l b, kp (at_most_fuel n l b).
Proof. induction n as [|n IH]; intros l b; cbn [at_most_fuel]; kpt; by apply kp_halves. Qed.
Lemma kp_card_fuel n : forall l b, kp (cardinality_fuel n l b).
Proof. induction n as [|n IH]; intros l b; cbn [cardinality_fuel]; kpt; by apply kp_halves. Qed.
Lemma kp_al l b : kp (at_least l b). Proof. apply kp_al_fuel. Qed.
Lemma kp_am l b : kp (at_most l b). Proof. apply kp_am_fuel. Qed.
Lemma kp_card l b : kp (cardinality l b). Proof. apply kp_card_fuel. Qed.
Lemma kp_rebase_node vm q nm : kp (rebase_node vm q nm). Proof. unfold rebase_node. kpt. Qed.
Hint Resolve kp_al kp_am kp_card kp_rebase_node : kp.
Lemma kp_rebase_loop vm qs : forall nm, kp (rebase_loop vm qs nm).
Proof. induction qs as [|q qs IH]; intros nm; cbn [rebase_loop]; kpt. Qed.
Hint Resolve kp_rebase_loop : kp.
Lemma kp_rebase_copy vm p : kp (rebase_copy vm p). Proof. unfold rebase_copy. kpt. Qed.
Hint Resolve kp_rebase_copy : kp.
Lemma kp_rebase_map p vm : kp (rebase_map p vm). Proof. unfold rebase_map. kpt. Qed.
Lemma kp_rebase_vec p vm : kp (rebase_vec p vm). Proof. unfold rebase_vec. kpt. Qed.
Hint Resolve kp_rebase_map kp_rebase_vec : kp.
Lemma kp_pass1 nodes : forall ins hash, kp (add_pass1 nodes ins hash).
Proof. induction nodes as [|p nodes IH]; intros; cbn [add_pass1]; kpt. Qed.
Lemma kp_pass2 nodes : forall off i ins hash, kp (add_pass2 nodes off i ins hash).
Proof. induction nodes as [|p nodes IH]; intros; cbn [add_pass2]; kpt. Qed.
Hint Resolve kp_pass1 kp_pass2 : kp.
Lemma kp_c_add c p : kp (c_add_bdd c p). Proof. unfold c_add_bdd. kpt; apply kp_via; kpt. Qed.
Lemma kp_export_ref c a b i m : kp (export_ref c a b i m). Proof. unfold export_ref. kpt. Qed.
Hint Resolve kp_export_ref : kp.
Lemma kp_export_loop c a b l : forall m, kp (export_loop c a b l m).
Proof. induction l as [|i l IH]; intros; cbn [export_loop]; kpt. Qed.
Lemma kp_import_loop c l : forall m, kp (import_loop c l m).
Proof. induction l as [|i l IH]; intros; cbn [import_loop]; kpt. Qed.
Hint Resolve kp_export_loop kp_import_loop : kp.
Lemma kp_export c nr : kp (export_bdd c nr). Proof. unfold export_bdd. kpt. Qed.
Lemma kp_import c nr : kp (mgr_add_bdd c nr). Proof. unfold mgr_add_bdd. kpt. Qed.
Lemma kp_acquire_all l : kp (acquire_all l).
Proof. induction l as [|p l IH]; cbn [acquire_all]; kpt. Qed.
Hint Resolve kp_c_add kp_export kp_import kp_acquire_all kp_evaluate : kp.
Lemma kp_exactly p : kp (exactly_one_solution p). Proof. unfold exactly_one_solution. kpt. Qed.
Hint Resolve kp_exactly : kp.

(** ** calls *)
Definition kept (w : world) (r : wres) : Prop :=
  match r with WOk _ w' => skel (s_heap (w_s w)) (s_heap (w_s w'))
  | WFail _ w' => w_h w' = w_h w /\ skel (s_heap (w_s w)) (s_heap (w_s w')) end.
Lemma kept_newh w m : nc_ok (s_heap (w_s w)) (s_nc (w_s w)) -> kp m -> kept w (newh w m).
Proof.
  intros Hs Hm. unfold newh. specialize (Hm _ Hs). destruct (m (w_s w)) as [p s|e s]; [|done].
  destruct Hm as [Hs1 H1]. pose proof (kp_acquire p s Hs1) as Ha. destruct (ref_acquire p s) as [[] s'|e s']; simpl.
  - eapply skel_trans; [done|apply Ha].
  - split; [done|]. by eapply skel_trans.
Qed.
Lemma kept_query {A} w (f : A -> out) m : nc_ok (s_heap (w_s w)) (s_nc (w_s w)) -> kp m -> kept w (query w f m).
Proof. intros Hs Hm. unfold query. specialize (Hm _ Hs). destruct (m (w_s w)) as [p s|e s]; [apply Hm|done]. Qed.
Lemma kept_newhs w m : nc_ok (s_heap (w_s w)) (s_nc (w_s w)) -> kp m -> kept w (newhs w m).
Proof.
  intros Hs Hm. unfold newhs. assert (Hk : kp (let* l := m in acquire_all l ;;* ret l)) by kpt. specialize (Hk _ Hs).
  destruct (bind _ _ _) as [l s|e s]; [apply Hk|done].
Qed.
Lemma kept_ub w : kept w (WFail EUB w).
Proof. split; [done|apply skel_refl]. Qed.
Lemma kept_with1 w i k : (forall p, kept w (k p)) -> kept w (with1 w i k).
Proof. intros Hk. unfold with1. destruct (hnd w i); [apply Hk|apply kept_ub]. Qed.
Lemma kept_with2 w i j k : (forall p q, kept w (k p q)) -> kept w (with2 w i j k).
Proof. intros Hk. unfold with2. apply kept_with1. intros p. by apply kept_with1. Qed.
Lemma kept_withl w l k : (forall ps, kept w (k ps)) -> kept w (withl w l k).
Proof. intros Hk. unfold withl. destruct (hnds w l); [apply Hk|apply kept_ub]. Qed.
Lemma step_kept o w : (forall fuel, o <> OGc fuel) -> nc_ok (s_heap (w_s w)) (s_nc (w_s w)) -> kept w (step o w).
Proof.
  intros Hgc Hs. destruct o; try (by exfalso; eapply Hgc); cbn [step];
    repeat first [apply kept_with1; intros ? | apply kept_with2; intros ? ? | apply kept_withl; intros ?];
    try (apply kept_newh; [exact Hs|]; unfold op_and, op_or, op_xor, op_not; try apply kp_via; kpt);
    try (apply kept_query; [exact Hs|]; kpt); try (apply kept_newhs; [exact Hs|]; kpt).
  - pose proof (kp_lim p p0 limit _ Hs) as Hl. destruct (and_rec_limited p p0 limit (w_s w)) as [[r n] s|e s]; [|done].
    destruct Hl as [Hs1 H1]. pose proof (kp_acquire r s Hs1) as Ha. destruct (ref_acquire r s) as [[] s'|e s']; simpl.
    + eapply skel_trans; [done|apply Ha].
    + split; [done|]. by eapply skel_trans.
  - pose proof (kp_release p _ Hs) as Hl. destruct (ref_release p (w_s w)) as [[] s|e s]; [apply Hl|done].
  - pose proof (kp_assign p p0 _ Hs) as Hl. destruct (ref_assign p p0 (w_s w)) as [r s|e s]; [apply Hl|done].
  - unfold reference_count. kpt.
  - apply skel_refl.
Qed.

(** ** evaluation only reads children and variables *)
Lemma is_bot_skel s s' p b s1 : skel (s_heap s) (s_heap s') -> is_botsink p s = Ok b s1 -> s1 = s /\ is_botsink p s' = Ok b s'.
Proof.
  intros Hk. unfold is_botsink, bind, getN. destruct (s_heap s !! p) as [n|] eqn:Hp; [|done].
  destruct (Hk _ _ Hp) as (n'&Hp'&H1&H2&H3&_). rewrite Hp', H1, H2, H3. unfold assert_, liftR, assertR.
  destruct (_ || e_ndebug); [|done]. by intros [= <- <-].
Qed.
Lemma is_top_skel s s' p b s1 : skel (s_heap s) (s_heap s') -> is_topsink p s = Ok b s1 -> s1 = s /\ is_topsink p s' = Ok b s'.
Proof.
  intros Hk. unfold is_topsink, bind, getN. destruct (s_heap s !! p) as [n|] eqn:Hp; [|done].
  destruct (Hk _ _ Hp) as (n'&Hp'&H1&H2&H3&_). rewrite Hp', H1, H2, H3. unfold assert_, liftR, assertR.
  destruct (_ || e_ndebug); [|done]. by intros [= <- <-].
Qed.
Lemma evaluate_fuel_skel x s s' : skel (s_heap s) (s_heap s') -> forall fuel fuel' p b s1, (fuel <= fuel')%nat ->
  evaluate_fuel fuel p x s = Ok b s1 -> evaluate_fuel fuel' p x s' = Ok b s'.
Proof.
  intros Hk fuel. induction fuel as [|fuel IH]; intros fuel' p b s1 Hle He; [done|].
  destruct fuel' as [|fuel']; [lia|]. cbn [evaluate_fuel] in *.
  apply bind_inv in He as (b1&s2&H1&He). apply (is_bot_skel _ _ _ _ _ Hk) in H1 as [-> H1]. rewrite (bind_eq _ _ _ _ _ H1).
  destruct b1; [by injection He as <- _|].
  apply bind_inv in He as (b2&s3&H2&He). apply (is_top_skel _ _ _ _ _ Hk) in H2 as [-> H2]. rewrite (bind_eq _ _ _ _ _ H2).
  destruct b2; [by injection He as <- _|].
  apply bind_inv in He as (n&s3&H3&He). unfold getN in H3. destruct (s_heap s !! p) as [n0|] eqn:Hp; [|done]. injection H3 as -> <-.
  destruct (Hk _ _ Hp) as (n'&Hp'&Hl&Hh&Hi&_). assert (H3 : getN p s' = Ok n' s') by (unfold getN; by rewrite Hp').
  rewrite (bind_eq _ _ _ _ _ H3), Hl, Hh, Hi.
  apply bind_inv in He as (u&s3&H4&He). unfold assert_, liftR in H4. destruct (assertR _) as [|[]] eqn:Ha; [done|]. injection H4 as <- <-.
  assert (H4 : assert_ (n_idx n <? N.of_nat (length x)) s' = Ok tt s') by (unfold assert_, liftR; by rewrite Ha).
  rewrite (bind_eq _ _ _ _ _ H4). destruct (x !! N.to_nat (n_idx n)) as [[]|]; [| |done]; (eapply IH; [lia|exact He]).
Qed.
Lemma val_skel w w' i x b : skel (s_heap (w_s w)) (s_heap (w_s w')) -> hnd w' i = hnd w i -> val w i x = Some b -> val w' i x = Some b.
Proof.
  intros Hk Hh. unfold val. cbn [step]. unfold with1. rewrite Hh. destruct (hnd w i) as [p|]; [|done]. unfold query.
  unfold evaluate, with_fuel. destruct (evaluate_fuel (fuel_of (w_s w)) p x (w_s w)) as [c s1|] eqn:He; [|done]. intros [= ->].
  rewrite (evaluate_fuel_skel x _ _ Hk (fuel_of (w_s w)) (fuel_of (w_s w')) p b s1); [done| |exact He].
  pose proof (skel_size _ _ Hk). unfold fuel_of. lia.
Qed.

(** ** C26: a call that throws leaves every existing handle and its function as they were *)
Theorem C26_handles_survive md w o e w' : reach md w -> allowed md w o -> step o w = WFail e w' ->
  w_h w' = w_h w /\ forall i phi x, evals w i phi -> covers w x -> val w' i x = Some (phi x).
Proof.
  intros HR Ha Hs. pose proof (reach_inv HE _ _ HR) as HW.
  pose proof (step_kept o w) as Hk. rewrite Hs in Hk. destruct Hk as [Hh Hk].
  { intros fuel ->. done. }
  { apply HW. }
  split; [done|]. intros i phi x Hi Hx. eapply val_skel; [exact Hk| |by apply Hi]. unfold hnd. by rewrite Hh.
Qed.
End throw.
