(** * PropsMem.v -- how much memory a manager holds (C80) *)
From Verif Require Export PropsSlot PropsCap.
Open Scope N_scope.

Section mem.
Context {E : Env} (HE : env_ok E).

(** the pages of the node cache are filled one after the other; the memo cache has at most 2^22 slots *)
Definition nq (nc : ncache) : Prop := nc_avail nc = 0 /\ (1 <= nc_npages nc)%nat /\ exists k, 1 <= k <= node_page_size /\
  nc_ptr nc = nc_base nc + node_size * k /\ nc_total nc = node_page_size * N.of_nat (nc_npages nc - 1) + k.
Definition mq (mc : mcache) : Prop := exists j, j <= 22 /\ N.of_nat (length (mc_tab mc)) = 2 ^ j.
Definition qs (s : mstate) : Prop := nq (s_nc s) /\ mq (s_memo s).
Definition kq {A} (m : M A) : Prop := forall s, qs s -> match m s with Ok _ s' => qs s' | Fail _ _ => True end.
Lemma kq_bind {A B} (m : M A) (k : A -> M B) : kq m -> (forall a, kq (k a)) -> kq (bind m k).
Proof. intros Hm Hk s Hs. unfold bind. specialize (Hm s Hs). destruct (m s) as [a s1|e s1]; [|done]. exact (Hk a s1 Hm). Qed.
Lemma kq_ret {A} (a : A) : kq (ret a). Proof. by intros s Hs. Qed.
Lemma kq_fail {A} e : kq (fail (A := A) e). Proof. by intros s Hs. Qed.
Lemma kq_get : kq get. Proof. by intros s Hs. Qed.
Lemma kq_liftR {A} (r : R A) : kq (liftR r). Proof. intros s Hs. unfold liftR. by destruct r. Qed.
Lemma kq_assert b : kq (assert_ b). Proof. apply kq_liftR. Qed.
Lemma kq_assertM m : kq m -> kq (assertM m).
Proof. intros Hm. unfold assertM. destruct e_ndebug; [apply kq_ret|]. apply kq_bind; [done|]. intros. apply kq_assert. Qed.
Lemma kq_args2 {A B} (a : M A) (b : M B) : kq a -> kq b -> kq (args2 a b).
Proof. intros Ha Hb. unfold args2. destruct e_rtl; repeat (apply kq_bind; [done|intros ?]); apply kq_ret. Qed.
Lemma kq_args3 {A B C} (a : M A) (b : M B) (c : M C) : kq a -> kq b -> kq c -> kq (args3 a b c).
Proof. intros Ha Hb Hc. unfold args3. destruct e_rtl; repeat (apply kq_bind; [done|intros ?]); apply kq_ret. Qed.
Lemma kq_with_fuel {A} (m : nat -> M A) : (forall n, kq (m n)) -> kq (with_fuel m).
Proof. intros Hm s. apply Hm. Qed.
Lemma kq_getN p : kq (getN p). Proof. intros s Hs. unfold getN. by destruct (_ !! _). Qed.
Lemma kq_getV v : kq (getV v). Proof. intros s Hs. unfold getV. by destruct (_ !! _). Qed.
Lemma kq_set_vars f : kq (set_vars f). Proof. by intros s Hs. Qed.
Lemma kq_set_pcs f : kq (set_pcs f). Proof. by intros s Hs. Qed.
Lemma kq_set_rnd f : kq (set_rnd f). Proof. by intros s Hs. Qed.
Lemma kq_set_heap f : kq (set_heap f). Proof. by intros s Hs. Qed.
Lemma kq_modN p f : kq (modN p f).
Proof. unfold modN. apply kq_bind; [apply kq_getN|]. intros. apply kq_set_heap. Qed.
Lemma kq_mark p b : kq (modN p (with_mark b)). Proof. apply kq_modN. Qed.
Lemma kq_inc p : kq (xref_inc p). Proof. apply kq_modN. Qed.
Lemma kq_dec p : kq (xref_dec p). Proof. apply kq_modN. Qed.
(** the same for one state *)
Definition kx {A} (s : mstate) (m : M A) : Prop := match m s with Ok _ s' => qs s' | Fail _ _ => True end.
Lemma kx_get {A} s (k : mstate -> M A) : kx s (k s) -> kx s (bind get k). Proof. done. Qed.
Lemma kx_assert {A} s b (m : M A) : kx s m -> kx s (assert_ b ;;* m).
Proof. intros Hm. unfold kx, bind. destruct (assert_ b s) as [u s1|e s1] eqn:Hu; [|done]. by apply liftR_ok in Hu as [_ ->]. Qed.
Lemma kx_set_nc {A} s f (m : M A) : kx (set_s_nc (f (s_nc s)) s) m -> kx s (set_nc f ;;* m).
Proof. done. Qed.
Lemma kq_reserve : kq reserve_node.
Proof.
  intros s [(Ha&Hn&k&Hk&Hp&Ht) Hm]. change (kx s reserve_node).
  assert (Hlt : forall b k', (b + node_size * k' - b) / node_size = k').
  { intros b k'. rewrite N.add_comm, N.add_sub, N.mul_comm. by apply N.div_mul. }
  unfold reserve_node. cbn [reserve_node_fuel]. apply kx_get. cbv zeta. rewrite Ha. cbn [N.eqb negb].
  apply kx_assert, kx_assert. rewrite Hp, Hlt. destruct (N.ltb_spec k node_page_size) as [Hkl|Hkl].
  - apply kx_set_nc. split; [|exact Hm]. unfold nq, set_s_nc. cbn [s_nc nc_avail nc_npages nc_ptr nc_base nc_total]. split; [done|]. split; [done|].
    exists (k + 1). split_and!; lia.
  - apply kx_set_nc. apply kx_get. unfold set_s_nc. cbn [s_nc nc_avail nc_npages nc_ptr nc_base nc_total]. rewrite Ha. cbn [N.eqb negb].
    apply kx_assert, kx_assert. pose proof (Hlt (e_page (nc_npages (s_nc s))) 0) as H0. rewrite N.mul_0_r, N.add_0_r in H0. rewrite H0.
    destruct (N.ltb_spec 0 node_page_size) as [_|Hx]; [|done].
    apply kx_set_nc. split; [|exact Hm]. unfold nq, set_s_nc. cbn [s_nc nc_avail nc_npages nc_ptr nc_base nc_total].
    split; [done|]. split; [lia|]. exists 1. assert (k = node_page_size) as -> by lia. split_and!; [done|done|lia|]. rewrite Ht.
    replace (S (nc_npages (s_nc s)) - 1)%nat with (S (nc_npages (s_nc s) - 1)) by lia. lia.
Qed.
Lemma kq_init p v l h : kq (init_new_node p v l h).
Proof.
  unfold init_new_node. repeat first [apply kq_bind; [|intros ?] | apply kq_get | apply kq_getN | apply kq_assert | apply kq_inc | apply kq_modN | apply kq_ret
    | apply kq_set_rnd | apply kq_set_heap | progress cbv zeta | lazymatch goal with |- kq (match ?x with _ => _ end) => destruct x end].
Qed.
Lemma kq_alloc {A} v l h (k : ptr -> M A) : (forall p, kq (k p)) -> kq (let* p := reserve_node in init_new_node p v l h ;;* k p).
Proof. intros Hk. apply kq_bind; [apply kq_reserve|]. intros p. apply kq_bind; [apply kq_init|]. intros _. apply Hk. Qed.
Lemma rehash_len h l : forall mc occ mc' occ', memo_rehash h l mc occ = inr (mc', occ') -> length (mc_tab mc') = length (mc_tab mc).
Proof.
  induction l as [|k l IH]; intros mc occ mc' occ' Hr; cbn [memo_rehash] in Hr; [by injection Hr as <- <-|]. cbv zeta in Hr.
  destruct (m_r _ =? 0); [by eapply IH|]. destruct (cache_hash _ _ _ _); [done|]. cbn in Hr. destruct (memo_slot _ _); [done|]. cbn in Hr.
  destruct (memo_eqb _ _); [by eapply IH|]. apply IH in Hr as ->. cbn [mc_tab]. by rewrite !insert_length.
Qed.
Lemma double_mq h mc mc' : mq mc -> memo_double h mc = inr mc' -> mq mc'.
Proof.
  intros (j&Hj&Hl) Hd. unfold memo_double in Hd. destruct (N.leb_spec 4194304 (N.of_nat (length (mc_tab mc)))) as [|Hlt]; [injection Hd as <-; by exists j|].
  destruct (assertR _); [done|]. cbn in Hd. destruct (memo_rehash _ _ _ _) as [|[mc2 occ]] eqn:Hr; [done|]. cbn in Hd. injection Hd as <-.
  apply rehash_len in Hr. cbn [mc_tab] in Hr. exists (N.succ j). cbn [mc_tab]. rewrite Hr, app_length, repeat_length, N.pow_succ_r'. split; [|lia].
  assert (2 ^ j < 2 ^ 22) as Hlt2 by (change (2 ^ 22) with 4194304; lia). apply N.pow_lt_mono_r_iff in Hlt2; lia.
Qed.
Lemma kq_insert f g h r : kq (cache_insert f g h r).
Proof.
  intros s [Hn Hm]. destruct (cache_insert f g h r s) as [u s'|] eqn:Hs; [|done].
  unfold cache_insert, bind, get, liftR in Hs. destruct (cache_hash (s_heap s) f g h) as [|x] eqn:Hx; [done|]. set (mc0 := MCache _ _ _ _) in Hs.
  destruct (if _ <=? _ then _ else _) as [|mc] eqn:Hmc; [done|]. destruct (memo_slot mc x) as [|n] eqn:Hsl; [done|].
  unfold set_memo in Hs. injection Hs as _ <-. split; [exact Hn|]. unfold mq. cbn [s_memo mc_tab]. rewrite insert_length. change (mq mc).
  assert (mq mc0) as Hm0 by exact Hm. destruct (mc_thr mc0 <=? mc_ins mc0); [by eapply double_mq|]. by injection Hmc as <-.
Qed.

Ltac kq0 := lazymatch goal with
  | |- kq (ret _) => apply kq_ret
  | |- kq (fail _) => apply kq_fail
  | |- kq get => apply kq_get
  | |- kq (assert_ _) => apply kq_assert
  | |- kq (liftR _) => apply kq_liftR
  | |- kq (getN _) => apply kq_getN
  | |- kq (getV _) => apply kq_getV
  | |- kq (set_vars _) => apply kq_set_vars
  | |- kq (set_pcs _) => apply kq_set_pcs
  | |- kq (modN _ (with_mark _)) => apply kq_mark
  | |- kq (xref_inc _) => apply kq_inc
  | |- kq (xref_dec _) => apply kq_dec
  end.
Ltac kq1 := lazymatch goal with
  | |- kq (bind reserve_node _) => apply kq_alloc; intros ?
  | |- kq (bind _ _) => apply kq_bind; [|intros ?]
  | |- kq (args2 _ _) => apply kq_args2
  | |- kq (args3 _ _ _) => apply kq_args3
  | |- kq (assertM _) => apply kq_assertM
  | |- kq (with_fuel _) => apply kq_with_fuel; intros ?
  | |- kq (match ?x with _ => _ end) => destruct x
  | |- kq (let _ := _ in _) => cbv zeta
  end.
Ltac kqt := repeat first [kq0 | kq1 | solve [eauto 2 with kq nocore]].
Create HintDb kq discriminated.
#[local] Hint Constants Opaque : kq.
#[local] Hint Variables Opaque : kq.
Lemma kq_is_bot p : kq (is_botsink p). Proof. unfold is_botsink. kqt. Qed.
Lemma kq_is_top p : kq (is_topsink p). Proof. unfold is_topsink. kqt. Qed.
Hint Resolve kq_is_bot kq_is_top : kq.
Lemma kq_is_term p : kq (is_terminal p). Proof. unfold is_terminal. kqt. Qed.
Lemma kq_touch p : kq (touch p). Proof. unfold touch. kqt. Qed.
Hint Resolve kq_is_term kq_touch : kq.
Lemma kq_low p : kq (low p). Proof. unfold low. kqt. Qed.
Lemma kq_high p : kq (high p). Proof. unfold high. kqt. Qed.
Lemma kq_variable p : kq (variable p). Proof. unfold variable. kqt. Qed.
Lemma kq_marked p : kq (marked p). Proof. unfold marked. kqt. Qed.
Hint Resolve kq_low kq_high kq_variable kq_marked : kq.
Lemma kq_evaluate p x : kq (evaluate p x).
Proof. unfold evaluate. apply kq_with_fuel. intros n. revert p. induction n as [|n IH]; intros p; cbn [evaluate_fuel]; kqt. Qed.
Lemma kq_unmark_fuel n : forall p, kq (unmark_fuel n p).
Proof. induction n as [|n IH]; intros p; cbn [unmark_fuel]; kqt. Qed.
Hint Resolve kq_unmark_fuel : kq.
Lemma kq_unmark p : kq (unmark p). Proof. unfold unmark. kqt. Qed.
Hint Resolve kq_unmark : kq.
Lemma kq_nr_impl n : forall p, kq (nr_nodes_impl n p).
Proof. induction n as [|n IH]; intros p; cbn [nr_nodes_impl]; kqt. Qed.
Hint Resolve kq_nr_impl : kq.
Lemma kq_nr_nodes p : kq (nr_nodes p). Proof. unfold nr_nodes. kqt. Qed.
Hint Resolve kq_nr_nodes : kq.
Lemma kq_post_impl n : forall p acc, kq (postorder_impl n p acc).
Proof. induction n as [|n IH]; intros p acc; cbn [postorder_impl]; kqt. Qed.
Hint Resolve kq_post_impl : kq.
Lemma kq_postorder p : kq (nodes_postorder p). Proof. unfold nodes_postorder. kqt. Qed.
Hint Resolve kq_postorder : kq.
Lemma kq_bfs_child c q : kq (bfs_child c q). Proof. unfold bfs_child. kqt. Qed.
Hint Resolve kq_bfs_child : kq.
Lemma kq_bfs_loop n : forall q l, kq (bfs_loop n q l).
Proof. induction n as [|n IH]; intros q l; cbn [bfs_loop]; kqt. Qed.
Hint Resolve kq_bfs_loop : kq.
Lemma kq_bfs p : kq (nodes_bfs p). Proof. unfold nodes_bfs. kqt. Qed.
Hint Resolve kq_bfs : kq.
Lemma kq_vars_impl n : forall p acc, kq (variables_impl n p acc).
Proof. induction n as [|n IH]; intros p acc; cbn [variables_impl]; kqt. Qed.
Hint Resolve kq_vars_impl : kq.
Lemma kq_variables p : kq (variables p). Proof. unfold variables. kqt. Qed.
Lemma kq_one n : forall p, kq (exactly_one_solution_fuel n p).
Proof. induction n as [|n IH]; intros p; cbn [exactly_one_solution_fuel]; kqt. Qed.
Lemma kq_find_fuel n : forall p, kq (find_bdd_mgr_fuel n p).
Proof. induction n as [|n IH]; intros p; cbn [find_bdd_mgr_fuel]; kqt. Qed.
Hint Resolve kq_variables kq_one kq_find_fuel : kq.
Lemma kq_find p : kq (find_bdd_mgr p). Proof. unfold find_bdd_mgr. kqt. Qed.
Lemma kq_print_rec n : forall p l, kq (print_rec n p l).
Proof. induction n as [|n IH]; intros p l; cbn [print_rec]; kqt. Qed.
Hint Resolve kq_find kq_print_rec : kq.
Lemma kq_print p : kq (print p). Proof. unfold print. kqt. Qed.
Lemma kq_acquire p : kq (ref_acquire p). Proof. unfold ref_acquire. kqt. Qed.
Lemma kq_release p : kq (ref_release p). Proof. unfold ref_release. kqt. Qed.
Lemma kq_assign p q : kq (ref_assign p q). Proof. unfold ref_assign. kqt. Qed.
Hint Resolve kq_print kq_acquire kq_release kq_assign : kq.

Lemma kq_reserve_page cls : kq (reserve_page cls). Proof. unfold reserve_page. kqt. Qed.
Hint Resolve kq_reserve_page : kq.
Lemma kq_new_page m : kq (new_page m). Proof. unfold new_page. kqt. Qed.
Lemma kq_free_page pg m : kq (free_page pg m). Proof. unfold free_page, push_page. kqt. Qed.
Hint Resolve kq_new_page kq_free_page : kq.
Lemma kq_setV v t : kq (setV v t). Proof. unfold setV. kqt. Qed.
Hint Resolve kq_setV : kq.
Lemma kq_double v : kq (double_cache v). Proof. unfold double_cache. kqt. Qed.
Hint Resolve kq_double : kq.
Lemma kq_uf n : forall v l h, kq (unique_find_fuel n v l h).
Proof. induction n as [|n IH]; intros v l h; cbn [unique_find_fuel]; kqt. Qed.
Lemma kq_ufv v l h : kq (unique_find_v v l h). Proof. apply kq_uf. Qed.
Hint Resolve kq_ufv : kq.
Lemma kq_zero p : kq (modN p (with_xref (fun _ => 0%Z))). Proof. apply kq_modN. Qed.
Hint Resolve kq_zero kq_inc : kq.
Lemma kq_revive_fuel n : forall p, kq (recursively_revive_fuel n p).
Proof. induction n as [|n IH]; intros p; cbn [recursively_revive_fuel]; kqt. Qed.
Hint Resolve kq_revive_fuel : kq.
Lemma kq_revive p : kq (recursively_revive p). Proof. unfold recursively_revive. kqt. Qed.
Hint Resolve kq_revive : kq.
Lemma kq_lookup f g h : kq (cache_lookup f g h). Proof. unfold cache_lookup. kqt. Qed.
Hint Resolve kq_lookup kq_insert : kq.
Lemma kq_new_var : kq TableModel.new_var. Proof. unfold TableModel.new_var. kqt. Qed.
Hint Resolve kq_new_var : kq.
Lemma kq_add_variable : kq add_variable. Proof. unfold add_variable. kqt. Qed.
Hint Resolve kq_add_variable : kq.
Lemma kq_add_variables n : kq (add_variables n).
Proof. induction n as [|n IH]; cbn [add_variables]; kqt. Qed.
Hint Resolve kq_add_variables : kq.
Lemma kq_ensure v : kq (ensure_var v). Proof. unfold ensure_var. kqt. Qed.
Hint Resolve kq_ensure : kq.
Lemma kq_proj v : kq (projection v). Proof. unfold projection. kqt. Qed.
Lemma kq_nproj v : kq (neg_projection v). Proof. unfold neg_projection. kqt. Qed.
Lemma kq_negate_fuel n : forall p, kq (negate_fuel n p).
Proof. induction n as [|n IH]; intros p; cbn [negate_fuel]; kqt. Qed.
Hint Resolve kq_proj kq_nproj kq_negate_fuel : kq.
Lemma kq_negate p : kq (negate p). Proof. unfold negate. kqt. Qed.
Lemma kq_muf v l h : kq (mgr_unique_find v l h). Proof. unfold mgr_unique_find. kqt. Qed.
Hint Resolve kq_negate kq_muf : kq.
Lemma kq_and_fuel n : forall f g, kq (and_fuel n f g).
Proof. induction n as [|n IH]; intros f g; cbn [and_fuel]; kqt. Qed.
Lemma kq_or_fuel n : forall f g, kq (or_fuel n f g).
Proof. induction n as [|n IH]; intros f g; cbn [or_fuel]; kqt. Qed.
Lemma kq_xor_fuel n : forall f g, kq (xor_fuel n f g).
Proof. induction n as [|n IH]; intros f g; cbn [xor_fuel]; kqt. Qed.
Hint Resolve kq_and_fuel kq_or_fuel kq_xor_fuel : kq.
Lemma kq_and f g : kq (and_rec f g). Proof. unfold and_rec. kqt. Qed.
Lemma kq_or f g : kq (or_rec f g). Proof. unfold or_rec. kqt. Qed.
Lemma kq_xor f g : kq (xor_rec f g). Proof. unfold xor_rec. kqt. Qed.
Hint Resolve kq_and kq_or kq_xor : kq.
Lemma kq_ite_fuel n : forall f g h, kq (ite_fuel n f g h).
Proof. induction n as [|n IH]; intros f g h; cbn [ite_fuel]; kqt. Qed.
Hint Resolve kq_ite_fuel : kq.
Lemma kq_ite f g h : kq (ite_rec f g h). Proof. unfold ite_rec. kqt. Qed.
Lemma kq_lim_fuel n : forall f g L, kq (and_limited_fuel n f g L).
Proof. induction n as [|n IH]; intros f g L; cbn [and_limited_fuel]; kqt. Qed.
Hint Resolve kq_ite kq_lim_fuel : kq.
Lemma kq_lim f g L : kq (and_rec_limited f g L). Proof. unfold and_rec_limited. kqt. Qed.
Hint Resolve kq_lim : kq.
Lemma kq_variadic op : (forall a b, kq (op a b)) -> forall l p, kq (nary_variadic op p l).
Proof. intros Hop l. induction l as [|q l IH]; intros p; cbn [nary_variadic]; [kqt|]. destruct l; [apply Hop|]. kqt. Qed.
Lemma kq_range op : (forall a b, kq (op a b)) -> forall n l, kq (nary_range op n l).
Proof. intros Hop n. induction n as [|n IH]; intros l; cbn [nary_range]; kqt. Qed.
Lemma kq_via {A} a (m : M A) : kq m -> kq (via_mgr a m).
Proof. intros Hm. unfold via_mgr. kqt. Qed.
Lemma kq_andv p l : kq (and_variadic p l). Proof. apply kq_variadic, kq_and. Qed.
Lemma kq_orv p l : kq (or_variadic p l). Proof. apply kq_variadic, kq_or. Qed.
Lemma kq_xorv p l : kq (xor_variadic p l). Proof. apply kq_variadic, kq_xor. Qed.
Lemma kq_andr l : kq (and_range l). Proof. apply kq_range, kq_and. Qed.
Lemma kq_orr l : kq (or_range l). Proof. apply kq_range, kq_or. Qed.
Lemma kq_xorr l : kq (xor_range l). Proof. apply kq_range, kq_xor. Qed.
Hint Resolve kq_andv kq_orv kq_xorv kq_andr kq_orr kq_xorr kq_via : kq.
Lemma kq_af_fuel n : forall l, kq (all_false_fuel n l).
Proof. induction n as [|n IH]; intros l; cbn [all_false_fuel]; kqt. Qed.
Hint Resolve kq_af_fuel : kq.
Lemma kq_all_false l : kq (all_false l). Proof. unfold all_false. kqt. Qed.
Lemma kq_not_both a b : kq (not_both a b). Proof. unfold not_both. kqt. Qed.
Hint Resolve kq_all_false kq_not_both : kq.
Lemma kq_amo_fuel n : forall l, kq (at_most_one_fuel n l).
Proof. induction n as [|n IH]; intros l; cbn [at_most_one_fuel]; kqt. Qed.
Hint Resolve kq_amo_fuel : kq.
Lemma kq_amo l : kq (at_most_one l). Proof. unfold at_most_one. kqt. Qed.
Hint Resolve kq_amo : kq.
Lemma kq_simplex l : kq (simplex l). Proof. unfold simplex. kqt. Qed.
Lemma kq_alo l : kq (at_least_one l). Proof. unfold at_least_one. kqt. Qed.
Lemma kq_tabulate f l : (forall i, kq (f i)) -> kq (tabulateM f l).
Proof. intros Hf. induction l as [|i l IH]; cbn [tabulateM]; kqt. Qed.
Lemma kq_vec l i : kq (vec_at l i). Proof. unfold vec_at. kqt. Qed.
Hint Resolve kq_simplex kq_alo kq_vec : kq.
Lemma kq_halves r l b : (forall l b, kq (r l b)) -> kq (combine_halves r l b).
Proof. intros Hr. unfold combine_halves. kqt; apply kq_tabulate; intros; kqt. Qed.
Lemma kq_al_fuel n : forall l b, kq (at_least_fuel n l b).
Proof. induction n as [|n IH]; intros l b; cbn [at_least_fuel]; kqt; by apply kq_halves. Qed.
Lemma kq_am_fuel n : forall l b, kq (at_most_fuel n l b).
Proof. induction n as [|n IH]; intros l b; cbn [at_most_fuel]; kqt; by apply kq_halves. Qed.
Lemma kq_card_fuel n : forall l b, kq (cardinality_fuel n l b).
Proof. induction n as [|n IH]; intros l b; cbn [cardinality_fuel]; kqt; by apply kq_halves. Qed.
Lemma kq_al l b : kq (at_least l b). Proof. apply kq_al_fuel. Qed.
Lemma kq_am l b : kq (at_most l b). Proof. apply kq_am_fuel. Qed.
Lemma kq_card l b : kq (cardinality l b). Proof. apply kq_card_fuel. Qed.
Lemma kq_rebase_node vm q nm : kq (rebase_node vm q nm). Proof. unfold rebase_node. kqt. Qed.
Hint Resolve kq_al kq_am kq_card kq_rebase_node : kq.
Lemma kq_rebase_loop vm qs : forall nm, kq (rebase_loop vm qs nm).
Proof. induction qs as [|q qs IH]; intros nm; cbn [rebase_loop]; kqt. Qed.
Hint Resolve kq_rebase_loop : kq.
Lemma kq_rebase_copy vm p : kq (rebase_copy vm p). Proof. unfold rebase_copy. kqt. Qed.
Hint Resolve kq_rebase_copy : kq.
Lemma kq_rebase_map p vm : kq (rebase_map p vm). Proof. unfold rebase_map. kqt. Qed.
Lemma kq_rebase_vec p vm : kq (rebase_vec p vm). Proof. unfold rebase_vec. kqt. Qed.
Hint Resolve kq_rebase_map kq_rebase_vec : kq.
Lemma kq_pass1 nodes : forall ins hash, kq (add_pass1 nodes ins hash).
Proof. induction nodes as [|p nodes IH]; intros; cbn [add_pass1]; kqt. Qed.
Lemma kq_pass2 nodes : forall off i ins hash, kq (add_pass2 nodes off i ins hash).
Proof. induction nodes as [|p nodes IH]; intros; cbn [add_pass2]; kqt. Qed.
Hint Resolve kq_pass1 kq_pass2 : kq.
Lemma kq_c_add c p : kq (c_add_bdd c p). Proof. unfold c_add_bdd. kqt; apply kq_via; kqt. Qed.
Lemma kq_export_ref c a b i m : kq (export_ref c a b i m). Proof. unfold export_ref. kqt. Qed.
Hint Resolve kq_export_ref : kq.
Lemma kq_export_loop c a b l : forall m, kq (export_loop c a b l m).
Proof. induction l as [|i l IH]; intros; cbn [export_loop]; kqt. Qed.
Lemma kq_import_loop c l : forall m, kq (import_loop c l m).
Proof. induction l as [|i l IH]; intros; cbn [import_loop]; kqt. Qed.
Hint Resolve kq_export_loop kq_import_loop : kq.
Lemma kq_export c nr : kq (export_bdd c nr). Proof. unfold export_bdd. kqt. Qed.
Lemma kq_import c nr : kq (mgr_add_bdd c nr). Proof. unfold mgr_add_bdd. kqt. Qed.
Lemma kq_acquire_all l : kq (acquire_all l).
Proof. induction l as [|p l IH]; cbn [acquire_all]; kqt. Qed.
Hint Resolve kq_c_add kq_export kq_import kq_acquire_all kq_evaluate : kq.
Lemma kq_exactly p : kq (exactly_one_solution p). Proof. unfold exactly_one_solution. kqt. Qed.
Hint Resolve kq_exactly : kq.


(** ** calls *)
Definition kqw (r : wres) : Prop := match r with WOk _ w' => qs (w_s w') | WFail _ _ => True end.
Lemma kqw_newh w m : qs (w_s w) -> kq m -> kqw (newh w m).
Proof.
  intros Hs Hm. unfold newh. specialize (Hm _ Hs). destruct (m (w_s w)) as [p s|e s]; [|done].
  pose proof (kq_acquire p s Hm) as Ha. destruct (ref_acquire p s) as [[] s'|e s']; [apply Ha|done].
Qed.
Lemma kqw_query {A} w (f : A -> out) m : qs (w_s w) -> kq m -> kqw (query w f m).
Proof. intros Hs Hm. unfold query. specialize (Hm _ Hs). destruct (m (w_s w)) as [p s|e s]; [apply Hm|done]. Qed.
Lemma kqw_newhs w m : qs (w_s w) -> kq m -> kqw (newhs w m).
Proof.
  intros Hs Hm. unfold newhs. assert (Hk : kq (let* l := m in acquire_all l ;;* ret l)) by kqt. specialize (Hk _ Hs).
  destruct (bind _ _ _) as [l s|e s]; [apply Hk|done].
Qed.
Lemma kqw_with1 w i k : (forall p, kqw (k p)) -> kqw (with1 w i k).
Proof. intros Hk. unfold with1. destruct (hnd w i); [apply Hk|done]. Qed.
Lemma kqw_with2 w i j k : (forall p q, kqw (k p q)) -> kqw (with2 w i j k).
Proof. intros Hk. unfold with2. apply kqw_with1. intros p. by apply kqw_with1. Qed.
Lemma kqw_withl w l k : (forall ps, kqw (k ps)) -> kqw (withl w l k).
Proof. intros Hk. unfold withl. destruct (hnds w l); [apply Hk|done]. Qed.
Lemma step_kqw o w : (forall fuel, o <> OGc fuel) -> qs (w_s w) -> kqw (step o w).
Proof.
  intros Hgc Hs. destruct o; try (by exfalso; eapply Hgc); cbn [step];
    repeat first [apply kqw_with1; intros ? | apply kqw_with2; intros ? ? | apply kqw_withl; intros ?];
    try (apply kqw_newh; [exact Hs|]; unfold op_and, op_or, op_xor, op_not; try apply kq_via; kqt);
    try (apply kqw_query; [exact Hs|]; kqt); try (apply kqw_newhs; [exact Hs|]; kqt).
  - pose proof (kq_lim p p0 limit _ Hs) as Hl. destruct (and_rec_limited p p0 limit (w_s w)) as [[r n] s|e s]; [|done].
    pose proof (kq_acquire r s Hl) as Ha. destruct (ref_acquire r s) as [[] s'|e s']; [apply Ha|done].
  - pose proof (kq_release p _ Hs) as Hl. destruct (ref_release p (w_s w)) as [[] s|e s]; [apply Hl|done].
  - pose proof (kq_assign p p0 _ Hs) as Hl. destruct (ref_assign p p0 (w_s w)) as [r s|e s]; [apply Hl|done].
  - unfold reference_count. kqt.
  - done.
Qed.
Lemma reach_qs md w : reach md w -> qs (w_s w).
Proof.
  induction 1 as [|w o out w' HR IH Ha Hs].
  - split; [split_and!; [done|done|exists 2; done]|exists 0; done].
  - assert (Hgc : forall fuel, o <> OGc fuel) by (intros fuel ->; exact Ha).
    pose proof (step_kqw o w Hgc IH) as Hk. by rewrite Hs in Hk.
Qed.

(** ** Counting *)
Lemma filter_size (P : ptr * node -> Prop) `{!forall x, Decision (P x)} (h : heap) : size (filter P h) = length (filter P (map_to_list h)).
Proof.
  induction h as [|i x m Hi IH] using map_ind; [by rewrite map_filter_empty, map_to_list_empty|].
  destruct (decide (P (i, x))) as [Hp|Hp].
  - rewrite map_filter_insert_True by done. rewrite map_size_insert_None by (apply map_filter_lookup_None; by left).
    rewrite map_to_list_insert by done. rewrite filter_cons_True by done. cbn [length]. by rewrite IH.
  - rewrite map_filter_insert_not' by (done || (intros y Hy; congruence)). rewrite map_to_list_insert by done. rewrite filter_cons_False by done. exact IH.
Qed.
Lemma sl_cons (x : nat) l : sum_list (x :: l) = (x + sum_list l)%nat. Proof. done. Qed.
Lemma sum_classes {A} (f : A -> N) (vs : list N) (l : list A) : NoDup vs ->
  (sum_list (map (fun v => length (filter (fun x => f x = v) l)) vs) <= length l)%nat.
Proof.
  intros Hnd. induction l as [|x l IH]; [induction vs as [|v vs IHv]; [done|]; cbn; apply IHv; by apply NoDup_cons in Hnd as [_ ?]|].
  transitivity (sum_list (map (fun v => length (filter (fun x => f x = v) l)) vs) + 1)%nat; [|cbn [length]; lia]. clear IH.
  induction vs as [|v vs IHv]; [cbn; lia|]. apply NoDup_cons in Hnd as [Hv Hnd]. cbn [map]. rewrite !sl_cons, filter_cons. destruct (decide (f x = v)) as [Hx|Hx].
  - cbn [length]. assert (sum_list (map (fun v => length (filter (fun x => f x = v) (x :: l))) vs) = sum_list (map (fun v => length (filter (fun x => f x = v) l)) vs)) as ->; [|lia].
    f_equal. apply map_ext_in. intros u Hu%elem_of_list_In. rewrite filter_cons_False; [done|]. rewrite Hx. intros ->. by apply Hv.
  - specialize (IHv Hnd). lia.
Qed.

(** ** Theorems *)
Theorem C80_table md w v t : reach md w -> s_vars (w_s w) !! N.to_nat v = Some t ->
  vt_size t = 64 \/ vt_size t < 4 * N.of_nat (size (nodes_of (s_heap (w_s w)) v)).
Proof.
  intros HR Ht. destruct (i_tab _ _ _ (reach_inv HE _ _ HR) _ _ Ht) as (k&Hs&Hk&HT&_&_&_&Hlow&_). rewrite N2Nat.id in HT.
  pose proof (tab_used _ _ _ _ Hs HT) as Hu. destruct Hs as (Hm&Hk6&_). unfold vt_size. rewrite Hm.
  assert (Hsz : N.ones k + 1 = 2 ^ k). { rewrite N.ones_equiv. pose proof (N.pow_nonzero 2 k ltac:(done)). lia. }
  rewrite Hsz. destruct (N.eq_dec k 6) as [->|Hne]; [by left|]. right. specialize (Hlow ltac:(lia)). unfold tsize in *. lia.
Qed.
(** all unique tables together *)
Theorem C80_tables md w : reach md w ->
  N.of_nat (sum_list (map (fun t => N.to_nat (vt_size t)) (s_vars (w_s w)))) <= 64 * nr_variables (w_s w) + 4 * mgr_nr_nodes (w_s w).
Proof.
  intros HR. pose proof (reach_inv HE _ _ HR) as HW.
  assert (H0 : forall vs n, (forall i t, vs !! i = Some t -> s_vars (w_s w) !! (n + i)%nat = Some t) ->
    N.of_nat (sum_list (map (fun t => N.to_nat (vt_size t)) vs)) <= 64 * N.of_nat (length vs) +
      4 * N.of_nat (sum_list (map (fun v => size (nodes_of (s_heap (w_s w)) (N.of_nat v))) (seq n (length vs))))).
  { induction vs as [|t vs IH]; intros n Hvs; [done|]. cbn [map length seq]. rewrite !sl_cons.
    specialize (IH (S n) ltac:(intros i x Hi; specialize (Hvs (S i) x Hi); by rewrite Nat.add_succ_r in Hvs)).
    pose proof (Hvs 0%nat t eq_refl) as Ht. rewrite Nat.add_0_r in Ht. rewrite <- (Nat2N.id n) in Ht. pose proof (C80_table _ _ _ _ HR Ht) as Hb.
    rewrite !Nat2N.inj_succ, !Nat2N.inj_add, N2Nat.id. destruct Hb; lia. }
  specialize (H0 (s_vars (w_s w)) 0%nat ltac:(done)). etransitivity; [exact H0|]. unfold nr_variables, mgr_nr_nodes.
  destruct (i_nc _ _ _ HW) as (_&_&_&_&Htot&_). rewrite Htot. apply N.add_le_mono_l, N.mul_le_mono_l.
  assert (sum_list (map (fun v => size (nodes_of (s_heap (w_s w)) (N.of_nat v))) (seq 0 (length (s_vars (w_s w))))) <= size (s_heap (w_s w)))%nat; [|lia].
  pose proof (sum_classes (fun x : ptr * node => n_idx x.2) (map N.of_nat (seq 0 (length (s_vars (w_s w))))) (map_to_list (s_heap (w_s w)))) as Hc.
  rewrite map_map in Hc. etransitivity; [|etransitivity; [apply Hc|]].
  - apply Nat.eq_le_incl. f_equal. apply map_ext. intros v. apply filter_size.
  - apply (NoDup_fmap_2 N.of_nat). apply NoDup_ListNoDup, seq_NoDup.
  - by unfold size, map_size.
Qed.
(** the pages of the node cache are as many as the nodes (constants included) need *)
Theorem C80_node_pages md w : reach md w ->
  node_page_size * (N.of_nat (nc_npages (s_nc (w_s w))) - 1) < mgr_nr_nodes (w_s w) <= node_page_size * N.of_nat (nc_npages (s_nc (w_s w))).
Proof.
  intros HR. destruct (reach_qs _ _ HR) as [(_&Hn&k&Hk&_&Ht) _]. unfold mgr_nr_nodes. rewrite Ht.
  replace (N.of_nat (nc_npages (s_nc (w_s w)) - 1)) with (N.of_nat (nc_npages (s_nc (w_s w))) - 1) by lia.
  set (n := N.of_nat (nc_npages (s_nc (w_s w)))) in *. assert (1 <= n) by (subst n; lia). clearbody n. revert Hk. rewrite N.mul_sub_distr_l. unfold node_page_size. lia.
Qed.
(** the memo cache: a power of two, at most 2^22 *)
Theorem C80_memo_cache md w : reach md w -> exists j, j <= 22 /\ N.of_nat (length (mc_tab (s_memo (w_s w)))) = 2 ^ j.
Proof. intros HR. by destruct (reach_qs _ _ HR) as [_ Hm]. Qed.
End mem.
