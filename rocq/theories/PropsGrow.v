(** * PropsGrow.v -- the nodes a call creates (C73)

    As in PropsThrow.v most of this is not about well-formed states: whatever its arguments, when
    negate, and_rec, or_rec, xor_rec or ite_rec returns, every node it has created is reachable from
    the node it returns. *)
From Verif Require Export PropsThrow2 PropsSize.
Open Scope N_scope.

Section grow.
Context {E : Env} (HE : env_ok E).

(** [m] creates no node *)
Definition kd {A} (m : M A) : Prop := forall s, match m s with
  | Ok _ s' => dom (s_heap s') = dom (s_heap s)
  | Fail _ s' => dom (s_heap s') = dom (s_heap s) end.
Lemma kd_bind {A B} (m : M A) (k : A -> M B) : kd m -> (forall a, kd (k a)) -> kd (bind m k).
Proof.
  intros Hm Hk s. unfold bind. specialize (Hm s). destruct (m s) as [a s1|e s1]; [|done].
  specialize (Hk a s1). destruct (k a s1); congruence.
Qed.
Lemma kd_ret {A} (a : A) : kd (ret a).
Proof. by intros s. Qed.
Lemma kd_fail {A} e : kd (fail (A := A) e).
Proof. by intros s. Qed.
Lemma kd_get : kd get.
Proof. by intros s. Qed.
Lemma kd_liftR {A} (r : R A) : kd (liftR r).
Proof. intros s. unfold liftR. by destruct r. Qed.
Lemma kd_assert b : kd (assert_ b).
Proof. apply kd_liftR. Qed.
Lemma kd_assertM m : kd m -> kd (assertM m).
Proof. intros Hm. unfold assertM. destruct e_ndebug; [apply kd_ret|]. apply kd_bind; [done|]. intros. apply kd_assert. Qed.
Lemma kd_with_fuel {A} (m : nat -> M A) : (forall n, kd (m n)) -> kd (with_fuel m).
Proof. intros Hm s. apply Hm. Qed.
Lemma kd_getN p : kd (getN p).
Proof. intros s. unfold getN. by destruct (_ !! _). Qed.
Lemma kd_getV v : kd (getV v).
Proof. intros s. unfold getV. by destruct (_ !! _). Qed.
Lemma kd_set_vars f : kd (set_vars f).
Proof. by intros s. Qed.
Lemma kd_set_pcs f : kd (set_pcs f).
Proof. by intros s. Qed.
Lemma kd_set_memo f : kd (set_memo f).
Proof. by intros s. Qed.
Lemma kd_modN p f : kd (modN p f).
Proof.
  intros s. unfold modN, bind, getN, set_heap. destruct (s_heap s !! p) as [n|] eqn:Hp; [|done].
  cbn [s_heap]. apply dom_insert_lookup_L. eauto.
Qed.
Ltac kd0 := lazymatch goal with
  | |- kd (ret _) => apply kd_ret
  | |- kd (fail _) => apply kd_fail
  | |- kd get => apply kd_get
  | |- kd (assert_ _) => apply kd_assert
  | |- kd (liftR _) => apply kd_liftR
  | |- kd (getN _) => apply kd_getN
  | |- kd (getV _) => apply kd_getV
  | |- kd (set_vars _) => apply kd_set_vars
  | |- kd (set_pcs _) => apply kd_set_pcs
  | |- kd (set_memo _) => apply kd_set_memo
  | |- kd (modN _ _) => apply kd_modN
  end.
Ltac kd1 := lazymatch goal with
  | |- kd (bind _ _) => apply kd_bind; [|intros ?]
  | |- kd (assertM _) => apply kd_assertM
  | |- kd (with_fuel _) => apply kd_with_fuel; intros ?
  | |- kd (match ?x with _ => _ end) => destruct x
  | |- kd (let _ := _ in _) => cbv zeta
  end.
Ltac kdt := repeat first [kd0 | kd1 | solve [eauto 2 with kd nocore]].
Create HintDb kd discriminated.
#[local] Hint Constants Opaque : kd.
#[local] Hint Variables Opaque : kd.
Lemma kd_is_bot p : kd (is_botsink p). Proof. unfold is_botsink. kdt. Qed.
Lemma kd_is_top p : kd (is_topsink p). Proof. unfold is_topsink. kdt. Qed.
Hint Resolve kd_is_bot kd_is_top : kd.
Lemma kd_is_term p : kd (is_terminal p). Proof. unfold is_terminal. kdt. Qed.
Lemma kd_touch p : kd (touch p). Proof. unfold touch. kdt. Qed.
Hint Resolve kd_is_term kd_touch : kd.
Lemma kd_low p : kd (low p). Proof. unfold low. kdt. Qed.
Lemma kd_high p : kd (high p). Proof. unfold high. kdt. Qed.
Lemma kd_variable p : kd (variable p). Proof. unfold variable. kdt. Qed.
Hint Resolve kd_low kd_high kd_variable : kd.
Lemma kd_reserve_page cls : kd (reserve_page cls). Proof. unfold reserve_page. kdt. Qed.
Hint Resolve kd_reserve_page : kd.
Lemma kd_new_page m : kd (new_page m). Proof. unfold new_page. kdt. Qed.
Lemma kd_free_page pg m : kd (free_page pg m). Proof. unfold free_page, push_page. kdt. Qed.
Lemma kd_setV v t : kd (setV v t). Proof. unfold setV. kdt. Qed.
Hint Resolve kd_new_page kd_free_page kd_setV : kd.
Lemma kd_double v : kd (double_cache v). Proof. unfold double_cache. kdt. Qed.
Hint Resolve kd_double : kd.
Lemma kd_revive_fuel n : forall p, kd (recursively_revive_fuel n p).
Proof. induction n as [|n IH]; intros p; cbn [recursively_revive_fuel]; unfold xref_inc; kdt. Qed.
Hint Resolve kd_revive_fuel : kd.
Lemma kd_revive p : kd (recursively_revive p). Proof. unfold recursively_revive. kdt. Qed.
Hint Resolve kd_revive : kd.
Lemma kd_lookup f g h : kd (cache_lookup f g h). Proof. unfold cache_lookup. kdt. Qed.
Lemma kd_insert f g h r : kd (cache_insert f g h r). Proof. unfold cache_insert. kdt. Qed.
Lemma kd_new_var : kd TableModel.new_var. Proof. unfold TableModel.new_var. kdt. Qed.
Hint Resolve kd_lookup kd_insert kd_new_var : kd.
Lemma kd_add_variable : kd add_variable. Proof. unfold add_variable. kdt. Qed.
Hint Resolve kd_add_variable : kd.
Lemma kd_add_variables n : kd (add_variables n).
Proof. induction n as [|n IH]; cbn [add_variables]; kdt. Qed.
Hint Resolve kd_add_variables : kd.
Lemma kd_ensure v : kd (ensure_var v). Proof. unfold ensure_var. kdt. Qed.
Lemma kd_acquire p : kd (ref_acquire p). Proof. unfold ref_acquire, xref_inc. kdt. Qed.
Hint Resolve kd_ensure kd_acquire : kd.
Lemma kd_find_fuel n : forall p, kd (find_bdd_mgr_fuel n p).
Proof. induction n as [|n IH]; intros p; cbn [find_bdd_mgr_fuel]; kdt. Qed.
Hint Resolve kd_find_fuel : kd.
Lemma kd_find p : kd (find_bdd_mgr p). Proof. unfold find_bdd_mgr. kdt. Qed.
Hint Resolve kd_find : kd.

(** ** new nodes *)
Definition newn (h h' : heap) (p : ptr) : Prop := is_Some (h' !! p) /\ h !! p = None.
(** the constants are stored, with equal children (the manager's address) *)
Definition sk (h : heap) : Prop := forall p, sink p -> exists n, h !! p = Some n /\ n_lo n = n_hi n.
Lemma sk_skel h h' : sk h -> skel h h' -> sk h'.
Proof. intros Hs Hk p Hp. destruct (Hs p Hp) as (n&Hn&He). destruct (Hk _ _ Hn) as (n'&Hn'&?&?&_). exists n'. split; [done|congruence]. Qed.
Lemma subnode_skel s s' p q : skel (s_heap s) (s_heap s') -> subnode s p q -> subnode s' p q.
Proof.
  intros Hk. induction 1 as [p Hb Ht [n Hn]|p n q Hb Ht Hn Hs IH|p n q Hb Ht Hn Hs IH].
  - destruct (Hk _ _ Hn) as (n'&Hn'&_). by constructor; eauto.
  - destruct (Hk _ _ Hn) as (n'&Hn'&Hl&_). eapply sub_lo; eauto. by rewrite Hl.
  - destruct (Hk _ _ Hn) as (n'&Hn'&_&Hh&_). eapply sub_hi; eauto. by rewrite Hh.
Qed.
Lemma newn_none h q : ~ newn h h q.
Proof. intros [[? ?] ?]. congruence. Qed.
Lemma newn_dom h h1 h2 q : dom h2 = dom h1 -> newn h h2 q -> newn h h1 q.
Proof. intros Hd [Hi Hn]. split; [|done]. apply elem_of_dom. rewrite <- Hd. by apply elem_of_dom. Qed.
Lemma newn_split h0 h1 h2 q : newn h0 h2 q -> newn h0 h1 q \/ newn h1 h2 q.
Proof. intros [Hi Hn]. destruct (h1 !! q) as [n|] eqn:Hq; [left|right]; split; eauto. Qed.

Lemma lookup_loop_found fuel : forall h t l r hash p, lookup_loop fuel h t l r hash = inr p -> p <> 0 ->
  exists n, h !! p = Some n /\ n_lo n = l /\ n_hi n = r.
Proof.
  induction fuel as [|fuel IH]; intros h t l r hash p Hl Hp; [done|]. cbn [lookup_loop] in Hl.
  destruct (base_index t hash) as [|i]; [done|]. cbn [bindR] in Hl. destruct (fetch_node t i) as [|q]; [done|]. cbn [bindR] in Hl.
  destruct (q =? 0); [by injection Hl as <-|]. unfold derefR in Hl. destruct (h !! q) as [n|] eqn:Hq; [|done]. cbn [bindR] in Hl.
  destruct ((n_lo n =? l) && (n_hi n =? r)) eqn:He; [|by eapply IH].
  injection Hl as <-. apply andb_true_iff in He as [H1%N.eqb_eq H2%N.eqb_eq]. eauto.
Qed.
Lemma liftR_ok {A} (r : R A) s a s' : liftR r s = Ok a s' -> r = inr a /\ s' = s.
Proof. unfold liftR. destruct r; [done|]. by intros [= <- <-]. Qed.
Lemma getV_ok v s t s' : getV v s = Ok t s' -> s' = s.
Proof. unfold getV. destruct (_ !! _); [|done]. by intros [= _ <-]. Qed.
Lemma uf_new n : forall v l h s p s', nc_ok (s_heap s) (s_nc s) -> unique_find_fuel n v l h s = Ok p s' ->
  (forall q, newn (s_heap s) (s_heap s') q -> q = p) /\
  (l = h /\ p = l \/ l <> h /\ exists n, s_heap s' !! p = Some n /\ n_lo n = l /\ n_hi n = h).
Proof.
  induction n as [|n IH]; intros v l h s p s' Hs Hu; [done|]. cbn [unique_find_fuel] in Hu.
  destruct (N.eqb_spec l h) as [->|Hlh].
  { injection Hu as <- <-. split; [|by left]. intros q Hq. by apply newn_none in Hq. }
  apply bind_inv in Hu as (t&s1&H1&Hu). apply getV_ok in H1 as ->.
  apply bind_inv in Hu as (s1&s2&H1&Hu). injection H1 as <- <-.
  apply bind_inv in Hu as (q&s1&H1&Hu). apply liftR_ok in H1 as [H1 ->].
  destruct (N.eqb_spec q 0) as [->|Hq0]; cbn [negb] in Hu.
  2:{ injection Hu as <- <-. split; [intros x Hx; by apply newn_none in Hx|]. right. split; [done|].
      unfold unique_table_lookup in H1. destruct (assertR _); [done|]. cbn [bindR] in H1. destruct (hash_code2 _ _ _); [done|]. cbn [bindR] in H1.
      by eapply lookup_loop_found. }
  apply bind_inv in Hu as ([]&s1&H2&Hu).
  assert (Hs1 : nc_ok (s_heap s1) (s_nc s1) /\ s_heap s1 = s_heap s).
  { unfold setV, set_vars in H2. injection H2 as <-. done. }
  destruct Hs1 as [Hs1 Hh1]. rewrite <- Hh1.
  destruct (_ mod _ =? 0); [by eapply IH|].
  apply bind_inv in Hu as (t'&s2&H3&Hu). apply getV_ok in H3 as ->.
  apply bind_inv in Hu as ([]&s2&H3&Hu).
  assert (Hs2 : nc_ok (s_heap s2) (s_nc s2) /\ dom (s_heap s2) = dom (s_heap s1)).
  { destruct (over_half_full t'); [|by injection H3 as <-].
    pose proof (kp_double v s1 Hs1) as Hk. pose proof (kd_double v s1) as Hd. rewrite H3 in Hk, Hd. by destruct Hk. }
  destruct Hs2 as [Hs2 Hd2]. 
  assert (Hgoal : (forall q, newn (s_heap s2) (s_heap s') q -> q = p) /\
    (l = h /\ p = l \/ l <> h /\ exists n, s_heap s' !! p = Some n /\ n_lo n = l /\ n_hi n = h)).
  2:{ destruct Hgoal as [Hg1 Hg2]. split; [|done]. intros q [Hq Hqn]. apply Hg1. split; [done|].
      apply not_elem_of_dom. rewrite Hd2. by apply not_elem_of_dom. }
  clear H3 Hd2 Hh1 Hs1 H2 H1 t t' Hs. 
  apply bind_inv in Hu as (p1&s3&H1&Hu). destruct (reserve_node_spec HE s2 Hs2) as (p1'&nc'&Hr&Hnone&_). rewrite Hr in H1. injection H1 as <- <-.
  apply bind_inv in Hu as ([]&s3&H1&Hu). unfold init_new_node in H1.
  apply bind_inv in H1 as ([]&s4&H2&H1). apply liftR_ok in H2 as [_ ->].
  apply bind_inv in H1 as ([]&s4&H2&H1). pose proof (kd_modN h (with_xref (fun x => (x + 1)%Z)) (set_s_nc nc' s2)) as Hd1.
  unfold xref_inc in H2. rewrite H2 in Hd1.
  apply bind_inv in H1 as ([]&s5&H3&H1). pose proof (kd_modN l (with_xref (fun x => (x + 1)%Z)) s4) as Hd2.
  unfold xref_inc in H3. rewrite H3 in Hd2. 
  apply bind_inv in H1 as (s6&s7&H4&H1). injection H4 as <- <-.
  apply bind_inv in H1 as ([]&s7&H4&H1). unfold set_rnd in H4. injection H4 as <-. unfold set_heap in H1. injection H1 as <-.
  match type of Hu with bind _ _ ?st = _ => set (s6 := st) in * end.
  assert (Hfin : s_heap s' = s_heap s6 /\ p = p1').
  { apply bind_inv in Hu as (t&s7&H4&Hu). apply getV_ok in H4 as ->.
    apply bind_inv in Hu as ([]&s7&H4&Hu). apply liftR_ok in H4 as [_ ->]. cbv zeta in Hu.
    apply bind_inv in Hu as (s8&s7&H4&Hu). injection H4 as <- <-.
    apply bind_inv in Hu as (hc&s7&H4&Hu). apply liftR_ok in H4 as [_ ->].
    apply bind_inv in Hu as (k&s7&H4&Hu). apply liftR_ok in H4 as [_ ->].
    apply bind_inv in Hu as (t2&s7&H4&Hu). apply liftR_ok in H4 as [_ ->].
    apply bind_inv in Hu as ([]&s7&H4&Hu). unfold setV, set_vars in H4. injection H4 as <-. by injection Hu as <- <-. }
  destruct Hfin as [-> ->]. unfold s6. cbn [s_heap]. split.
  - intros q [Hq1 Hq2]. destruct (decide (q = p1')) as [|Hne]; [done|]. exfalso. rewrite lookup_insert_ne in Hq1 by done.
    apply elem_of_dom in Hq1. rewrite Hd2, Hd1 in Hq1. cbn [s_heap set_s_nc] in Hq1. apply elem_of_dom in Hq1 as [? ?]. congruence.
  - right. split; [done|]. eexists. rewrite lookup_insert. done.
Qed.
(** it does not change the stored nodes when it throws *)
Definition kh {A} (m : M A) : Prop := forall s, match m s with Ok _ s' => s_heap s' = s_heap s | Fail _ s' => s_heap s' = s_heap s end.
Lemma kh_bind {A B} (m : M A) (k : A -> M B) : kh m -> (forall a, kh (k a)) -> kh (bind m k).
Proof.
  intros Hm Hk s. unfold bind. specialize (Hm s). destruct (m s) as [a s1|e s1]; [|done].
  specialize (Hk a s1). destruct (k a s1); congruence.
Qed.
Lemma kh_ret {A} (a : A) : kh (ret a).
Proof. by intros s. Qed.
Lemma kh_get : kh get.
Proof. by intros s. Qed.
Lemma kh_fail {A} e : kh (fail (A := A) e).
Proof. by intros s. Qed.
Lemma kh_liftR {A} (r : R A) : kh (liftR r).
Proof. intros s. unfold liftR. by destruct r. Qed.
Lemma kh_assertM m : kh m -> kh (assertM m).
Proof. intros Hm. unfold assertM. destruct e_ndebug; [apply kh_ret|]. apply kh_bind; [done|]. intros. apply kh_liftR. Qed.
Lemma kh_getV v : kh (getV v).
Proof. intros s. unfold getV. by destruct (_ !! _). Qed.
Lemma kh_set_vars f : kh (set_vars f).
Proof. by intros s. Qed.
Lemma kh_set_pcs f : kh (set_pcs f).
Proof. by intros s. Qed.
Ltac kht := repeat lazymatch goal with
  | |- kh (ret _) => apply kh_ret
  | |- kh get => apply kh_get
  | |- kh (fail _) => apply kh_fail
  | |- kh (assert_ _) => apply kh_liftR
  | |- kh (liftR _) => apply kh_liftR
  | |- kh (getV _) => apply kh_getV
  | |- kh (set_vars _) => apply kh_set_vars
  | |- kh (set_pcs _) => apply kh_set_pcs
  | |- kh (bind _ _) => apply kh_bind; [|intros ?]
  | |- kh (assertM _) => apply kh_assertM
  | |- kh (match ?x with _ => _ end) => destruct x
  | |- kh (let _ := _ in _) => cbv zeta
  end.
Lemma kh_double v : kh (double_cache v).
Proof. unfold double_cache, new_page, free_page, reserve_page, push_page, setV. kht. Qed.
Definition nt {A} (r : R A) : Prop := r <> inl EThrow.
Lemma nt_bind {A B} (r : R A) (k : A -> R B) : nt r -> (forall a, nt (k a)) -> nt (bindR r k).
Proof. intros Hr Hk. destruct r as [e|a]; [intros [= ->]; by apply Hr|apply Hk]. Qed.
Lemma nt_assert b : nt (assertR b).
Proof. unfold nt, assertR. by destruct (_ || _). Qed.
Lemma nt_base t k : nt (base_index t k).
Proof. unfold base_index. repeat first [apply nt_bind; [|intros ?] | apply nt_assert | done]. Qed.
Lemma nt_fetch t k : nt (fetch_node t k).
Proof. unfold fetch_node. repeat first [apply nt_bind; [|intros ?] | apply nt_assert | done | case_match]. Qed.
Lemma nt_store t k p : nt (store_node t k p).
Proof. unfold store_node. repeat first [apply nt_bind; [|intros ?] | apply nt_assert | done | case_match]. Qed.
Lemma nt_free_loop n : forall t l, nt (next_free_loop n t l).
Proof.
  induction n as [|n IH]; intros t l; cbn [next_free_loop]; [done|].
  repeat first [apply nt_bind; [|intros ?] | apply nt_base | apply nt_fetch | apply nt_assert | done | apply IH | case_match].
Qed.
Lemma nt_next t k : nt (next_free_slot t k).
Proof. apply nt_free_loop. Qed.
Lemma nt_deref h p : nt (derefR h p).
Proof. unfold derefR. by case_match. Qed.
Lemma nt_hash2 h l r : nt (hash_code2 h l r).
Proof. unfold hash_code2. repeat first [apply nt_bind; [|intros ?] | apply nt_deref | apply nt_assert | done]. Qed.
Lemma nt_hash h p : nt (hash_code h p).
Proof. unfold hash_code. repeat first [apply nt_bind; [|intros ?] | apply nt_deref | apply nt_hash2 | apply nt_assert | done]. Qed.

Definition ntM {A} (m : M A) : Prop := forall s s', m s <> Fail EThrow s'.
Lemma ntM_bind {A B} (m : M A) (k : A -> M B) : ntM m -> (forall a, ntM (k a)) -> ntM (bind m k).
Proof. intros Hm Hk s s' Hb. unfold bind in Hb. destruct (m s) as [a s1|e s1] eqn:Hs; [by apply Hk in Hb|]. injection Hb as -> ->. by apply Hm in Hs. Qed.
Lemma ntM_liftR {A} (r : R A) : nt r -> ntM (liftR r).
Proof. intros Hr s s'. unfold liftR. destruct r as [e|a]; [|done]. intros [= -> _]. by apply Hr. Qed.
Lemma ntM_modN p f : ntM (modN p f).
Proof. intros s s'. unfold modN, bind, getN, set_heap. by destruct (_ !! _). Qed.

Definition fh {A} (m : M A) : Prop := forall s s', m s = Fail EThrow s' -> s_heap s' = s_heap s.
Lemma fh_bind {A B} (m : M A) (k : A -> M B) : kh m -> (forall a, fh (k a)) -> fh (bind m k).
Proof.
  intros Hm Hk s s'. unfold bind. specialize (Hm s). destruct (m s) as [a s1|e s1].
  - intros Hs. rewrite <- Hm. by eapply Hk.
  - by intros [= _ <-].
Qed.
Lemma ntM_fh {A} (m : M A) : ntM m -> fh m.
Proof. intros Hm s s' Hs. by apply Hm in Hs. Qed.
Lemma ntM_getV v : ntM (getV v).
Proof. intros s s'. unfold getV. by destruct (_ !! _). Qed.
Lemma ntM_getN p : ntM (getN p).
Proof. intros s s'. unfold getN. by destruct (_ !! _). Qed.
Ltac ntt := repeat (lazymatch goal with
  | |- ntM (ret _) => by intros ? ?
  | |- ntM get => by intros ? ?
  | |- ntM (set_vars _) => by intros ? ?
  | |- ntM (setV _ _) => by intros ? ?
  | |- ntM (set_heap _) => by intros ? ?
  | |- ntM (set_rnd _) => by intros ? ?
  | |- ntM (set_nc _) => by intros ? ?
  | |- ntM (fail _) => by intros ? ?
  | |- ntM (getV _) => apply ntM_getV
  | |- ntM (getN _) => apply ntM_getN
  | |- ntM (modN _ _) => apply ntM_modN
  | |- ntM (assert_ _) => apply ntM_liftR, nt_assert
  | |- ntM (liftR (hash_code _ _)) => apply ntM_liftR, nt_hash
  | |- ntM (liftR (next_free_slot _ _)) => apply ntM_liftR, nt_next
  | |- ntM (liftR (store_node _ _ _)) => apply ntM_liftR, nt_store
  | |- ntM (bind _ _) => apply ntM_bind; [|intros ?]
  | |- ntM (match ?x with _ => _ end) => destruct x
  | |- ntM (let _ := _ in _) => cbv zeta
  end).
Lemma ntM_reserve n : ntM (reserve_node_fuel n).
Proof. induction n as [|n IH]; cbn [reserve_node_fuel]; ntt; apply IH. Qed.
Lemma ntM_init p v l h : ntM (init_new_node p v l h).
Proof. unfold init_new_node, xref_inc. ntt. Qed.
Lemma uf_fail n : forall v l h, fh (unique_find_fuel n v l h).
Proof.
  induction n as [|n IH]; intros v l h; cbn [unique_find_fuel]; [by intros ? ?|].
  destruct (l =? h); [by intros ? ?|].
  apply fh_bind; [apply kh_getV|intros t]. apply fh_bind; [apply kh_get|intros s0]. apply fh_bind; [apply kh_liftR|intros q].
  destruct (negb _); [by intros ? ?|]. apply fh_bind; [apply kh_set_vars|intros _].
  destruct (_ =? 0); [apply IH|]. apply fh_bind; [apply kh_getV|intros t']. apply fh_bind; [destruct (over_half_full _); [apply kh_double|apply kh_ret]|intros _].
  apply ntM_fh. apply ntM_bind; [apply ntM_reserve|intros p]. apply ntM_bind; [apply ntM_init|intros _]. ntt.
Qed.

(** ** what is created is below what is returned *)
(** started when all nodes created since [h0] are below one of [L], [m] returns a node all of them are below *)
Definition ngk (L : list ptr) (m : M ptr) : Prop := forall h0 s, sk h0 -> nc_ok (s_heap s) (s_nc s) -> skel h0 (s_heap s) ->
  (forall p, newn h0 (s_heap s) p -> exists q, q ∈ L /\ subnode s q p) ->
  match m s with Ok r s' => forall p, newn h0 (s_heap s') p -> subnode s' r p | Fail _ _ => True end.
Lemma ngk_nil m : kd m -> ngk [] m.
Proof.
  intros Hm h0 s Hk Hs H0 HL. specialize (Hm s). destruct (m s) as [r s'|]; [|done]. intros p Hp.
  apply (newn_dom _ _ _ _ Hm), HL in Hp as (q&Hq&_). by apply elem_of_nil in Hq.
Qed.
Lemma ngk_ret r : ngk [r] (ret r).
Proof. intros h0 s Hk Hs H0 HL p Hp. by destruct (HL p Hp) as (q&->%elem_of_list_singleton&Hq). Qed.
Lemma ngk_sub L L' m : (forall q, q ∈ L -> q ∈ L') -> ngk L' m -> ngk L m.
Proof. intros Hsub Hm h0 s Hk Hs H0 HL. apply Hm; auto. intros p Hp. destruct (HL p Hp) as (q&?&?). eauto. Qed.
Lemma ngk_skip {A} L (m : M A) k : kp m -> kd m -> (forall a, ngk L (k a)) -> ngk L (bind m k).
Proof.
  intros Hp Hd Hk h0 s Hsk Hs H0 HL. unfold bind. specialize (Hp s Hs). specialize (Hd s). destruct (m s) as [a s1|]; [|done].
  destruct Hp as [Hs1 H1]. apply Hk; auto; [by eapply skel_trans|]. intros p Hn. destruct (HL p) as (q&?&?); [by eapply newn_dom|].
  exists q. split; [done|]. by eapply subnode_skel.
Qed.
Lemma ngk_rec L m k : kp m -> ngk [] m -> (forall r, ngk (r :: L) (k r)) -> ngk L (bind m k).
Proof.
  intros Hp Hm Hk h0 s Hsk Hs H0 HL. unfold bind. specialize (Hp s Hs). 
  specialize (Hm (s_heap s) s (sk_skel _ _ Hsk H0) Hs (skel_refl _)). destruct (m s) as [a s1|]; [|done].
  destruct Hp as [Hs1 H1]. apply Hk; auto; [by eapply skel_trans|]. intros p Hn. destruct (newn_split _ (s_heap s) _ _ Hn) as [Hn1|Hn1].
  - destruct (HL p Hn1) as (q&?&?). exists q. split; [by right|]. by eapply subnode_skel.
  - exists a. split; [by left|]. apply Hm; [|done]. intros q Hq. by apply newn_none in Hq.
Qed.
Lemma ngk_uf L v l h k : (forall q, q ∈ L -> q = l \/ q = h) -> (forall r, ngk [r] (k r)) -> ngk L (bind (unique_find_v v l h) k).
Proof.
  intros HLL Hk h0 s Hsk Hs H0 HL. unfold bind. pose proof (kp_ufv HE v l h s Hs) as Hp.
  destruct (unique_find_v v l h s) as [r s1|] eqn:Hu; [|done]. destruct Hp as [Hs1 H1].
  destruct (uf_new 2 _ _ _ _ _ _ Hs Hu) as [Hnew Hch].
  assert (Hin : newn (s_heap s) (s_heap s1) r -> subnode s1 r r).
  { intros [Hr Hn]. pose proof (sk_skel _ _ Hsk H0) as Hsk1. apply sub_self; [intros ->; destruct (Hsk1 botsink (or_introl eq_refl)) as (?&?&_); congruence|intros ->; destruct (Hsk1 topsink (or_intror eq_refl)) as (?&?&_); congruence|done]. }
  apply Hk; auto; [by eapply skel_trans|]. intros p Hn. exists r. split; [by left|].
  destruct (newn_split _ (s_heap s) _ _ Hn) as [Hn1|Hn1].
  - destruct (HL p Hn1) as (q&Hq&Hsub). apply (subnode_skel _ _ _ _ H1) in Hsub.
    destruct Hch as [[-> ->]|(Hlh&n&Hr&Hlo&Hhi)].
    + by destruct (HLL q Hq) as [-> | ->].
    + assert (Hns : ~ sink r).
      { intros Hsr. destruct (sk_skel _ _ Hsk (skel_trans _ _ _ H0 H1) r Hsr) as (n'&Hn'&He). congruence. }
      destruct (HLL q Hq) as [-> | ->].
      * eapply sub_lo; [intros ->; apply Hns; by left|intros ->; apply Hns; by right|exact Hr|by rewrite Hlo].
      * eapply sub_hi; [intros ->; apply Hns; by left|intros ->; apply Hns; by right|exact Hr|by rewrite Hhi].
  - rewrite (Hnew p Hn1) in Hn1 |- *. by apply Hin.
Qed.
Lemma ngk_bind_ret L m : ngk L (bind m ret) -> ngk L m.
Proof. intros Hm h0 s Hsk Hs H0 HL. specialize (Hm h0 s Hsk Hs H0 HL). unfold bind, ret in Hm. by destruct (m s). Qed.
Lemma ngk_uf0 L v l h : (forall q, q ∈ L -> q = l \/ q = h) -> ngk L (unique_find_v v l h).
Proof. intros HL. apply ngk_bind_ret, ngk_uf; [done|]. apply ngk_ret. Qed.
Lemma ngk_args2 (a b : M ptr) k : kp a -> kp b -> ngk [] a -> ngk [] b -> (forall x y, ngk [x; y] (k (x, y))) -> ngk [] (bind (args2 a b) k).
Proof.
  intros Hpa Hpb Ha Hb Hk. unfold args2. destruct e_rtl.
  - assert (Hg : ngk [] (let* y := b in let* x := a in k (x, y))).
    { apply ngk_rec; [done..|]. intros y. apply ngk_rec; [done..|]. intros x. apply Hk. }
    intros h0 s. specialize (Hg h0 s). unfold bind in *. destruct (b s) as [y s1|]; [|done]. by destruct (a s1) as [x s2|].
  - assert (Hg : ngk [] (let* x := a in let* y := b in k (x, y))).
    { apply ngk_rec; [done..|]. intros x. apply ngk_rec; [done..|]. intros y. eapply ngk_sub; [|apply Hk]. intros q. rewrite !elem_of_cons. tauto. }
    intros h0 s. specialize (Hg h0 s). unfold bind in *. destruct (a s) as [x s1|]; [|done]. by destruct (b s1) as [y s2|].
Qed.
Lemma ngk_with_fuel L (m : nat -> M ptr) : (forall n, ngk L (m n)) -> ngk L (with_fuel m).
Proof. intros Hm h0 s. apply (Hm (fuel_of s)). Qed.

Ltac kpd := first [assumption | apply kp_ret | apply kp_get | apply kp_assert | apply kp_getV | apply kp_variable | apply kp_low | apply kp_high
  | apply kp_lookup | apply kp_insert | apply kp_touch | apply kp_is_bot | apply kp_is_top | apply kp_is_term | apply (kp_and HE) | apply (kp_or HE) | apply (kp_xor HE)
  | apply kp_ensure | apply kp_find | apply (kp_ufv HE) | match goal with |- kp (match ?x with _ => _ end) => destruct x end; kpd
  | apply kp_bind; [kpd|intros ?; kpd] ].
Ltac skip := apply ngk_skip; [kpd|kdt|intros ?].
Lemma ngk_negate_fuel n : forall p, ngk [] (negate_fuel n p).
Proof.
  induction n as [|n IH]; intros p; cbn [negate_fuel]; [apply ngk_nil; kdt|].
  skip. case_match; [apply ngk_nil; kdt|]. skip. case_match; [apply ngk_nil; kdt|]. skip. skip. skip.
  apply ngk_args2.
  - apply kp_bind; [apply kp_low|]. intros. apply (kp_negate_fuel HE).
  - apply kp_bind; [apply kp_high|]. intros. apply (kp_negate_fuel HE).
  - skip. apply IH.
  - skip. apply IH.
  - intros x y. apply ngk_uf0. intros q. rewrite !elem_of_cons, elem_of_nil. tauto.
Qed.
Lemma ngk_and_fuel n : forall f g, ngk [] (and_fuel n f g).
Proof.
  induction n as [|n IH]; intros f g; cbn [and_fuel]; [apply ngk_nil; kdt|].
  case_match; [apply ngk_nil; kdt|]. case_match; [apply IH|]. do 4 (case_match; [apply ngk_nil; kdt|]).
  skip. case_match; [apply ngk_nil; kdt|]. do 4 skip. cbv zeta. do 2 skip. apply ngk_rec; [apply (kp_and_fuel HE)|apply IH|intros r0].
  do 3 skip. apply ngk_rec; [apply (kp_and_fuel HE)|apply IH|intros r1]. skip.
  apply ngk_uf; [intros q; rewrite !elem_of_cons, elem_of_nil; tauto|intros r]. do 2 skip. apply ngk_ret.
Qed.
Lemma ngk_or_fuel n : forall f g, ngk [] (or_fuel n f g).
Proof.
  induction n as [|n IH]; intros f g; cbn [or_fuel]; [apply ngk_nil; kdt|].
  case_match; [apply ngk_nil; kdt|]. case_match; [apply IH|]. do 4 (case_match; [apply ngk_nil; kdt|]).
  skip. case_match; [apply ngk_nil; kdt|]. do 4 skip. cbv zeta. do 2 skip. apply ngk_rec; [apply (kp_or_fuel HE)|apply IH|intros r0].
  do 3 skip. apply ngk_rec; [apply (kp_or_fuel HE)|apply IH|intros r1]. skip.
  apply ngk_uf; [intros q; rewrite !elem_of_cons, elem_of_nil; tauto|intros r]. skip. apply ngk_ret.
Qed.
Lemma ngk_negate p : ngk [] (negate p).
Proof. apply ngk_with_fuel. intros n. apply ngk_negate_fuel. Qed.
Lemma ngk_xor_fuel n : forall f g, ngk [] (xor_fuel n f g).
Proof.
  induction n as [|n IH]; intros f g; cbn [xor_fuel]; [apply ngk_nil; kdt|].
  case_match; [apply ngk_nil; kdt|]. case_match; [apply IH|]. do 2 (case_match; [apply ngk_nil; kdt|]). do 2 (case_match; [apply ngk_negate|]).
  skip. case_match; [apply ngk_nil; kdt|]. do 7 skip. cbv zeta. do 2 skip. apply ngk_rec; [apply (kp_xor_fuel HE)|apply IH|intros r0].
  do 3 skip. apply ngk_rec; [apply (kp_xor_fuel HE)|apply IH|intros r1]. skip.
  apply ngk_uf; [intros q; rewrite !elem_of_cons, elem_of_nil; tauto|intros r]. skip. apply ngk_ret.
Qed.
Lemma ngk_and f g : ngk [] (and_rec f g).
Proof. apply ngk_with_fuel. intros n. apply ngk_and_fuel. Qed.
Lemma ngk_or f g : ngk [] (or_rec f g).
Proof. apply ngk_with_fuel. intros n. apply ngk_or_fuel. Qed.
Lemma ngk_xor f g : ngk [] (xor_rec f g).
Proof. apply ngk_with_fuel. intros n. apply ngk_xor_fuel. Qed.
Lemma ngk_ite_fuel n : forall f g h, ngk [] (ite_fuel n f g h).
Proof.
  induction n as [|n IH]; intros f g h; cbn [ite_fuel]; [apply ngk_nil; kdt|].
  do 2 (skip; case_match; [apply ngk_nil; kdt|]). skip. case_match; [apply ngk_or|]. skip. case_match; [apply ngk_and|].
  case_match; [apply ngk_nil; kdt|]. do 2 skip. case_match; [apply ngk_xor|].
  skip. case_match; [apply ngk_nil; kdt|]. do 9 skip. cbv zeta. do 3 skip. apply ngk_rec; [apply (kp_ite_fuel HE)|apply IH|intros r0].
  do 4 skip. apply ngk_rec; [apply (kp_ite_fuel HE)|apply IH|intros r1]. skip.
  apply ngk_uf; [intros q; rewrite !elem_of_cons, elem_of_nil; tauto|intros r]. do 2 skip. apply ngk_ret.
Qed.
Lemma ngk_ite f g h : ngk [] (ite_rec f g h).
Proof. apply ngk_with_fuel. intros n. apply ngk_ite_fuel. Qed.
Lemma ngk_proj v : ngk [] (projection v).
Proof. unfold projection. do 3 skip. apply ngk_uf0. intros q Hq. by apply elem_of_nil in Hq. Qed.
Lemma ngk_nproj v : ngk [] (neg_projection v).
Proof. unfold neg_projection. do 2 skip. apply ngk_uf0. intros q Hq. by apply elem_of_nil in Hq. Qed.
Lemma ngk_muf v l h : ngk [] (mgr_unique_find v l h).
Proof. unfold mgr_unique_find. do 2 skip. apply ngk_uf0. intros q Hq. by apply elem_of_nil in Hq. Qed.
Lemma ngk_via a m : ngk [] m -> ngk [] (via_mgr a m).
Proof. intros Hm. unfold via_mgr. skip. case_match; [done|apply ngk_nil; kdt]. Qed.

(** ** calls *)
(** calls that build their result directly, without intermediate handles *)
Definition direct (o : op) : bool :=
  match o with
  | OProj _ | ONegProj _ | ONot _ | OTop | OBot | OUnique _ _ _ | OAnd _ _ | OOr _ _ | OXor _ _ | OIte _ _ _
  | OpAnd _ _ | OpOr _ _ | OpXor _ _ | OpNot _ | OCopy _ | OLow _ | OHigh _ => true
  | _ => false
  end.
Lemma inv_sk md H s : Inv md H s -> sk (s_heap s).
Proof. intros HI p Hp. destruct (inv_sinks _ _ _ HI) as (a&b&Ha&Hb&_&_&H1&H2&H3&H4). destruct Hp as [-> | ->]; eexists; split; eauto; congruence. Qed.
Lemma newh_new md w m r w' : WInv md w -> kp m -> ngk [] m -> newh w m = WOk r w' ->
  exists p, hnd w' (length (w_h w)) = Some p /\ forall q, newn (s_heap (w_s w)) (s_heap (w_s w')) q -> subnode (w_s w') p q.
Proof.
  intros HW Hp Hm. unfold newh. pose proof (i_nc _ _ _ HW) as Hnc. specialize (Hp _ Hnc).
  specialize (Hm _ _ (inv_sk _ _ _ HW) Hnc (skel_refl _)). destruct (m (w_s w)) as [p s1|e s1]; [|done].
  pose proof (kp_acquire p s1 (proj1 Hp)) as Hpa. pose proof (kd_acquire p s1) as Hda. destruct (ref_acquire p s1) as [u s2|]; [|done].
  intros [= _ <-]. exists p. cbn [w_s w_h]. split; [unfold hnd; cbn [w_h]; by rewrite lookup_app_r, Nat.sub_diag by lia|].
  intros q Hq. eapply subnode_skel; [apply Hpa|]. apply Hm; [intros x Hx; by apply newn_none in Hx|]. by eapply newn_dom.
Qed.
Theorem C73_no_garbage md w o r w' : reach md w -> direct o = true -> step o w = WOk r w' ->
  exists p, hnd w' (length (w_h w)) = Some p /\
    forall q n, s_heap (w_s w') !! q = Some n -> s_heap (w_s w) !! q = None -> subnode (w_s w') p q.
Proof.
  intros HR Hd Hs. pose proof (reach_inv HE _ _ HR) as HW.
  assert (Hg : exists p, hnd w' (length (w_h w)) = Some p /\ forall q, newn (s_heap (w_s w)) (s_heap (w_s w')) q -> subnode (w_s w') p q).
  { destruct o; try done; cbn [step] in Hs; unfold with2, with1 in Hs; repeat (case_match; [|done]);
      (eapply newh_new; [exact HW| | |exact Hs]); unfold op_and, op_or, op_xor, op_not;
      repeat lazymatch goal with
      | |- kp (via_mgr _ _) => apply kp_via
      | |- ngk _ (via_mgr _ _) => apply ngk_via
      | |- kp (ret _) => apply kp_ret
      | |- ngk _ (ret _) => apply ngk_nil, kd_ret
      | |- kp (low _) => apply kp_low
      | |- ngk _ (low _) => apply ngk_nil, kd_low
      | |- kp (high _) => apply kp_high
      | |- ngk _ (high _) => apply ngk_nil, kd_high
      | |- kp (projection _) => apply (kp_proj HE)
      | |- ngk _ (projection _) => apply ngk_proj
      | |- kp (neg_projection _) => apply (kp_nproj HE)
      | |- ngk _ (neg_projection _) => apply ngk_nproj
      | |- kp (negate _) => apply (kp_negate HE)
      | |- ngk _ (negate _) => apply ngk_negate
      | |- kp (mgr_unique_find _ _ _) => apply (kp_muf HE)
      | |- ngk _ (mgr_unique_find _ _ _) => apply ngk_muf
      | |- kp (and_rec _ _) => apply (kp_and HE)
      | |- ngk _ (and_rec _ _) => apply ngk_and
      | |- kp (or_rec _ _) => apply (kp_or HE)
      | |- ngk _ (or_rec _ _) => apply ngk_or
      | |- kp (xor_rec _ _) => apply (kp_xor HE)
      | |- ngk _ (xor_rec _ _) => apply ngk_xor
      | |- kp (ite_rec _ _ _) => apply (kp_ite HE)
      | |- ngk _ (ite_rec _ _ _) => apply ngk_ite
      end. }
  destruct Hg as (p&Hp&Hq). exists p. split; [done|]. intros q n H1 H2. apply Hq. split; eauto.
Qed.
(** the manager's number of nodes *)
Lemma mgr_size md w : reach md w -> mgr_nr_nodes (w_s w) = N.of_nat (size (s_heap (w_s w))).
Proof.
  intros HR. pose proof (reach_inv HE _ _ HR) as HW. destruct (i_nc _ _ _ HW) as (_&_&_&_&H5&_). unfold mgr_nr_nodes. lia.
Qed.
Lemma size_le_app (h h' : heap) (l : list ptr) : (forall q n, h' !! q = Some n -> is_Some (h !! q) \/ q ∈ l) -> (size h' <= size h + length l)%nat.
Proof.
  intros Hq. rewrite <- !(size_dom (D := gset N)). unfold size, set_size. cbn. rewrite <- app_length.
  apply submseteq_length, NoDup_submseteq; [apply NoDup_elements|]. intros q [n Hn]%elem_of_elements%elem_of_dom.
  apply elem_of_app. destruct (Hq q n Hn) as [Hi|]; [left|by right]. by apply elem_of_elements, elem_of_dom.
Qed.
Lemma reach_dir md w o r w' : reach md w -> allowed md w o -> step o w = WOk r w' -> reach md w'.
Proof. intros. by eapply reach_step. Qed.
Theorem C73_growth md w o r w' n : reach md w -> allowed md w o -> direct o = true -> step o w = WOk r w' ->
  nnodes w' (length (w_h w)) n -> mgr_nr_nodes (w_s w') <= mgr_nr_nodes (w_s w) + N.of_nat n.
Proof.
  intros HR Ha Hd Hs (p&l&Hp&_&Hnd&Hin&<-). destruct (C73_no_garbage _ _ _ _ _ HR Hd Hs) as (p'&Hp'&Hq).
  assert (p' = p) as -> by congruence. rewrite (mgr_size _ _ HR), (mgr_size md w') by (by eapply reach_step).
  enough (size (s_heap (w_s w')) <= size (s_heap (w_s w)) + length l)%nat by lia.
  apply size_le_app. intros q n Hqn. destruct (s_heap (w_s w) !! q) as [n0|] eqn:Hq0; [left; eauto|]. right. apply Hin. by eapply Hq.
Qed.

(** ** Nodes created by a call that throws *)
Definition Jb (op : bool -> bool -> bool) (tf tg : bdd) (phi : bfun) : Prop :=
  exists a b, subt a tf /\ subt b tg /\ forall r, phi r = op (evalt a r) (evalt b r).
(** the nodes created since [s] have functions in [J]; the heap is that of a well-formed state *)
Definition grown md H (s s' : mstate) (J : bfun -> Prop) : Prop :=
  exists s0, Inv md H s0 /\ ext s s0 /\ s_heap s' = s_heap s0 /\
    forall p, newn (s_heap s) (s_heap s0) p -> exists t, repr (s_heap s0) p t /\ J (evalt t).
Lemma Jb_sub op tf tg tf' tg' phi : subt tf' tf -> subt tg' tg -> Jb op tf' tg' phi -> Jb op tf tg phi.
Proof. intros H1 H2 (a&b&?&?&?). exists a, b. split_and!; eauto using subt_trans. Qed.
Lemma grown_mono md H s s' (J J' : bfun -> Prop) : (forall phi, J phi -> J' phi) -> grown md H s s' J -> grown md H s s' J'.
Proof. intros HJ (s0&?&?&?&Hn). exists s0. split_and!; auto. intros p Hp. destruct (Hn p Hp) as (t&?&?). eauto. Qed.
Lemma grown_trans md H s s1 s' J : ext s s1 ->
  (forall p, newn (s_heap s) (s_heap s1) p -> exists t, repr (s_heap s1) p t /\ J (evalt t)) -> grown md H s1 s' J -> grown md H s s' J.
Proof.
  intros He H1 (s0&HI&He1&Hh&H2). exists s0. split_and!; auto; [by eapply ext_trans|]. intros p Hp.
  destruct (newn_split _ (s_heap s1) _ _ Hp) as [Hp1|Hp1]; [|by apply H2].
  destruct (H1 p Hp1) as (t&Ht&HJ). exists t. split; [|done]. by eapply repr_ext_s.
Qed.
Lemma cof_sub v b t : subt (cof v b t) t.
Proof. destruct t as [x|w l h]; simpl; [by left|]. destruct (v =? w); [|by left]. right. destruct b; [right|left]; apply subt_refl. Qed.
Lemma sub_J op tf tg t u : ordt 0 tf -> ordt 0 tg -> ordt 0 t -> (forall r, evalt t r = op (evalt tf r) (evalt tg r)) ->
  subt u t -> (exists v l h, u = Br v l h) -> Jb op tf tg (evalt u).
Proof.
  intros Hf Hg Ht Hop Hu (v&l&h&->). destruct (sub_cofactor _ _ _ _ Ht Hu) as [r0 Hc].
  exists (walk r0 v tf), (walk r0 v tg). split_and!; [apply walk_sub..|]. intros r. rewrite Hc, Hop.
  by rewrite (walk_eval _ _ tf 0), (walk_eval _ _ tg 0).
Qed.
Lemma okJ md H s s1 m r op f g tf tg : md_ord md = true -> Inv md H s -> Inv md H s1 -> ngk [] m -> m s = Ok r s1 ->
  repr (s_heap s) f tf -> repr (s_heap s) g tg -> den s1 r (fun x => op (evalt tf x) (evalt tg x)) ->
  forall p, newn (s_heap s) (s_heap s1) p -> exists t, repr (s_heap s1) p t /\ Jb op tf tg (evalt t).
Proof.
  intros Ho HI HI1 Hm Hr Hf Hg (tr&Htr&Hx) p Hp.
  specialize (Hm _ _ (inv_sk _ _ _ HI) (i_nc _ _ _ HI) (skel_refl _)). rewrite Hr in Hm.
  assert (Hsub : subnode s1 r p) by (apply Hm; [intros q Hq; by apply newn_none in Hq|done]).
  apply subnode_reach in Hsub. destruct (reach_in_sub _ _ _ _ Htr Hsub) as (t&Ht&Hst). exists t. split; [done|].
  assert (Hns : ~ sink p).
  { intros Hs. destruct Hp as [_ Hn]. destruct (inv_sk _ _ _ HI p Hs) as (n&Hn'&_). congruence. }
  destruct (repr_nonsink _ _ _ Ht Hns) as (n&tl&th&_&->&_).
  eapply (sub_J op tf tg tr); eauto; (eapply ho_ord; [|done|eauto]); [apply HI|apply HI|apply HI1].
Qed.
Lemma bind_okc {A B} (m : M A) (k : A -> M B) s r s' : bind m k s = Ok r s' -> exists a s1, m s = Ok a s1 /\ k a s1 = Ok r s'.
Proof. unfold bind. destruct (m s) as [a s1|e1 s1]; [eauto|done]. Qed.
Lemma bind_fail {A B} (m : M A) (k : A -> M B) s e s' : bind m k s = Fail e s' ->
  m s = Fail e s' \/ exists a s1, m s = Ok a s1 /\ k a s1 = Fail e s'.
Proof. unfold bind. destruct (m s) as [a s1|e1 s1]; [eauto|]. intros [= -> ->]. by left. Qed.
Lemma shannon_fail md H s op rec v f g nf ng lf hf lg hg k s' : md_ord md = true -> Inv md H s -> ~ sink f -> ~ sink g ->
  s_heap s !! f = Some nf -> s_heap s !! g = Some ng ->
  repr (s_heap s) (n_lo nf) lf -> repr (s_heap s) (n_hi nf) hf ->
  repr (s_heap s) (n_lo ng) lg -> repr (s_heap s) (n_hi ng) hg ->
  let tf := Br (n_idx nf) lf hf in let tg := Br (n_idx ng) lg hg in
  (v = n_idx nf \/ v = n_idx ng) ->
  (forall s0 f' g' tf' tg', Inv md H s0 -> repr (s_heap s0) f' tf' -> repr (s_heap s0) g' tg' ->
     (ht tf' + ht tg' < ht tf + ht tg)%nat ->
     sat (rec f' g') s0 (post md H s0 (fun r => op (evalt tf' r) (evalt tg' r))) /\
     forall s', rec f' g' s0 = Fail EThrow s' -> grown md H s0 s' (Jb op tf' tg')) ->
  (forall f' g', ngk [] (rec f' g')) -> (forall r, ntM (k r)) ->
  shannon rec v (n_idx nf) (n_idx ng) f g k s = Fail EThrow s' -> grown md H s s' (Jb op tf tg).
Proof.
  intros Ho HI Hsf Hsg Hnf Hng Hlf Hhf Hlg Hhg tf tg Hv Hrec Hng' Hk Hs.
  set (cp := fun b (p : ptr) (n : node) => if v =? n_idx n then (if b : bool then n_hi n else n_lo n) else p).
  assert (Hrf : repr (s_heap s) f tf) by (by constructor).
  assert (Hrg : repr (s_heap s) g tg) by (by constructor).
  assert (Hcf : forall b, repr (s_heap s) (cp b f nf) (cof v b tf)).
  { intros b. unfold cp, tf; simpl. destruct (v =? n_idx nf); [by destruct b|done]. }
  assert (Hcg : forall b, repr (s_heap s) (cp b g ng) (cof v b tg)).
  { intros b. unfold cp, tg; simpl. destruct (v =? n_idx ng); [by destruct b|done]. }
  assert (Hht : forall b, (ht (cof v b tf) + ht (cof v b tg) < ht tf + ht tg)%nat).
  { intros b. pose proof (ht_cof v b tf). pose proof (ht_cof v b tg).
    destruct Hv as [Hv|Hv].
    - pose proof (ht_cof_lt v b lf hf) as Hlt. unfold tf in *. rewrite <- Hv in *. lia.
    - pose proof (ht_cof_lt v b lg hg) as Hlt. unfold tg in *. rewrite <- Hv in *. lia. }
  assert (HJ : forall b phi, Jb op (cof v b tf) (cof v b tg) phi -> Jb op tf tg phi) by (intros b phi; apply Jb_sub; apply cof_sub).
  unfold shannon in Hs.
  rewrite (bind_eq _ _ _ _ _ (low_cof md H s f nf lf hf v HI Hnf Hlf Hhf)) in Hs.
  rewrite (bind_eq _ _ _ _ _ (low_cof md H s g ng lg hg v HI Hng Hlg Hhg)) in Hs.
  destruct (Hrec s _ _ _ _ HI (Hcf false) (Hcg false) (Hht false)) as [Hok Hfl].
  apply bind_fail in Hs as [Hs|(r0&s1&Hr0&Hs)]; [eapply grown_mono; [apply (HJ false)|by apply Hfl]|].
  change (rec (cp false f nf) (cp false g ng) s = Ok r0 s1) in Hr0. unfold sat in Hok. rewrite Hr0 in Hok. destruct Hok as (HI1&He1&Hd0).
  assert (Hn1 : forall p, newn (s_heap s) (s_heap s1) p -> exists t, repr (s_heap s1) p t /\ Jb op tf tg (evalt t)).
  { intros p Hp. destruct (okJ md H s s1 _ r0 op _ _ _ _ Ho HI HI1 (Hng' _ _) Hr0 (Hcf false) (Hcg false) Hd0 p Hp) as (t&Ht&HJt).
    exists t. split; [done|]. by eapply HJ. }
  eapply grown_trans; [exact He1|exact Hn1|]. clear Hn1 Hfl.
  apply bind_fail in Hs as [Hs|(u1&s1'&Hu1&Hs)]; [by apply (ntM_liftR _ (nt_assert _)) in Hs|].
  apply liftR_ok in Hu1 as [_ ->].
  destruct (proj1 He1 _ _ Hnf) as (nf1&Hnf1&Hc1&Hc2&Hc3&_). destruct (proj1 He1 _ _ Hng) as (ng1&Hng1&Hd1&Hd2&Hd3&_).
  assert (Hhi : forall p n n1 tl th, s_heap s1 !! p = Some n1 -> n_idx n = n_idx n1 -> n_hi n = n_hi n1 -> n_lo n = n_lo n1 ->
      repr (s_heap s) (n_lo n) tl -> repr (s_heap s) (n_hi n) th ->
      (if v =? n_idx n then high p else ret p) s1 = Ok (cp true p n) s1).
  { intros p n n1 tl th Hp Hi Hhi Hlo Htl Hth. unfold cp. rewrite Hi, Hhi.
    eapply high_cof; [exact HI1|exact Hp|rewrite <- Hlo|rewrite <- Hhi]; eapply repr_ext_s; eauto. }
  rewrite (bind_eq _ _ _ _ _ (Hhi f nf nf1 _ _ Hnf1 Hc3 Hc2 Hc1 Hlf Hhf)) in Hs.
  rewrite (bind_eq _ _ _ _ _ (Hhi g ng ng1 _ _ Hng1 Hd3 Hd2 Hd1 Hlg Hhg)) in Hs.
  pose proof (repr_ext_s _ _ _ _ He1 (Hcf true)) as Hcf1. pose proof (repr_ext_s _ _ _ _ He1 (Hcg true)) as Hcg1.
  destruct (Hrec s1 _ _ _ _ HI1 Hcf1 Hcg1 (Hht true)) as [Hok Hfl].
  apply bind_fail in Hs as [Hs|(r1&s2&Hr1&Hs)]; [eapply grown_mono; [apply (HJ true)|by apply Hfl]|].
  unfold sat in Hok. rewrite Hr1 in Hok. destruct Hok as (HI2&He2&Hd0').
  eapply grown_trans; [exact He2| |].
  { intros p Hp. destruct (okJ md H s1 s2 _ r1 op _ _ _ _ Ho HI1 HI2 (Hng' _ _) Hr1 Hcf1 Hcg1 Hd0' p Hp) as (t&Ht&HJt).
    exists t. split; [done|]. by eapply HJ. }
  apply bind_fail in Hs as [Hs|(u2&s2'&Hu2&Hs)]; [by apply (ntM_liftR _ (nt_assert _)) in Hs|].
  apply liftR_ok in Hu2 as [_ ->].
  apply bind_fail in Hs as [Hs|(r&s3&Hr&Hs)]; [|by apply Hk in Hs].
  apply uf_fail in Hs. exists s2. split_and!; auto using ext_refl. intros p Hp. by apply newn_none in Hp.
Qed.

Lemma nt_cache_hash h f g hh : nt (cache_hash h f g hh).
Proof. unfold cache_hash. apply nt_bind; [apply nt_deref|intros]. apply nt_bind; [apply nt_assert|intros]. by apply nt_bind; [apply nt_deref|intros]. Qed.
Lemma nt_memo_slot mc k : nt (memo_slot mc k).
Proof. unfold memo_slot. apply nt_bind; [apply nt_assert|intros]. apply nt_bind; [apply nt_assert|intros]. by case_match. Qed.
Lemma nt_memo_rehash h ks : forall mc occ, nt (memo_rehash h ks mc occ).
Proof.
  induction ks as [|k ks IH]; intros mc occ; cbn [memo_rehash]; [done|]. case_match; [apply IH|].
  apply nt_bind; [apply nt_cache_hash|intros]. apply nt_bind; [apply nt_memo_slot|intros]. case_match; apply IH.
Qed.
Lemma nt_memo_double h mc : nt (memo_double h mc).
Proof.
  unfold memo_double. case_match; [done|]. apply nt_bind; [apply nt_assert|intros]. apply nt_bind; [apply nt_memo_rehash|]. by intros [].
Qed.
Lemma ntM_insert f g h r : ntM (cache_insert f g h r).
Proof.
  unfold cache_insert. repeat lazymatch goal with
  | |- ntM (bind _ _) => apply ntM_bind; [|intros ?]
  | |- ntM (liftR (cache_hash _ _ _ _)) => apply ntM_liftR, nt_cache_hash
  | |- ntM (liftR (memo_slot _ _)) => apply ntM_liftR, nt_memo_slot
  | |- ntM (liftR (memo_double _ _)) => apply ntM_liftR, nt_memo_double
  | |- ntM (liftR (if ?b then _ else _)) => destruct b
  | |- ntM (liftR (inr _)) => by apply ntM_liftR
  | |- ntM (match ?x with _ => _ end) => destruct x
  | |- ntM (let _ := _ in _) => cbv zeta
  | |- ntM (set_memo _) => by intros ? ?
  | |- ntM (ret _) => by intros ? ?
  | |- ntM get => by intros ? ?
  end.
Qed.
Lemma Jb_comm op tf tg phi : (forall a b, op a b = op b a) -> Jb op tg tf phi -> Jb op tf tg phi.
Proof. intros Hc (a&b&?&?&Hx). exists b, a. split_and!; auto. intros r. by rewrite Hx, Hc. Qed.
Lemma and_fail md H fuel : md_ord md = true -> forall s f g tf tg s', Inv md H s -> repr (s_heap s) f tf -> repr (s_heap s) g tg ->
  (2 * (ht tf + ht tg) + swp f g < fuel)%nat -> and_fuel fuel f g s = Fail EThrow s' -> grown md H s s' (Jb andb tf tg).
Proof.
  intros Ho. induction fuel as [|fuel IH]; intros s f g tf tg s' HI Hf Hg Hfu Hs; [lia|]. cbn [and_fuel] in Hs. unfold swp in Hfu.
  destruct (N.eqb_spec f g) as [->|Hfg]; [done|].
  destruct (N.ltb_spec g f) as [Hlt|Hge].
  { eapply grown_mono; [intros phi; apply Jb_comm, andb_comm|]. apply (IH s g f tg tf s'); auto. unfold swp. destruct (N.ltb_spec f g); lia. }
  destruct (N.eqb_spec f topsink) as [->|Hft]; [done|]. destruct (N.eqb_spec f botsink) as [->|Hfb]; [done|].
  destruct (N.eqb_spec g topsink) as [->|Hgt]; [done|]. destruct (N.eqb_spec g botsink) as [->|Hgb]; [done|].
  destruct (cache_lookup_spec HE md H s f g and_symb tf tg HI Hf Hg) as (m&Hm&Hcase).
  rewrite (bind_eq _ _ _ _ _ Hm) in Hs.
  destruct Hcase as [->|(Hm0&tf'&tg'&tr&Hf'&Hg'&Hr&Hsem&_)]; cbn [negb N.eqb] in Hs.
  2:{ apply N.eqb_neq in Hm0. rewrite Hm0 in Hs. simpl in *. rewrite (touch_repr _ _ _ _ _ HI Hr) in Hs. done. }
  assert (Hsf : ~ sink f) by (unfold sink; tauto). assert (Hsg : ~ sink g) by (unfold sink; tauto).
  destruct (repr_nonsink _ _ _ Hf Hsf) as (nf&lf&hf&Hnf&->&Hlf&Hhf).
  destruct (repr_nonsink _ _ _ Hg Hsg) as (ng&lg&hg&Hng&->&Hlg&Hhg).
  pose proof (i_heap _ _ _ HI) as Hh.
  destruct (ho_node _ _ _ Hh _ _ Hnf Hsf) as [Hvf _]. destruct (ho_node _ _ _ Hh _ _ Hng Hsg) as [Hvg _].
  rewrite (bind_eq _ _ _ _ _ (variable_eq _ _ _ Hnf)), (bind_eq _ _ _ _ _ (variable_eq _ _ _ Hng)) in Hs.
  destruct (lookup_lt_is_Some_2 (s_vars s) (N.to_nat (n_idx nf))) as [vf Hvf']; [lia|].
  destruct (lookup_lt_is_Some_2 (s_vars s) (N.to_nat (n_idx ng))) as [vg Hvg']; [lia|].
  rewrite (bind_eq _ _ _ _ _ (getV_eq _ _ _ Hvf')), (bind_eq _ _ _ _ _ (getV_eq _ _ _ Hvg')) in Hs.
  eapply (shannon_fail md H s andb (and_fuel fuel) _ f g nf ng lf hf lg hg
    (fun r => assert_ (negb (r =? 0)) ;;* cache_insert f g and_symb r ;;* ret r)); [..|exact Hs]; auto.
  - destruct (n_idx nf <? n_idx ng); auto.
  - intros s0 f' g' tf' tg' HI0 Hf0 Hg0 Hlt.
    assert (Hfu' : (2 * (ht tf' + ht tg') + swp f' g' < fuel)%nat) by (clear Hs; unfold swp; simpl in *; case_match; lia).
    split; [by apply and_fuel_spec|]. intros s1. by apply IH.
  - apply ngk_and_fuel.
  - intros r. apply ntM_bind; [apply ntM_liftR, nt_assert|intros _]. apply ntM_bind; [apply ntM_insert|intros _]. by intros ? ?.
Qed.
Lemma or_fail md H fuel : md_ord md = true -> forall s f g tf tg s', Inv md H s -> repr (s_heap s) f tf -> repr (s_heap s) g tg ->
  (2 * (ht tf + ht tg) + swp f g < fuel)%nat -> or_fuel fuel f g s = Fail EThrow s' -> grown md H s s' (Jb orb tf tg).
Proof.
  intros Ho. assert (Hor : md_or md = true) by (by destruct md). assert (Hxor : md_xor md = false) by (by destruct md).
  induction fuel as [|fuel IH]; intros s f g tf tg s' HI Hf Hg Hfu Hs; [lia|]. cbn [or_fuel] in Hs. unfold swp in Hfu.
  destruct (N.eqb_spec f g) as [->|Hfg]; [done|].
  destruct (N.ltb_spec g f) as [Hlt|Hge].
  { eapply grown_mono; [intros phi; apply Jb_comm, orb_comm|]. apply (IH s g f tg tf s'); auto. unfold swp. destruct (N.ltb_spec f g); lia. }
  destruct (N.eqb_spec f topsink) as [->|Hft]; [done|]. destruct (N.eqb_spec f botsink) as [->|Hfb]; [done|].
  destruct (N.eqb_spec g topsink) as [->|Hgt]; [done|]. destruct (N.eqb_spec g botsink) as [->|Hgb]; [done|].
  destruct (cache_lookup_spec HE md H s f g or_symb tf tg HI Hf Hg) as (m&Hm&Hcase).
  rewrite (bind_eq _ _ _ _ _ Hm) in Hs.
  destruct Hcase as [->|(Hm0&tf'&tg'&tr&Hf'&Hg'&Hr&Hsem&_)]; cbn [negb N.eqb] in Hs.
  2:{ apply N.eqb_neq in Hm0. rewrite Hm0 in Hs. simpl in *. rewrite (touch_repr _ _ _ _ _ HI Hr) in Hs. done. }
  assert (Hsf : ~ sink f) by (unfold sink; tauto). assert (Hsg : ~ sink g) by (unfold sink; tauto).
  destruct (repr_nonsink _ _ _ Hf Hsf) as (nf&lf&hf&Hnf&->&Hlf&Hhf).
  destruct (repr_nonsink _ _ _ Hg Hsg) as (ng&lg&hg&Hng&->&Hlg&Hhg).
  pose proof (i_heap _ _ _ HI) as Hh.
  destruct (ho_node _ _ _ Hh _ _ Hnf Hsf) as [Hvf _]. destruct (ho_node _ _ _ Hh _ _ Hng Hsg) as [Hvg _].
  rewrite (bind_eq _ _ _ _ _ (variable_eq _ _ _ Hnf)), (bind_eq _ _ _ _ _ (variable_eq _ _ _ Hng)) in Hs.
  destruct (lookup_lt_is_Some_2 (s_vars s) (N.to_nat (n_idx nf))) as [vf Hvf']; [lia|].
  destruct (lookup_lt_is_Some_2 (s_vars s) (N.to_nat (n_idx ng))) as [vg Hvg']; [lia|].
  rewrite (bind_eq _ _ _ _ _ (getV_eq _ _ _ Hvf')), (bind_eq _ _ _ _ _ (getV_eq _ _ _ Hvg')) in Hs.
  eapply (shannon_fail md H s orb (or_fuel fuel) _ f g nf ng lf hf lg hg
    (fun r => (if negb (r =? 0) then cache_insert f g or_symb r else ret tt) ;;* ret r)); [..|exact Hs]; auto.
  - destruct (n_idx nf <? n_idx ng); auto.
  - intros s0 f' g' tf' tg' HI0 Hf0 Hg0 Hlt.
    assert (Hfu' : (2 * (ht tf' + ht tg') + swp f' g' < fuel)%nat) by (clear Hs; unfold swp; simpl in *; case_match; lia).
    split; [|intros s1; by apply IH]. eapply sat_mono; [by apply or_fuel_spec|]. intros r s1. by apply postp_post.
  - apply ngk_or_fuel.
  - intros r. apply ntM_bind; [|intros _; by intros ? ?]. destruct (negb _); [apply ntM_insert|by intros ? ?].
Qed.

(** negation: as a binary operation that ignores its second argument *)
Notation nop := (fun a _ : bool => negb a).
Lemma negate_fail md H fuel : md_ord md = true -> forall s p t s', Inv md H s -> repr (s_heap s) p t -> (ht t < fuel)%nat ->
  negate_fuel fuel p s = Fail EThrow s' -> grown md H s s' (Jb nop t t).
Proof.
  intros Ho. induction fuel as [|fuel IH]; intros s p t s' HI Hp Hfu Hs; [lia|]. cbn [negate_fuel] in Hs.
  rewrite (bind_eq _ _ _ _ _ (is_botsink_eq _ _ _ _ _ HI Hp)) in Hs. case_bool_decide as Hb; [done|].
  rewrite (bind_eq _ _ _ _ _ (is_topsink_eq _ _ _ _ _ HI Hp)) in Hs. case_bool_decide as Ht; [done|].
  assert (Hsk : ~ sink p) by (unfold sink; tauto).
  destruct (repr_nonsink _ _ _ Hp Hsk) as (n&tl&th&Hn&->&Hl&Hr). cbn [ht] in Hfu.
  rewrite (bind_eq _ _ _ _ _ (variable_eq _ _ _ Hn)) in Hs. unfold get at 1 in Hs. cbn [bind] in Hs.
  pose proof (i_heap _ _ _ HI) as Hh. destruct (ho_node _ _ _ Hh _ _ Hn Hsk) as [Hv _].
  apply bind_fail in Hs as [Hs|(u1&s0&Hu1&Hs)]; [by apply (ntM_liftR _ (nt_assert _)) in Hs|]. apply liftR_ok in Hu1 as [_ ->].
  (** one recursive call, from a later state *)
  assert (Hch : forall b s0, Inv md H s0 -> ext s s0 ->
    let c := let* q := (if b : bool then high p else low p) in negate_fuel fuel q in
    (forall s1, c s0 = Fail EThrow s1 -> grown md H s0 s1 (Jb nop (Br (n_idx n) tl th) (Br (n_idx n) tl th))) /\
    (forall r s1, c s0 = Ok r s1 -> Inv md H s1 /\ ext s0 s1 /\
       forall q, newn (s_heap s0) (s_heap s1) q -> exists t, repr (s_heap s1) q t /\ Jb nop (Br (n_idx n) tl th) (Br (n_idx n) tl th) (evalt t))).
  { intros b s0 HI0 He0 c. destruct (proj1 He0 _ _ Hn) as (n0&Hn0&Hlo&Hhi&Hix&_).
    pose proof (repr_ext_s _ _ _ _ He0 Hl) as Hl0. pose proof (repr_ext_s _ _ _ _ He0 Hr) as Hr0.
    set (tc := if b then th else tl). set (q := if b then n_hi n else n_lo n).
    assert (Hq : repr (s_heap s0) q tc) by (unfold q, tc; by destruct b).
    assert (Hc : c s0 = negate_fuel fuel q s0).
    { unfold c, q. destruct b.
      - rewrite Hhi. apply bind_eq. eapply (high_eq md H s0 p n0 th); eauto. by rewrite <- Hhi.
      - rewrite Hlo. apply bind_eq. eapply (low_eq md H s0 p n0 tl); eauto. by rewrite <- Hlo. }
    assert (Hlt : (ht tc < fuel)%nat) by (unfold tc; destruct b; lia).
    assert (Hst : subt tc (Br (n_idx n) tl th)) by (right; unfold tc; destruct b; [right|left]; apply subt_refl).
    pose proof (negate_fuel_spec HE md H fuel s0 q tc HI0 Hq Hlt) as Hok. split.
    - intros s1 H1. rewrite Hc in H1. eapply grown_mono; [|by eapply IH]. intros phi. by apply Jb_sub.
    - intros r s1 H1. rewrite Hc in H1. unfold sat in Hok. rewrite H1 in Hok. destruct Hok as (HI1&He1&Hd). split_and!; auto.
      intros q' Hq'. destruct (okJ md H s0 s1 _ r nop _ _ _ _ Ho HI0 HI1 (ngk_negate_fuel _ _) H1 Hq Hq Hd q' Hq') as (t&Hrt&HJ).
      exists t. split; [done|]. by eapply Jb_sub. }
  assert (Huf : forall v l h s1 s2, unique_find_v v l h s1 = Fail EThrow s2 -> Inv md H s1 -> forall J, grown md H s1 s2 J).
  { intros v l h s1 s2 H1 HI1 J. apply uf_fail in H1. exists s1. split_and!; auto using ext_refl. intros q Hq. by apply newn_none in Hq. }
  apply bind_fail in Hs as [Hs|([l h]&s2&Hr2&Hs)].
  - unfold args2 in Hs. destruct e_rtl.
    + apply bind_fail in Hs as [Hs|(y&s1&H1&Hs)]; [by apply (Hch true s HI (ext_refl _))|].
      destruct (proj2 (Hch true s HI (ext_refl _)) _ _ H1) as (HI1&He1&Hn1).
      eapply grown_trans; [exact He1|exact Hn1|].
      apply bind_fail in Hs as [Hs|(x&s2&H2&Hs)]; [by apply (Hch false s1 HI1 He1)|done].
    + apply bind_fail in Hs as [Hs|(y&s1&H1&Hs)]; [by apply (Hch false s HI (ext_refl _))|].
      destruct (proj2 (Hch false s HI (ext_refl _)) _ _ H1) as (HI1&He1&Hn1).
      eapply grown_trans; [exact He1|exact Hn1|].
      apply bind_fail in Hs as [Hs|(x&s2&H2&Hs)]; [by apply (Hch true s1 HI1 He1)|done].
  - unfold args2 in Hr2. destruct e_rtl.
    + apply bind_okc in Hr2 as (y&s1&H1&Hr2). destruct (proj2 (Hch true s HI (ext_refl _)) _ _ H1) as (HI1&He1&Hn1).
      apply bind_okc in Hr2 as (x&s2'&H2&Hr2). injection Hr2 as <- <- <-. destruct (proj2 (Hch false s1 HI1 He1) _ _ H2) as (HI2&He2&Hn2).
      eapply grown_trans; [exact He1|exact Hn1|]. eapply grown_trans; [exact He2|exact Hn2|]. by eapply Huf.
    + apply bind_okc in Hr2 as (y&s1&H1&Hr2). destruct (proj2 (Hch false s HI (ext_refl _)) _ _ H1) as (HI1&He1&Hn1).
      apply bind_okc in Hr2 as (x&s2'&H2&Hr2). injection Hr2 as <- <- <-. destruct (proj2 (Hch true s1 HI1 He1) _ _ H2) as (HI2&He2&Hn2).
      eapply grown_trans; [exact He1|exact Hn1|]. eapply grown_trans; [exact He2|exact Hn2|]. by eapply Huf.
Qed.

(** ** Counting them *)
Lemma grown_count {B} md H s s' J (C : list B) (Q : bfun -> B -> Prop) : md_ord md = true -> Inv md H s -> grown md H s s' J ->
  (forall t, ordt 0 t -> redt t -> (exists v l h, t = Br v l h) -> J (evalt t) -> exists c, c ∈ C /\ Q (evalt t) c) ->
  (forall phi phi' c, Q phi c -> Q phi' c -> forall r, phi r = phi' r) ->
  (size (s_heap s') <= size (s_heap s) + length C)%nat.
Proof.
  intros Ho HI (s0&HI0&He&->&Hn) HC HQ.
  set (L := elements (dom (s_heap s0) ∖ dom (s_heap s))).
  assert (HL : forall p, p ∈ L <-> newn (s_heap s) (s_heap s0) p).
  { intros p. unfold L, newn. by rewrite elem_of_elements, elem_of_difference, elem_of_dom, not_elem_of_dom. }
  assert (Hle : (length L <= length C)%nat).
  { apply (count_inj L C (fun p c => exists t, repr (s_heap s0) p t /\ Q (evalt t) c)); [apply NoDup_elements| |].
    - intros p Hp%HL. destruct (Hn p Hp) as (t&Ht&HJ).
      assert (Hns : ~ sink p).
      { intros Hs. destruct Hp as [_ Hn0]. destruct (inv_sk _ _ _ HI p Hs) as (n&Hn'&_). congruence. }
      destruct (HC t) as (c&Hc&Hq); eauto.
      + eapply ho_ord; [apply HI0|done|eauto].
      + eapply repr_redt; [apply HI0|eauto].
      + destruct (repr_nonsink _ _ _ Ht Hns) as (n&tl&th&_&->&_). eauto.
    - intros p q c _ _ (t&Ht&Hc) (t'&Ht'&Hc'). eapply (repr_canon _ _ _ _ _ _ _ (i_heap _ _ _ HI0) Ho Ht Ht'). by eapply HQ. }
  rewrite <- !(size_dom (D := gset N)). enough (size (dom (s_heap s0)) <= size (dom (s_heap s)) + length L)%nat by lia.
  change (length L) with (size (dom (s_heap s0) ∖ dom (s_heap s))).
  rewrite <- size_union by set_solver. apply subseteq_size. intros p Hp. destruct (decide (p ∈ dom (s_heap s))); set_solver.
Qed.
Lemma sub_inn ts t a : inn ts t -> subt a t -> a ∈ ts \/ exists b, a = Leaf b.
Proof. intros [_ Hin] Hs. destruct a as [b|v l h]; [by right; eauto|]. left. apply Hin. eauto. Qed.
Lemma nonconst t b : ordt 0 t -> redt t -> (exists v l h, t = Br v l h) -> ~ (forall r, evalt t r = b).
Proof. intros Ho Hr (v&l&h&->) Hc. assert (Br v l h = Leaf b); [|done]. by apply canon. Qed.
Lemma bin_grown md H s s' op e tf tg tsf tsg : md_ord md = true -> Inv md H s ->
  (forall b, op e b = b) -> (forall b, op b e = b) -> (forall b, op (negb e) b = negb e) -> (forall b, op b (negb e) = negb e) ->
  inn tsf tf -> inn tsg tg -> grown md H s s' (Jb op tf tg) ->
  (size (s_heap s') + 1 <= size (s_heap s) + (length tsf + 1) * (length tsg + 1))%nat.
Proof.
  intros Ho HI He1 He2 Ha1 Ha2 Hf Hg Hgr.
  set (C := list_prod [Leaf e] tsg ++ list_prod tsf (Leaf e :: tsg)).
  assert (HC : (length C + 1 = (length tsf + 1) * (length tsg + 1))%nat).
  { unfold C. rewrite app_length, !prod_length. simpl. lia. }
  rewrite <- HC. enough (size (s_heap s') <= size (s_heap s) + length C)%nat by lia.
  eapply (grown_count md H s s' _ C (fun phi c => forall r, phi r = op (evalt c.1 r) (evalt c.2 r))); [exact Ho|exact HI|exact Hgr| |intros phi phi' c H1 H2 r; by rewrite H1, H2].
  intros t Hot Hrt Hbr (a&b&Ha&Hb&Hx). exists (a, b). split; [|done].
  assert (Hb1 : forall x, a = Leaf x -> x = e).
  { intros x ->. destruct (decide (x = e)) as [|Hne]; [done|]. exfalso. assert (x = negb e) as -> by (by destruct x, e).
    apply (nonconst t (negb e)); auto. intros r. rewrite Hx. apply Ha1. }
  assert (Hb2 : forall x, b = Leaf x -> x = e).
  { intros x ->. destruct (decide (x = e)) as [|Hne]; [done|]. exfalso. assert (x = negb e) as -> by (by destruct x, e).
    apply (nonconst t (negb e)); auto. intros r. rewrite Hx. apply Ha2. }
  unfold C. apply elem_of_app. rewrite !elem_of_list_In, !in_prod_iff, <- !elem_of_list_In, elem_of_list_singleton, elem_of_cons.
  destruct (sub_inn _ _ _ Hf Ha) as [Hw1|[b1 ->]], (sub_inn _ _ _ Hg Hb) as [Hw2|[b2 ->]].
  - auto.
  - right. rewrite (Hb2 _ eq_refl). auto.
  - left. rewrite (Hb1 _ eq_refl). auto.
  - exfalso. apply (nonconst t e); auto. intros r. rewrite Hx, (Hb1 _ eq_refl), (Hb2 _ eq_refl). simpl. apply He1.
Qed.
Lemma neg_grown md H s s' t ts : md_ord md = true -> Inv md H s -> inn ts t -> grown md H s s' (Jb nop t t) ->
  (size (s_heap s') <= size (s_heap s) + length ts)%nat.
Proof.
  intros Ho HI Hi Hgr. eapply (grown_count md H s s' _ ts (fun phi c => forall r, phi r = negb (evalt c r))); [exact Ho|exact HI|exact Hgr| |intros phi phi' c H1 H2 r; by rewrite H1, H2].
  intros u Hou Hru Hbr (a&b&Ha&_&Hx). exists a. split; [|done]. destruct (sub_inn _ _ _ Hi Ha) as [|[x ->]]; [done|].
  exfalso. apply (nonconst u (negb x)); auto.
Qed.

(** ** Calls *)
Definition bounded (w : world) (m : M ptr) (B : nat) : Prop :=
  match m (w_s w) with
  | Ok _ s' | Fail EThrow s' => (size (s_heap s') <= B)%nat
  | Fail _ _ => False
  end.
Lemma ntM_acquire p : ntM (ref_acquire p).
Proof. unfold ref_acquire, xref_inc. repeat lazymatch goal with
  | |- ntM (bind _ _) => apply ntM_bind; [|intros ?]
  | |- ntM (match ?x with _ => _ end) => destruct x
  | |- ntM (ret _) => by intros ? ?
  | |- ntM (getN _) => apply ntM_getN
  | |- ntM (modN _ _) => apply ntM_modN
  | |- ntM (assert_ _) => apply ntM_liftR, nt_assert
  end. Qed.
Lemma newh_bounded w m B : bounded w m B ->
  match newh w m with WOk _ w' | WFail EThrow w' => (size (s_heap (w_s w')) <= B)%nat | _ => True end.
Proof.
  unfold bounded, newh. destruct (m (w_s w)) as [p s1|e s1]; [|by destruct e]. intros Hb.
  pose proof (kd_acquire p s1) as Hd. pose proof (ntM_acquire p s1) as Hn. destruct (ref_acquire p s1) as [u s2|e s2].
  - cbn [w_s]. by rewrite <- (size_dom (D := gset N) (s_heap s2)), Hd, size_dom.
  - destruct e; try done. by destruct (Hn s2).
Qed.
(** what the bound means for the client *)
Lemma bounded_calls md w o m B : reach md w -> allowed md w o -> step o w = newh w m -> bounded w m B ->
  (forall r w', step o w = WOk r w' -> mgr_nr_nodes (w_s w') <= N.of_nat B) /\
  (N.of_nat B <= 262144 -> exists r w', step o w = WOk r w').
Proof.
  intros HR Ha Hst Hb. apply newh_bounded in Hb. rewrite <- Hst in Hb. split.
  - intros r w' Hs. rewrite (mgr_size md w') by (by eapply reach_step). rewrite Hs in Hb. lia.
  - intros HB. destruct (step o w) as [r w'|e w'] eqn:Hs; [eauto|]. exfalso.
    destruct (C26_throws_only_full HE _ _ _ _ _ HR Ha Hs) as (->&v&Hv).
    assert (size (nodes_of (s_heap (w_s w')) v) <= size (s_heap (w_s w')))%nat; [|lia].
    rewrite <- !(size_dom (D := gset N)). apply subseteq_size, dom_filter_subseteq.
Qed.
Lemma nnodes_hrep md w i a : reach md w -> nnodes w i a -> live w i /\ exists p t ts, hrep w i p t /\ length ts = a /\ inn ts t.
Proof.
  intros HR Ha. pose proof (reach_inv HE _ _ HR) as HW. assert (Hl : live w i) by (destruct Ha as (p&l&?&?&_); by exists p).
  split; [done|]. destruct (live_hrep _ _ _ HW Hl) as (p&t&Hr). destruct (nnodes_inn _ _ _ _ _ _ HW Hr Ha) as (ts&?&?). by exists p, t, ts.
Qed.
Lemma okgrown md H s s1 m r op f g tf tg : md_ord md = true -> Inv md H s -> ngk [] m -> m s = Ok r s1 ->
  repr (s_heap s) f tf -> repr (s_heap s) g tg -> post md H s (fun x => op (evalt tf x) (evalt tg x)) r s1 -> grown md H s s1 (Jb op tf tg).
Proof. intros Ho HI Hm Hr Hf Hg (HI1&He1&Hd). exists s1. split_and!; auto. by eapply okJ. Qed.
Lemma and_bounded md w p q i j tf tg tsf tsg : md_ord md = true -> WInv md w -> hrep w i p tf -> hrep w j q tg -> inn tsf tf -> inn tsg tg ->
  bounded w (and_rec p q) (size (s_heap (w_s w)) + (length tsf + 1) * (length tsg + 1) - 1)%nat.
Proof.
  intros Ho HW (_&_&Hf) (_&_&Hg) Hif Hig. unfold bounded. pose proof (and_spec HE _ _ _ _ _ _ _ HW Hf Hg) as Hok. unfold sat in Hok.
  assert (Hb : forall s', grown md (hcount (w_h w)) (w_s w) s' (Jb andb tf tg) ->
    (size (s_heap s') <= size (s_heap (w_s w)) + (length tsf + 1) * (length tsg + 1) - 1)%nat).
  { intros s' Hgr. pose proof (bin_grown md _ _ s' andb true tf tg tsf tsg Ho HW) as Hbb.
    assert (size (s_heap s') + 1 <= size (s_heap (w_s w)) + (length tsf + 1) * (length tsg + 1))%nat; [|lia]. apply Hbb; auto; by intros []. }
  destruct (and_rec p q (w_s w)) as [r s1|e s1] eqn:Hr.
  - apply Hb. eapply okgrown; eauto. apply ngk_and.
  - destruct e; try done. apply Hb. unfold and_rec, with_fuel in Hr. eapply (and_fail md _ _ Ho _ _ _ _ _ _ HW Hf Hg); [|exact Hr].
    pose proof (fuel_ht _ _ _ Hf). pose proof (fuel_ht _ _ _ Hg). unfold swp. case_match; lia.
Qed.
Lemma or_bounded md w p q i j tf tg tsf tsg : md_ord md = true -> WInv md w -> hrep w i p tf -> hrep w j q tg -> inn tsf tf -> inn tsg tg ->
  bounded w (or_rec p q) (size (s_heap (w_s w)) + (length tsf + 1) * (length tsg + 1) - 1)%nat.
Proof.
  intros Ho HW (_&_&Hf) (_&_&Hg) Hif Hig. unfold bounded. assert (Hor : md_or md = true) by (by destruct md). assert (Hx : md_xor md = false) by (by destruct md).
  pose proof (or_spec HE md _ _ _ _ _ _ Hor HW Hf Hg) as Hok. unfold sat in Hok.
  assert (Hb : forall s', grown md (hcount (w_h w)) (w_s w) s' (Jb orb tf tg) ->
    (size (s_heap s') <= size (s_heap (w_s w)) + (length tsf + 1) * (length tsg + 1) - 1)%nat).
  { intros s' Hgr. pose proof (bin_grown md _ _ s' orb false tf tg tsf tsg Ho HW) as Hbb.
    assert (size (s_heap s') + 1 <= size (s_heap (w_s w)) + (length tsf + 1) * (length tsg + 1))%nat; [|lia]. apply Hbb; auto; by intros []. }
  destruct (or_rec p q (w_s w)) as [r s1|e s1] eqn:Hr.
  - apply Hb. eapply okgrown; eauto; [apply ngk_or|]. by apply postp_post in Hok.
  - destruct e; try done. apply Hb. unfold or_rec, with_fuel in Hr. eapply (or_fail md _ _ Ho _ _ _ _ _ _ HW Hf Hg); [|exact Hr].
    pose proof (fuel_ht _ _ _ Hf). pose proof (fuel_ht _ _ _ Hg). unfold swp. case_match; lia.
Qed.
Lemma neg_bounded md w p i t ts : md_ord md = true -> WInv md w -> hrep w i p t -> inn ts t ->
  bounded w (negate p) (size (s_heap (w_s w)) + length ts)%nat.
Proof.
  intros Ho HW (_&_&Hf) Hi. unfold bounded. pose proof (negate_spec HE _ _ _ _ _ HW Hf) as Hok. unfold sat in Hok.
  destruct (negate p (w_s w)) as [r s1|e s1] eqn:Hr.
  - eapply neg_grown; eauto. eapply okgrown; eauto. apply ngk_negate.
  - destruct e; try done. eapply neg_grown; eauto. unfold negate, with_fuel in Hr. eapply (negate_fail md _ _ Ho _ _ _ _ HW Hf); [|exact Hr].
    pose proof (fuel_ht _ _ _ Hf). lia.
Qed.
Theorem C73_and md w o i j a b : md_ord md = true -> reach md w -> (o = OAnd i j \/ o = OpAnd i j) ->
  nnodes w i a -> nnodes w j b ->
  (forall r w', step o w = WOk r w' -> mgr_nr_nodes (w_s w') + 1 <= mgr_nr_nodes (w_s w) + N.of_nat ((a + 1) * (b + 1))) /\
  (mgr_nr_nodes (w_s w) + N.of_nat ((a + 1) * (b + 1)) <= 262145 -> exists r w', step o w = WOk r w').
Proof.
  intros Hm HR Ho Ha Hb. pose proof (reach_inv HE _ _ HR) as HW. destruct (nnodes_hrep _ _ _ _ HR Ha) as (Hi&p&tf&tsf&Hf&<-&Hif).
  destruct (nnodes_hrep _ _ _ _ HR Hb) as (Hj&q&tg&tsg&Hg&<-&Hig). pose proof (and_bounded _ _ _ _ _ _ _ _ _ _ Hm HW Hf Hg Hif Hig) as Hbd.
  assert (Hal : allowed md w o) by (destruct Ho as [-> | ->]; by split).
  assert (Hst : step o w = newh w (and_rec p q)).
  { destruct Ho as [-> | ->]; cbn [step]; rewrite (with2_hrep _ _ _ _ _ _ _ _ Hf Hg); [done|].
    unfold newh, op_and. destruct Hf as (_&_&Hf). by rewrite (via_mgr_spec _ md _ HW _ _ _ Hf). }
  destruct (bounded_calls _ _ _ _ _ HR Hal Hst Hbd) as [H1 H2]. rewrite (mgr_size _ _ HR). split.
  - intros r w' Hs. specialize (H1 _ _ Hs). lia.
  - intros Hle. apply H2. lia.
Qed.
Theorem C73_or md w o i j a b : md_ord md = true -> reach md w -> (o = OOr i j \/ o = OpOr i j) ->
  nnodes w i a -> nnodes w j b ->
  (forall r w', step o w = WOk r w' -> mgr_nr_nodes (w_s w') + 1 <= mgr_nr_nodes (w_s w) + N.of_nat ((a + 1) * (b + 1))) /\
  (mgr_nr_nodes (w_s w) + N.of_nat ((a + 1) * (b + 1)) <= 262145 -> exists r w', step o w = WOk r w').
Proof.
  intros Hm HR Ho Ha Hb. pose proof (reach_inv HE _ _ HR) as HW. destruct (nnodes_hrep _ _ _ _ HR Ha) as (Hi&p&tf&tsf&Hf&<-&Hif).
  destruct (nnodes_hrep _ _ _ _ HR Hb) as (Hj&q&tg&tsg&Hg&<-&Hig). pose proof (or_bounded _ _ _ _ _ _ _ _ _ _ Hm HW Hf Hg Hif Hig) as Hbd.
  assert (Hor : md_or md = true) by (by destruct md).
  assert (Hal : allowed md w o) by (destruct Ho as [-> | ->]; by split_and!).
  assert (Hst : step o w = newh w (or_rec p q)).
  { destruct Ho as [-> | ->]; cbn [step]; rewrite (with2_hrep _ _ _ _ _ _ _ _ Hf Hg); [done|].
    unfold newh, op_or. destruct Hf as (_&_&Hf). by rewrite (via_mgr_spec _ md _ HW _ _ _ Hf). }
  destruct (bounded_calls _ _ _ _ _ HR Hal Hst Hbd) as [H1 H2]. rewrite (mgr_size _ _ HR). split.
  - intros r w' Hs. specialize (H1 _ _ Hs). lia.
  - intros Hle. apply H2. lia.
Qed.
Theorem C73_negate md w o i a : md_ord md = true -> reach md w -> (o = ONot i \/ o = OpNot i) -> nnodes w i a ->
  (forall r w', step o w = WOk r w' -> mgr_nr_nodes (w_s w') <= mgr_nr_nodes (w_s w) + N.of_nat a) /\
  (mgr_nr_nodes (w_s w) + N.of_nat a <= 262144 -> exists r w', step o w = WOk r w').
Proof.
  intros Hm HR Ho Ha. pose proof (reach_inv HE _ _ HR) as HW. destruct (nnodes_hrep _ _ _ _ HR Ha) as (Hi&p&tf&tsf&Hf&<-&Hif).
  pose proof (neg_bounded _ _ _ _ _ _ Hm HW Hf Hif) as Hbd. assert (Hal : allowed md w o) by (by destruct Ho as [-> | ->]).
  assert (Hst : step o w = newh w (negate p)).
  { destruct Ho as [-> | ->]; cbn [step]; rewrite (with1_hrep _ _ _ _ _ Hf); [done|].
    unfold newh, op_not. destruct Hf as (_&_&Hf). by rewrite (via_mgr_spec _ md _ HW _ _ _ Hf). }
  destruct (bounded_calls _ _ _ _ _ HR Hal Hst Hbd) as [H1 H2]. rewrite (mgr_size _ _ HR). split.
  - intros r w' Hs. specialize (H1 _ _ Hs). lia.
  - intros Hle. apply H2. lia.
Qed.

Lemma uf_bounded v l h s B : nc_ok (s_heap s) (s_nc s) -> (size (s_heap s) + 1 <= B)%nat ->
  match unique_find_v v l h s with Ok _ s' | Fail EThrow s' => (size (s_heap s') <= B)%nat | _ => True end.
Proof.
  intros Hnc HB. destruct (unique_find_v v l h s) as [p s'|e s'] eqn:Hu.
  - assert (Hn : forall q, newn (s_heap s) (s_heap s') q -> q = p).
    { unfold unique_find_v, with_fuel in Hu. by eapply uf_new. }
    enough (size (s_heap s') <= size (s_heap s) + length [p])%nat by (simpl in *; lia).
    apply size_le_app. intros q n Hq. destruct (s_heap s !! q) eqn:Hq0; [left; eauto|right]. rewrite (Hn q); [by left|]. split; eauto.
  - destruct e; try done. apply uf_fail in Hu. rewrite Hu. lia.
Qed.
(** projections: one node, in every mode *)
Theorem C73_projection md w o v : reach md w -> allowed md w o -> (o = OProj v \/ o = ONegProj v) ->
  (forall r w', step o w = WOk r w' -> mgr_nr_nodes (w_s w') <= mgr_nr_nodes (w_s w) + 1) /\
  (mgr_nr_nodes (w_s w) < 262144 -> exists r w', step o w = WOk r w').
Proof.
  intros HR Ha Ho. pose proof (reach_inv HE _ _ HR) as HW.
  assert (exists m, step o w = newh w m /\ bounded w m (size (s_heap (w_s w)) + 1)) as (m&Hst&Hbd).
  { destruct Ho as [-> | ->]; (eexists; split; [reflexivity|]); unfold bounded.
    - pose proof (projection_spec HE _ _ _ v HW Ha) as Hok. unfold sat in Hok.
      destruct (ensure_var_spec md _ _ v HW Ha) as (s1&H1&HI1&Hh1&_). 
      assert (Hp : match projection v (w_s w) with Ok _ s' | Fail EThrow s' => (size (s_heap s') <= size (s_heap (w_s w)) + 1)%nat | _ => True end).
      { unfold projection. rewrite (bind_eq _ _ _ _ _ H1). rewrite (bind_eq get _ s1 s1 s1 eq_refl). unfold bind.
        pose proof (ntM_liftR _ (nt_assert (v <? nr_variables s1)) s1) as Hn.
        change (liftR _) with (assert_ (v <? nr_variables s1)) in Hn.
        destruct (assert_ (v <? nr_variables s1) s1) as [u s2|e s2] eqn:Hu; [|destruct e; try done; by destruct (Hn s2)].
        apply liftR_ok in Hu as [_ ->]. apply uf_bounded; [apply HI1|]. rewrite Hh1. lia. }
      destruct (projection v (w_s w)) as [r s'|[] s']; done.
    - pose proof (neg_projection_spec HE _ _ _ v HW Ha) as Hok. unfold sat in Hok.
      assert (Hp : match neg_projection v (w_s w) with Ok _ s' | Fail EThrow s' => (size (s_heap s') <= size (s_heap (w_s w)) + 1)%nat | _ => True end).
      { unfold neg_projection. rewrite (bind_eq get _ (w_s w) (w_s w) (w_s w) eq_refl). unfold bind.
        pose proof (ntM_liftR _ (nt_assert (v <? nr_variables (w_s w))) (w_s w)) as Hn.
        change (liftR _) with (assert_ (v <? nr_variables (w_s w))) in Hn.
        destruct (assert_ (v <? nr_variables (w_s w)) (w_s w)) as [u s2|e s2] eqn:Hu; [|destruct e; try done; by destruct (Hn s2)].
        apply liftR_ok in Hu as [_ ->]. apply uf_bounded; [apply HW|]. lia. }
      destruct (neg_projection v (w_s w)) as [r s'|[] s']; done. }
  destruct (bounded_calls _ _ _ _ _ HR Ha Hst Hbd) as [H1 H2]. rewrite (mgr_size _ _ HR). split.
  - intros r w' Hs. specialize (H1 _ _ Hs). lia.
  - intros Hle. apply H2. lia.
Qed.

(** ** ite_rec *)
Definition Jt (tf tg th : bdd) (phi : bfun) : Prop :=
  exists a b c, subt a tf /\ subt b tg /\ subt c th /\ forall r, phi r = if evalt a r then evalt b r else evalt c r.
Lemma Jt_sub tf tg th tf' tg' th' phi : subt tf' tf -> subt tg' tg -> subt th' th -> Jt tf' tg' th' phi -> Jt tf tg th phi.
Proof. intros H1 H2 H3 (a&b&c&?&?&?&?). exists a, b, c. split_and!; eauto using subt_trans. Qed.
Lemma sub_Jt tf tg th t u : ordt 0 tf -> ordt 0 tg -> ordt 0 th -> ordt 0 t ->
  (forall r, evalt t r = if evalt tf r then evalt tg r else evalt th r) ->
  subt u t -> (exists v l h, u = Br v l h) -> Jt tf tg th (evalt u).
Proof.
  intros Hf Hg Hh Ht Hop Hu (v&l&h&->). destruct (sub_cofactor _ _ _ _ Ht Hu) as [r0 Hc].
  exists (walk r0 v tf), (walk r0 v tg), (walk r0 v th). split_and!; [apply walk_sub..|]. intros r. rewrite Hc, Hop.
  by rewrite (walk_eval _ _ tf 0), (walk_eval _ _ tg 0), (walk_eval _ _ th 0).
Qed.
Lemma okJt md H s s1 m r f g h tf tg th : md_ord md = true -> Inv md H s -> ngk [] m -> m s = Ok r s1 ->
  repr (s_heap s) f tf -> repr (s_heap s) g tg -> repr (s_heap s) h th ->
  post md H s (fun x => if evalt tf x then evalt tg x else evalt th x) r s1 ->
  grown md H s s1 (Jt tf tg th).
Proof.
  intros Ho HI Hm Hr Hf Hg Hh (HI1&He1&tr&Htr&Hx). exists s1. split_and!; auto. intros p Hp.
  specialize (Hm _ _ (inv_sk _ _ _ HI) (i_nc _ _ _ HI) (skel_refl _)). rewrite Hr in Hm.
  assert (Hsub : subnode s1 r p) by (apply Hm; [intros q Hq; by apply newn_none in Hq|done]).
  apply subnode_reach in Hsub. destruct (reach_in_sub _ _ _ _ Htr Hsub) as (t&Ht&Hst). exists t. split; [done|].
  assert (Hns : ~ sink p).
  { intros Hs. destruct Hp as [_ Hn]. destruct (inv_sk _ _ _ HI p Hs) as (n&Hn'&_). congruence. }
  destruct (repr_nonsink _ _ _ Ht Hns) as (n&tl&th'&_&->&_).
  eapply (sub_Jt tf tg th tr); eauto; (eapply ho_ord; [|done|eauto]); [apply HI|apply HI|apply HI|apply HI1].
Qed.
Lemma grown_step md H s s1 s' J : grown md H s s1 J -> s_heap s1 = s_heap s1 -> Inv md H s1 -> ext s s1 -> grown md H s1 s' J -> grown md H s s' J.
Proof.
  intros (s0&HI0&He0&Hh&Hn) _ HI1 He1 Hg. eapply grown_trans; [exact He1| |exact Hg]. intros p Hp. rewrite Hh in Hp |- *. by apply Hn.
Qed.
Lemma ite_fail md H fuel : md_ord md = true -> forall s f g h tf tg th s', Inv md H s ->
  repr (s_heap s) f tf -> repr (s_heap s) g tg -> repr (s_heap s) h th -> (ht tf + ht tg + ht th < fuel)%nat ->
  ite_fuel fuel f g h s = Fail EThrow s' -> grown md H s s' (Jt tf tg th).
Proof.
  intros Hmd. assert (Hmx : md_xor md = false) by (by destruct md). assert (Hmo : md_or md = true) by (by destruct md).
  induction fuel as [|fuel IH]; intros s f g h tf tg th s' HI Hf Hg Hh Hfu Hs; [lia|]. cbn [ite_fuel] in Hs.
  rewrite (bind_eq _ _ _ _ _ (is_topsink_eq _ _ _ _ _ HI Hf)) in Hs. case_bool_decide as Hft; [done|].
  rewrite (bind_eq _ _ _ _ _ (is_botsink_eq _ _ _ _ _ HI Hf)) in Hs. case_bool_decide as Hfb; [done|].
  assert (Hsf : ~ sink f) by (unfold sink; tauto).
  assert (Hgt : (if g =? f then ret true else is_topsink g) s = Ok (bool_decide (g = f \/ g = topsink)) s).
  { destruct (N.eqb_spec g f) as [->|Hne]; [by rewrite bool_decide_eq_true_2 by auto|].
    rewrite (is_topsink_eq _ _ _ _ _ HI Hg). f_equal. apply bool_decide_ext. tauto. }
  rewrite (bind_eq _ _ _ _ _ Hgt) in Hs. clear Hgt. case_bool_decide as Hgc.
  { pose proof (fuel_ht _ _ _ Hf). pose proof (fuel_ht _ _ _ Hh). eapply grown_mono.
    2:{ eapply (or_fail md H _ Hmd s f h tf th s' HI Hf Hh); [|exact Hs]. unfold swp. case_match; lia. }
    intros phi (a&c&Ha&Hc&Hx). destruct Hgc as [-> | ->].
    - rewrite (repr_fun _ _ _ _ Hg Hf). exists a, a, c. split_and!; auto; intros r; rewrite Hx; by destruct (evalt a r).
    - apply repr_top_inv in Hg as ->. exists a, (Leaf true), c. split_and!; auto using subt_refl; intros r; rewrite Hx; by destruct (evalt a r). }
  assert (Hht : (if h =? f then ret true else is_botsink h) s = Ok (bool_decide (h = f \/ h = botsink)) s).
  { destruct (N.eqb_spec h f) as [->|Hne]; [by rewrite bool_decide_eq_true_2 by auto|].
    rewrite (is_botsink_eq _ _ _ _ _ HI Hh). f_equal. apply bool_decide_ext. tauto. }
  rewrite (bind_eq _ _ _ _ _ Hht) in Hs. clear Hht. case_bool_decide as Hhc.
  { pose proof (fuel_ht _ _ _ Hf). pose proof (fuel_ht _ _ _ Hg). eapply grown_mono.
    2:{ eapply (and_fail md H _ Hmd s f g tf tg s' HI Hf Hg); [|exact Hs]. unfold swp. case_match; lia. }
    intros phi (a&b&Ha&Hb&Hx). destruct Hhc as [-> | ->].
    - rewrite (repr_fun _ _ _ _ Hh Hf). exists a, b, a. split_and!; auto; intros r; rewrite Hx; by destruct (evalt a r).
    - apply repr_bot_inv in Hh as ->. exists a, b, (Leaf false). split_and!; auto using subt_refl; intros r; rewrite Hx; by destruct (evalt a r). }
  destruct (N.eqb_spec g h) as [->|Hgh]; [done|].
  rewrite (bind_eq _ _ _ _ _ (is_botsink_eq _ _ _ _ _ HI Hg)) in Hs.
  assert (Hbt : (if bool_decide (g = botsink) then is_topsink h else ret false) s = Ok (bool_decide (g = botsink /\ h = topsink)) s).
  { case_bool_decide as Hgb.
    - rewrite (is_topsink_eq _ _ _ _ _ HI Hh). f_equal. apply bool_decide_ext. tauto.
    - rewrite bool_decide_eq_false_2; [done|tauto]. }
  rewrite (bind_eq _ _ _ _ _ Hbt) in Hs. clear Hbt. case_bool_decide as Hbtc.
  { destruct Hbtc as [-> ->]. apply repr_bot_inv in Hg as ->. apply repr_top_inv in Hh as ->.
    pose proof (fuel_ht _ _ _ Hf).
    assert (Hneg : negate f s = Fail EThrow s').
    { unfold xor_rec, with_fuel in Hs. destruct (fuel_of s) as [|[|k]] eqn:Hk; [lia|lia|]. cbn [xor_fuel] in Hs.
      destruct (N.eqb_spec topsink f) as [|_]; [congruence|]. destruct (N.ltb_spec f topsink) as [Hlt|_].
      - destruct (N.eqb_spec f topsink) as [|_]; [congruence|]. destruct (N.ltb_spec topsink f) as [|_]; [lia|].
        destruct (N.eqb_spec f botsink) as [|_]; [congruence|]. rewrite (proj2 (N.eqb_neq topsink botsink)) in Hs by congruence.
        rewrite N.eqb_refl in Hs. exact Hs.
      - rewrite (proj2 (N.eqb_neq topsink botsink)) in Hs by congruence. destruct (N.eqb_spec f botsink) as [|_]; [congruence|].
        rewrite N.eqb_refl in Hs. exact Hs. }
    eapply grown_mono; [|eapply (negate_fail md H _ Hmd s f tf s' HI Hf); [|exact Hneg]; lia].
    intros phi (a&b&Ha&_&Hx). exists a, (Leaf false), (Leaf true). split_and!; auto using subt_refl; intros r; rewrite Hx; by destruct (evalt a r). }
  destruct (cache_lookup_spec HE md H s f g h tf tg HI Hf Hg) as (m&Hm&Hcase).
  rewrite (bind_eq _ _ _ _ _ Hm) in Hs.
  destruct Hcase as [->|(Hm0&tf'&tg'&tr&Hf'&Hg'&Hr&_)]; cbn [negb N.eqb] in Hs.
  2:{ apply N.eqb_neq in Hm0. rewrite Hm0 in Hs. simpl in *. rewrite (touch_repr _ _ _ _ _ HI Hr) in Hs. done. }
  destruct (repr_nonsink _ _ _ Hf Hsf) as (nf&lf&hf&Hnf&->&Hlf&Hhf).
  pose proof (i_heap _ _ _ HI) as Hheap.
  destruct (ho_node _ _ _ Hheap _ _ Hnf Hsf) as [Hvf _].
  set (nv := nr_variables s) in *. unfold nr_variables in nv.
  assert (Hnv : 0 < nv) by (unfold nv; lia).
  set (last := nv - 1) in *.
  rewrite (bind_eq get _ s s s eq_refl) in Hs. rewrite (bind_eq _ _ _ _ _ (variable_eq _ _ _ Hnf)) in Hs.
  assert (HgV : forall u, u < nv -> exists t, getV u s = Ok t s).
  { intros u Hu. destruct (lookup_lt_is_Some_2 (s_vars s) (N.to_nat u)) as [t Ht]; [unfold nv in Hu; lia|].
    exists t. by apply getV_eq. }
  destruct (HgV (n_idx nf)) as [? HVf]; [done|]. rewrite (bind_eq _ _ _ _ _ HVf) in Hs.
  assert (Htv : forall p t, repr (s_heap s) p t -> tvar last t < nv).
  { intros p [c|w tl tr] Hp; simpl; [unfold last; lia|]. eapply repr_occurs; eauto. simpl. auto. }
  assert (Hvarp : forall p t, repr (s_heap s) p t ->
     exists b, is_terminal p s = Ok b s /\ (if b then ret last else variable p) s = Ok (tvar last t) s).
  { intros p t Hp. exists (bool_decide (sink p)). split; [by eapply is_terminal_eq|].
    case_bool_decide as Hsp.
    - destruct Hsp as [-> | ->]; [apply repr_bot_inv in Hp as ->|apply repr_top_inv in Hp as ->]; done.
    - destruct (repr_nonsink _ _ _ Hp Hsp) as (np&?&?&Hnp&->&_). by eapply variable_eq. }
  change (nr_variables s - 1) with last in Hs.
  destruct (Hvarp g tg Hg) as (bg&Hbg1&Hbg2). rewrite (bind_eq _ _ _ _ _ Hbg1), (bind_eq _ _ _ _ _ Hbg2) in Hs.
  destruct (HgV (tvar last tg)) as [? HVg]; [by eapply Htv|]. rewrite (bind_eq _ _ _ _ _ HVg) in Hs.
  destruct (Hvarp h th Hh) as (bh&Hbh1&Hbh2). rewrite (bind_eq _ _ _ _ _ Hbh1), (bind_eq _ _ _ _ _ Hbh2) in Hs.
  destruct (HgV (tvar last th)) as [? HVh]; [by eapply Htv|]. rewrite (bind_eq _ _ _ _ _ HVh) in Hs.
  cbv zeta in Hs. set (tf := Br (n_idx nf) lf hf) in *.
  set (v := N.min (N.min (n_idx nf) (tvar last tg)) (tvar last th)) in *.
  change (n_idx nf) with (tvar last tf) in v, Hs.
  assert (Hord : ordt v tf /\ ordt v tg /\ ordt v th).
  { assert (Hg1 : forall p t, repr (s_heap s) p t -> v <= tvar last t -> ordt v t).
    { intros p t Hp Hle. pose proof (ho_ord _ _ _ Hheap Hmd _ _ Hp) as Hot. destruct t as [|w ??]; simpl in *; [done|naive_solver]. }
    split_and!; [eapply (Hg1 f)|eapply (Hg1 g)|eapply (Hg1 h)]; eauto; unfold v; lia. }
  destruct Hord as (Hof&Hog&Hoh).
  destruct (N.lt_ge_cases v last) as [Hvl|Hge].
  2:{ exfalso. assert (Hvle : v <= n_idx nf) by (unfold v; simpl; lia).
      assert (v = last) as Hvl. { unfold nv, last in *. lia. }
      rewrite Hvl in Hof, Hog, Hoh. unfold last in Hof, Hog, Hoh.
      pose proof (last_tree nv tf Hof (repr_redt _ _ _ _ _ Hheap Hf) ltac:(intros u; by eapply repr_occurs)) as HTf.
      pose proof (last_tree nv tg Hog (repr_redt _ _ _ _ _ Hheap Hg) ltac:(intros u; by eapply repr_occurs)) as HTg.
      pose proof (last_tree nv th Hoh (repr_redt _ _ _ _ _ Hheap Hh) ltac:(intros u; by eapply repr_occurs)) as HTh.
      unfold tf in HTf. destruct HTf as (Hif&a&Hla&Hha').
      assert (Hlow : forall p t, repr (s_heap s) p t ->
        match t with Leaf _ => True | Br w l h => w = nv - 1 /\ exists a, l = Leaf a /\ h = Leaf (negb a) end ->
        (if tvar last t =? v then low p else ret p) s = Fail EUB s \/
        (exists q c, (if tvar last t =? v then low p else ret p) s = Ok q s /\ t = Br last (Leaf c) (Leaf (negb c)))).
      { intros p t Hp HT. destruct t as [c|w l0 h0]; simpl.
        - left. rewrite Hvl, N.eqb_refl. apply repr_leaf_inv in Hp as ->. by apply (low_sink HE md H).
        - right. destruct HT as (->&c&->&->). fold last. rewrite Hvl, N.eqb_refl.
          apply repr_br_inv in Hp as (Hss&n&Hn&Hi&Hl&Hhh). exists (n_lo n), c. split; [by eapply low_eq|done]. }
      destruct (Hlow f tf Hf) as [Hub|(qf&cf&Hqf&Htf)].
      { unfold tf. eauto. } { unfold bind in Hs at 1. rewrite Hub in Hs. done. }
      rewrite (bind_eq _ _ _ _ _ Hqf) in Hs.
      destruct (Hlow g tg Hg HTg) as [Hub|(qg&cg&Hqg&Htg)]. { unfold bind in Hs at 1. rewrite Hub in Hs. done. }
      rewrite (bind_eq _ _ _ _ _ Hqg) in Hs.
      destruct (Hlow h th Hh HTh) as [Hub|(qh&ch&Hqh&Hth)]. { unfold bind in Hs at 1. rewrite Hub in Hs. done. }
      assert (Hgf : tg <> tf). { intros Heq. apply Hgc. left. eapply repr_inj; eauto. by rewrite Heq. }
      assert (Hhf' : th <> tf). { intros Heq. apply Hhc. left. eapply repr_inj; eauto. by rewrite Heq. }
      assert (Hne : tg <> th). { intros Heq. apply Hgh. eapply repr_inj; eauto. by rewrite Heq. }
      clear Hs. rewrite Htf, Htg, Hth in *. destruct cf, cg, ch; congruence. }
  assert (Hmeas : forall b, (ht (cof v b tf) + ht (cof v b tg) + ht (cof v b th) < fuel)%nat).
  { intros b. pose proof (ht_cof v b tf). pose proof (ht_cof v b tg). pose proof (ht_cof v b th).
    assert (Hlt : forall t, tvar last t = v -> (ht (cof v b t) < ht t)%nat).
    { intros [c|w tl tr]; simpl; intros Hw; [lia|]. rewrite Hw. by apply ht_cof_lt. }
    assert (tvar last tf = v \/ tvar last tg = v \/ tvar last th = v) as [Hw|[Hw|Hw]].
    { unfold v. lia. }
    all: specialize (Hlt _ Hw); lia. }
  assert (HJ : forall b phi, Jt (cof v b tf) (cof v b tg) (cof v b th) phi -> Jt tf tg th phi) by (intros b phi; apply Jt_sub; apply cof_sub).
  destruct (cof_step md H s f tf last v false HI Hf Hvl) as (f0&Hf0&Hrf0).
  destruct (cof_step md H s g tg last v false HI Hg Hvl) as (g0&Hg0&Hrg0).
  destruct (cof_step md H s h th last v false HI Hh Hvl) as (h0&Hh0&Hrh0).
  rewrite (bind_eq _ _ _ _ _ Hf0), (bind_eq _ _ _ _ _ Hg0), (bind_eq _ _ _ _ _ Hh0) in Hs.
  apply bind_fail in Hs as [Hs|(r0&s1&H0&Hs)].
  { eapply grown_mono; [apply (HJ false)|]. exact (IH s f0 g0 h0 _ _ _ _ HI Hrf0 Hrg0 Hrh0 (Hmeas false) Hs). }
  pose proof (ite_fuel_exact HE md H fuel Hmd s f0 g0 h0 _ _ _ HI Hrf0 Hrg0 Hrh0 (Hmeas false)) as Hx. unfold satu in Hx. rewrite H0 in Hx.
  destruct Hx as [Hpost _]. pose proof Hpost as (HI1&He1&_).
  eapply grown_step; [eapply grown_mono; [apply (HJ false)|eapply (okJt md H s s1 _ r0 f0 g0 h0); eauto; apply ngk_ite_fuel]|done|exact HI1|exact He1|].
  apply bind_fail in Hs as [Hs|(u1&s1'&Hu1&Hs)]; [by apply (ntM_liftR _ (nt_assert _)) in Hs|]. apply liftR_ok in Hu1 as [_ ->].
  destruct (cof_step md H s1 f tf last v true HI1 (repr_ext_s _ _ _ _ He1 Hf) Hvl) as (f1&Hf1&Hrf1).
  destruct (cof_step md H s1 g tg last v true HI1 (repr_ext_s _ _ _ _ He1 Hg) Hvl) as (g1&Hg1&Hrg1).
  destruct (cof_step md H s1 h th last v true HI1 (repr_ext_s _ _ _ _ He1 Hh) Hvl) as (h1&Hh1&Hrh1).
  rewrite (bind_eq _ _ _ _ _ Hf1), (bind_eq _ _ _ _ _ Hg1), (bind_eq _ _ _ _ _ Hh1) in Hs.
  apply bind_fail in Hs as [Hs|(r1&s2&H1&Hs)].
  { eapply grown_mono; [apply (HJ true)|]. exact (IH s1 f1 g1 h1 _ _ _ _ HI1 Hrf1 Hrg1 Hrh1 (Hmeas true) Hs). }
  pose proof (ite_fuel_exact HE md H fuel Hmd s1 f1 g1 h1 _ _ _ HI1 Hrf1 Hrg1 Hrh1 (Hmeas true)) as Hx. unfold satu in Hx. rewrite H1 in Hx.
  destruct Hx as [Hpost2 _]. pose proof Hpost2 as (HI2&He2&_).
  eapply grown_step; [eapply grown_mono; [apply (HJ true)|eapply (okJt md H s1 s2 _ r1 f1 g1 h1); eauto; apply ngk_ite_fuel]|done|exact HI2|exact He2|].
  apply bind_fail in Hs as [Hs|(u2&s2'&Hu2&Hs)]; [by apply (ntM_liftR _ (nt_assert _)) in Hs|]. apply liftR_ok in Hu2 as [_ ->].
  apply bind_fail in Hs as [Hs|(r&s3&Hr&Hs)].
  - apply uf_fail in Hs. exists s2. split_and!; auto using ext_refl. intros p Hp. by apply newn_none in Hp.
  - exfalso. revert Hs. assert (Hn : ntM (assert_ (negb (r =? 0)) ;;* cache_insert f g h r ;;* ret r)); [|apply Hn].
    apply ntM_bind; [apply ntM_liftR, nt_assert|intros _]. apply ntM_bind; [apply ntM_insert|intros _]. by intros ? ?.
Qed.
Lemma ter_grown md H s s' tf tg th tsf tsg tsh : md_ord md = true -> Inv md H s ->
  inn tsf tf -> inn tsg tg -> inn tsh th -> grown md H s s' (Jt tf tg th) ->
  (size (s_heap s') <= size (s_heap s) + (length tsf + 2) * (length tsg + 2) * (length tsh + 2))%nat.
Proof.
  intros Ho HI Hf Hg Hh Hgr. set (lv := [Leaf false; Leaf true]).
  set (C := list_prod (list_prod (lv ++ tsf) (lv ++ tsg)) (lv ++ tsh)).
  assert (HC : length C = ((length tsf + 2) * (length tsg + 2) * (length tsh + 2))%nat).
  { unfold C. rewrite !prod_length, !app_length. simpl. lia. }
  rewrite <- HC.
  eapply (grown_count md H s s' _ C (fun phi c => forall r, phi r = if evalt c.1.1 r then evalt c.1.2 r else evalt c.2 r));
    [exact Ho|exact HI|exact Hgr| |intros phi phi' c H1 H2 r; by rewrite H1, H2].
  intros t Hot Hrt Hbr (a&b&c&Ha&Hb&Hc&Hx). exists (a, b, c). split; [|done].
  assert (Hall : forall ts t a, inn ts t -> subt a t -> a ∈ lv ++ ts).
  { intros ts0 t0 a0 Hi Hs. apply elem_of_app. destruct (sub_inn _ _ _ Hi Hs) as [|[x ->]]; [by right|left]. destruct x; unfold lv; set_solver. }
  unfold C. rewrite !elem_of_list_In, !in_prod_iff, <- !elem_of_list_In. split_and!; by eapply Hall.
Qed.
Theorem C73_ite md w i j k a b c : md_ord md = true -> reach md w -> allowed md w (OIte i j k) ->
  nnodes w i a -> nnodes w j b -> nnodes w k c ->
  (forall r w', step (OIte i j k) w = WOk r w' -> mgr_nr_nodes (w_s w') <= mgr_nr_nodes (w_s w) + N.of_nat ((a + 2) * (b + 2) * (c + 2))) /\
  (mgr_nr_nodes (w_s w) + N.of_nat ((a + 2) * (b + 2) * (c + 2)) <= 262144 -> exists r w', step (OIte i j k) w = WOk r w').
Proof.
  intros Hm HR Hal Ha Hb Hc. pose proof (reach_inv HE _ _ HR) as HW. destruct (nnodes_hrep _ _ _ _ HR Ha) as (Hi&p&tf&tsf&Hf&<-&Hif).
  destruct (nnodes_hrep _ _ _ _ HR Hb) as (Hj&q&tg&tsg&Hg&<-&Hig). destruct (nnodes_hrep _ _ _ _ HR Hc) as (Hk&x&th&tsh&Hh&<-&Hih).
  assert (Hst : step (OIte i j k) w = newh w (ite_rec p q x)).
  { cbn [step]. rewrite (with1_hrep _ _ _ _ _ Hf). by rewrite (with2_hrep _ _ _ _ _ _ _ _ Hg Hh). }
  pose proof Hf as (_&_&Hrf). pose proof Hg as (_&_&Hrg). pose proof Hh as (_&_&Hrh).
  assert (Hbd : bounded w (ite_rec p q x) (size (s_heap (w_s w)) + (length tsf + 2) * (length tsg + 2) * (length tsh + 2))).
  { unfold bounded. pose proof (ite_exact HE md _ _ _ _ _ _ _ _ Hm HW Hrf Hrg Hrh) as Hok. unfold satu in Hok.
    destruct (ite_rec p q x (w_s w)) as [r s1|e s1] eqn:Hr.
    - destruct Hok as [Hok _]. eapply ter_grown; eauto. eapply okJt; eauto. apply ngk_ite.
    - destruct e; try done.
      + pose proof (C22_total HE md w _ HR Hal) as Hgood. rewrite Hst in Hgood. unfold newh in Hgood. rewrite Hr in Hgood. done.
      + eapply ter_grown; eauto. unfold ite_rec, with_fuel in Hr. eapply (ite_fail md _ _ Hm _ _ _ _ _ _ _ _ HW Hrf Hrg Hrh); [|exact Hr].
        pose proof (fuel_ht _ _ _ Hrf). pose proof (fuel_ht _ _ _ Hrg). pose proof (fuel_ht _ _ _ Hrh). lia. }
  destruct (bounded_calls _ _ _ _ _ HR Hal Hst Hbd) as [H1 H2]. rewrite (mgr_size _ _ HR). split.
  - intros r w' Hs. specialize (H1 _ _ Hs). lia.
  - intros Hle. apply H2. lia.
Qed.
End grow.
