(** * PropsCost.v -- how many recursive calls traversals and negate make (C75)

    For each function its counting version: the same code which also returns how often the function was
    entered ([counted] says that it is the same code).  bdd_mgr::negate keeps no record of the nodes it has
    negated, so it enters every node once per path; the traversals mark nodes and enter each arc once. *)
From Verif Require Export PropsGrow2 PropsDepth.
Open Scope N_scope.

Section costmodel.
Context {E : Env}.

(** bdd_mgr.cpp:41-53 with a counter of activations *)
Fixpoint negate_count (fuel : nat) (p : ptr) : M (ptr * N) :=
  match fuel with
  | O => fail ELoop
  | S fuel =>
    let* b := is_botsink p in if b then ret (topsink, 1) else
    let* t := is_topsink p in if t then ret (botsink, 1) else
    let* v := variable p in
    let* s := get in
    assert_ (v <? nr_variables s) ;;*
    let* (l, h) := args2 (let* q := low p in negate_count fuel q) (let* q := high p in negate_count fuel q) in
    let* r := unique_find_v v l.1 h.1 in
    ret (r, 1 + l.2 + h.2)
  end.
(** bdd_node.cpp:41-56 with a counter of activations *)
Fixpoint nr_nodes_impl_count (fuel : nat) (p : ptr) : M (N * N) :=
  match fuel with
  | O => fail ELoop
  | S fuel =>
    let* t := is_terminal p in if t then ret (0, 1) else
    let* n := getN p in
    assert_ (negb (n_mark n)) ;;*
    modN p (with_mark true) ;;*
    let* lm := marked (n_lo n) in
    let* c0 := (if lm then ret (0, 0) else nr_nodes_impl_count fuel (n_lo n)) in
    let* hm := marked (n_hi n) in
    let* c1 := (if hm then ret (0, 0) else nr_nodes_impl_count fuel (n_hi n)) in
    ret (1 + c0.1 + c1.1, 1 + c0.2 + c1.2)
  end.
(** bdd_node.cpp:163-173 with a counter of activations *)
Fixpoint unmark_count (fuel : nat) (p : ptr) : M (unit * N) :=
  match fuel with
  | O => fail ELoop
  | S fuel =>
    let* t := is_terminal p in if t then ret (tt, 1) else
    let* n := getN p in
    if n_mark n then
      modN p (with_mark false) ;;*
      let* a := unmark_count fuel (n_lo n) in
      let* n' := getN p in
      let* b := unmark_count fuel (n_hi n') in
      ret (tt, 1 + a.2 + b.2)
    else ret (tt, 1)
  end.
(** bdd_node.cpp:33-39: activations of nr_nodes_impl and unmark together *)
Definition nr_nodes_count (p : ptr) : M (N * N) :=
  let* m := marked p in
  assert_ (negb m) ;;*
  let* n := with_fuel (fun f => nr_nodes_impl_count f p) in
  let* u := with_fuel (fun f => unmark_count f p) in
  ret (n.1, n.2 + u.2).

(** [mc] is [m] with a counter *)
Definition counted {A} (mc : M (A * N)) (m : M A) : Prop :=
  forall s, m s = match mc s with Ok (a, _) s' => Ok a s' | Fail e s' => Fail e s' end.
(** a handle with [P] paths from its node to a constant *)
Inductive paths (s : mstate) : ptr -> N -> Prop :=
| paths_const p : sink p -> paths s p 1
| paths_node p n a b : ~ sink p -> s_heap s !! p = Some n -> paths s (n_lo n) a -> paths s (n_hi n) b -> paths s p (a + b).
(** negate of handle [i] returns after [k] activations of negate *)
Definition negate_calls (w : world) (i : nat) (k : N) : Prop :=
  exists p r s', hnd w i = Some p /\ with_fuel (fun n => negate_count n p) (w_s w) = Ok (r, k) s'.
End costmodel.

Section cost.
Context {E : Env} (HE : env_ok E).

Lemma cn_bind {A B} (m : M A) (kc : A -> M (B * N)) (k : A -> M B) : (forall a, counted (kc a) (k a)) -> counted (bind m kc) (bind m k).
Proof. intros Hk s. unfold bind. destruct (m s) as [a s1|e s1]; [apply Hk|done]. Qed.
Lemma cn_bindc {A B} (mc : M (A * N)) (m : M A) (kc : A * N -> M (B * N)) (k : A -> M B) : counted mc m ->
  (forall a, counted (kc a) (k a.1)) -> counted (bind mc kc) (bind m k).
Proof. intros Hm Hk s. unfold bind. rewrite (Hm s). destruct (mc s) as [[a c] s1|e s1]; [apply (Hk (a, c))|done]. Qed.
Lemma cn_ret {A} (a : A) k : counted (ret (a, k)) (ret a).
Proof. by intros s. Qed.
Lemma cn_retR {A} (m : M A) (f : A -> N) : counted (let* r := m in ret (r, f r)) m.
Proof. intros s. unfold bind. by destruct (m s). Qed.
Lemma cn_fail {A} e : counted (A := A) (fail e) (fail e).
Proof. by intros s. Qed.

Theorem C75_negate_counted n p : counted (negate_count n p) (negate_fuel n p).
Proof.
  revert p. induction n as [|n IH]; intros p; cbn [negate_count negate_fuel]; [apply cn_fail|].
  apply cn_bind; intros b. destruct b; [apply cn_ret|]. apply cn_bind; intros t. destruct t; [apply cn_ret|].
  apply cn_bind; intros v. apply cn_bind; intros s. apply cn_bind; intros _.
  assert (Hl : counted (let* q := low p in negate_count n q) (let* q := low p in negate_fuel n q)) by (apply cn_bind; intros; apply IH).
  assert (Hh : counted (let* q := high p in negate_count n q) (let* q := high p in negate_fuel n q)) by (apply cn_bind; intros; apply IH).
  revert Hl Hh. generalize (let* q := low p in negate_count n q), (let* q := low p in negate_fuel n q).
  generalize (let* q := high p in negate_count n q), (let* q := high p in negate_fuel n q). intros hc h lc l Hl Hh s0.
  generalize (unique_find_v v). intros uf.
  unfold args2. destruct e_rtl; unfold bind.
  - rewrite (Hh s0). destruct (hc s0) as [[b cb] s1|e s1]; [|done]. rewrite (Hl s1). destruct (lc s1) as [[a ca] s2|e s2]; [|done].
    cbn. by destruct (uf a b s2).
  - rewrite (Hl s0). destruct (lc s0) as [[a ca] s1|e s1]; [|done]. rewrite (Hh s1). destruct (hc s1) as [[b cb] s2|e s2]; [|done].
    cbn. by destruct (uf a b s2).
Qed.
Lemma nr_impl_counted n : forall p, counted (nr_nodes_impl_count n p) (nr_nodes_impl n p).
Proof.
  induction n as [|n IH]; intros p; cbn [nr_nodes_impl_count nr_nodes_impl]; [apply cn_fail|].
  apply cn_bind; intros t. destruct t; [apply cn_ret|]. apply cn_bind; intros nd. apply cn_bind; intros _. apply cn_bind; intros _.
  apply cn_bind; intros lm. apply cn_bindc; [destruct lm; [apply cn_ret|apply IH]|intros c0].
  apply cn_bind; intros hm. apply cn_bindc; [destruct hm; [apply cn_ret|apply IH]|intros c1]. apply cn_ret.
Qed.
Lemma unmark_counted n : forall p, counted (unmark_count n p) (unmark_fuel n p).
Proof.
  induction n as [|n IH]; intros p; cbn [unmark_count unmark_fuel]; [apply cn_fail|].
  apply cn_bind; intros t. destruct t; [apply cn_ret|]. apply cn_bind; intros nd. destruct (n_mark nd); [|apply cn_ret].
  apply cn_bind; intros _. apply cn_bindc; [apply IH|intros [[] a]]. apply cn_bind; intros n'.
  intros s. unfold bind. rewrite (IH (n_hi n') s). by destruct (unmark_count n (n_hi n') s) as [[[] b] s1|e s1].
Qed.
Theorem C75_nr_nodes_counted p : counted (nr_nodes_count p) (nr_nodes p).
Proof.
  unfold nr_nodes_count, nr_nodes. apply cn_bind; intros m. apply cn_bind; intros _.
  apply cn_bindc; [intros s; apply nr_impl_counted|intros n]. unfold unmark. apply cn_bindc; [intros s; apply unmark_counted|intros u]. apply cn_ret.
Qed.

(** ** Traversals are linear *)
Definition nmarked (h : heap) : nat := size (filter (fun x : ptr * node => n_mark x.2 = true) h).
Lemma nmarked_set h p n : h !! p = Some n -> n_mark n = true ->
  S (nmarked (<[p := with_mark false n]> h)) = nmarked h.
Proof.
  intros Hp Hm. unfold nmarked.
  rewrite <- (insert_id h p n Hp) at 2. rewrite <- (insert_delete_insert h p n), <- (insert_delete_insert h p (with_mark false n)).
  rewrite (map_filter_insert_True _ _ _ n) by done. rewrite map_filter_insert_False by done.
  rewrite delete_idemp. rewrite map_size_insert_None; [done|]. apply map_filter_lookup_None. left. apply lookup_delete.
Qed.
Lemma nmarked_mark h p n : h !! p = Some n -> (nmarked (<[p := with_mark true n]> h) <= S (nmarked h))%nat.
Proof.
  intros Hp. unfold nmarked.
  rewrite (map_filter_insert_True _ _ _ (with_mark true n)) by done.
  rewrite map_size_insert. case_match; [unfold id; lia|done].
Qed.
Lemma getN_ok p s n s' : getN p s = Ok n s' -> s' = s /\ s_heap s !! p = Some n.
Proof. unfold getN. destruct (_ !! _); [|done]. by intros [= <- <-]. Qed.
Definition rdo {A} (m : M A) : Prop := forall s a s', m s = Ok a s' -> s' = s.
Lemma rdo_bind {A B} (m : M A) (k : A -> M B) : rdo m -> (forall a, rdo (k a)) -> rdo (bind m k).
Proof. intros Hm Hk s b s' (a&s1&H1&H2)%bind_okc. apply Hm in H1 as ->. by eapply Hk. Qed.
Lemma rdo_ret {A} (a : A) : rdo (ret a).
Proof. by intros s b s' [= _ <-]. Qed.
Lemma rdo_getN p : rdo (getN p).
Proof. intros s n s' [-> _]%getN_ok. done. Qed.
Lemma rdo_assert b : rdo (assert_ b).
Proof. intros s a s' [_ ->]%liftR_ok. done. Qed.
Lemma rdo_marked p : rdo (marked p).
Proof. apply rdo_bind; [apply rdo_getN|intros; apply rdo_ret]. Qed.
Lemma rdo_bot p : rdo (is_botsink p).
Proof. apply rdo_bind; [apply rdo_getN|intros]. apply rdo_bind; [apply rdo_assert|intros; apply rdo_ret]. Qed.
Lemma rdo_term p : rdo (is_terminal p).
Proof.
  apply rdo_bind; [|intros []; [apply rdo_ret|apply rdo_bot]].
  apply rdo_bind; [apply rdo_getN|intros]. apply rdo_bind; [apply rdo_assert|intros; apply rdo_ret].
Qed.
Lemma modN_ok p f s u s' : modN p f s = Ok u s' -> exists n, s_heap s !! p = Some n /\ s_heap s' = <[p := f n]> (s_heap s).
Proof. intros (n&s1&[-> Hn]%getN_ok&H2)%bind_okc. injection H2 as _ <-. exists n. by split. Qed.
Lemma nr_impl_bound n : forall p s c k s', nr_nodes_impl_count n p s = Ok (c, k) s' ->
  k <= 2 * c + 1 /\ N.of_nat (nmarked (s_heap s')) <= N.of_nat (nmarked (s_heap s)) + c.
Proof.
  induction n as [|n IH]; intros p s c k s' Hr; [done|]. cbn [nr_nodes_impl_count] in Hr.
  apply bind_okc in Hr as (t&s1&H1&Hr). apply rdo_term in H1 as ->. destruct t; [injection Hr as <- <- <-; lia|].
  apply bind_okc in Hr as (nd&s1&H1&Hr). apply rdo_getN in H1 as ->.
  apply bind_okc in Hr as (u1&s1&H1&Hr). apply rdo_assert in H1 as ->.
  apply bind_okc in Hr as (u2&s1&H1&Hr). apply modN_ok in H1 as (nd'&Hnd&Hh1). pose proof (nmarked_mark _ _ _ Hnd) as Hmk. rewrite <- Hh1 in Hmk.
  apply bind_okc in Hr as (lm&s2&H1&Hr). apply rdo_marked in H1 as ->.
  apply bind_okc in Hr as ([c0 k0]&s2&H0&Hr). apply bind_okc in Hr as (hm&s3&H1&Hr). apply rdo_marked in H1 as ->.
  apply bind_okc in Hr as ([c1 k1]&s3&H1&Hr). cbn in Hr. injection Hr as <- <- <-.
  assert (k0 <= 2 * c0 + 1 /\ N.of_nat (nmarked (s_heap s2)) <= N.of_nat (nmarked (s_heap s1)) + c0) by (destruct lm; [injection H0 as <- <- <-; lia|by apply IH in H0]).
  assert (k1 <= 2 * c1 + 1 /\ N.of_nat (nmarked (s_heap s3)) <= N.of_nat (nmarked (s_heap s2)) + c1) by (destruct hm; [injection H1 as <- <- <-; lia|by apply IH in H1]).
  lia.
Qed.
Lemma unmark_bound n : forall p s k s', unmark_count n p s = Ok (tt, k) s' ->
  k + 2 * N.of_nat (nmarked (s_heap s')) <= 2 * N.of_nat (nmarked (s_heap s)) + 1.
Proof.
  induction n as [|n IH]; intros p s k s' Hr; [done|]. cbn [unmark_count] in Hr.
  apply bind_okc in Hr as (t&s1&H1&Hr). apply rdo_term in H1 as ->. destruct t; [injection Hr as <- <-; lia|].
  apply bind_okc in Hr as (nd&s1&H1&Hr). apply getN_ok in H1 as [-> Hnd]. destruct (n_mark nd) eqn:Hm; [|injection Hr as <- <-; lia].
  apply bind_okc in Hr as (u2&s1&H1&Hr). apply modN_ok in H1 as (nd'&Hnd'&Hh1). assert (nd' = nd) as -> by congruence.
  pose proof (nmarked_set _ _ _ Hnd Hm) as Hmk. rewrite <- Hh1 in Hmk.
  apply bind_okc in Hr as ([[] k0]&s2&H0&Hr). apply bind_okc in Hr as (n'&s3&H1&Hr). apply rdo_getN in H1 as ->.
  apply bind_okc in Hr as ([[] k1]&s3&H1&Hr). cbn in Hr. injection Hr as <- <-. apply IH in H0, H1. lia.
Qed.
(** nr_nodes of a BDD with [n] nodes: at most 4n+2 activations of its two recursive functions *)
Theorem C75_nr_nodes md w i p n : reach md w -> hnd w i = Some p -> ~ isconst w i -> nnodes w i n ->
  exists k, nr_nodes_count p (w_s w) = Ok (N.of_nat n, k) (w_s w) /\ k <= 4 * N.of_nat n + 2.
Proof.
  intros HR Hi Hc (p'&l&Hp'&H0&Hnd&Hl&<-). assert (p' = p) as -> by congruence. pose proof (reach_inv HE _ _ HR) as HW.
  destruct (C16_nr_nodes HE _ _ _ _ HR Hi H0 ltac:(tauto)) as (l'&Hs&Hnd'&Hl').
  assert (Hll : length l' = length l) by (apply Permutation_length, NoDup_Permutation; auto; intros q; by rewrite Hl, Hl').
  assert (Hn : nr_nodes p (w_s w) = Ok (N.of_nat (length l)) (w_s w)).
  { cbn [step] in Hs. unfold with1 in Hs. rewrite Hi in Hs. unfold query in Hs. destruct (nr_nodes p (w_s w)) as [m s1|]; [|done].
    injection Hs as -> Hw. rewrite <- Hw. cbn. by rewrite Hll. }
  pose proof (C75_nr_nodes_counted p (w_s w)) as Hcn. rewrite Hn in Hcn.
  destruct (nr_nodes_count p (w_s w)) as [[a k] s1|] eqn:Hk; [|done]. injection Hcn as <- <-. exists k. split; [done|].
  unfold nr_nodes_count in Hk. apply bind_okc in Hk as (m&s1&H1&Hk). apply rdo_marked in H1 as ->.
  apply bind_okc in Hk as (u&s1&H1&Hk). apply rdo_assert in H1 as ->.
  apply bind_okc in Hk as ([c k0]&s1&H1&Hk). apply bind_okc in Hk as ([[] k1]&s2&H2&Hk). cbn in Hk. injection Hk as -> <- ->.
  apply nr_impl_bound in H1. apply unmark_bound in H2. lia.
Qed.

(** ** negate *)
Fixpoint tsz (t : bdd) : N := match t with Leaf _ => 1 | Br _ l h => 1 + tsz l + tsz h end.
Lemma negate_count_tsz md H n : forall s p t r k s', Inv md H s -> repr (s_heap s) p t -> (ht t < n)%nat ->
  negate_count n p s = Ok (r, k) s' -> k = tsz t.
Proof.
  induction n as [|n IH]; intros s p t r k s' HI Hp Hf Hs; [lia|]. cbn [negate_count] in Hs.
  rewrite (bind_eq _ _ _ _ _ (is_botsink_eq _ _ _ _ _ HI Hp)) in Hs. case_bool_decide as Hb.
  { subst. apply repr_bot_inv in Hp as ->. by injection Hs as <- <- <-. }
  rewrite (bind_eq _ _ _ _ _ (is_topsink_eq _ _ _ _ _ HI Hp)) in Hs. case_bool_decide as Ht.
  { subst. apply repr_top_inv in Hp as ->. by injection Hs as <- <- <-. }
  assert (Hns : ~ sink p) by (unfold sink; tauto).
  destruct (repr_nonsink _ _ _ Hp Hns) as (nd&tl&th&Hn&->&Hl&Hr). simpl in Hf.
  rewrite (bind_eq _ _ _ _ _ (variable_eq _ _ _ Hn)) in Hs.
  apply bind_okc in Hs as (s0&s1&H1&Hs). injection H1 as <- <-.
  apply bind_okc in Hs as (u&s1&H1&Hs). apply rdo_assert in H1 as ->.
  assert (Hc : forall (b : bool) s1 q k s2, Inv md H s1 -> ext s s1 ->
    (let* q := (if b then high p else low p) in negate_count n q) s1 = Ok (q, k) s2 -> k = tsz (if b then th else tl) /\ Inv md H s2 /\ ext s s2).
  { intros b s1 q c s2 HI1 He1 Hq. destruct (proj1 He1 _ _ Hn) as (n0&Hn0&Hlo&Hhi&_).
    pose proof (repr_ext_s _ _ _ _ He1 Hl) as Hl1. pose proof (repr_ext_s _ _ _ _ He1 Hr) as Hr1. rewrite Hlo in Hl1. rewrite Hhi in Hr1.
    assert (Hx : (if b then high p else low p) s1 = Ok (if b then n_hi n0 else n_lo n0) s1).
    { destruct b; [by eapply (high_eq md H s1 p n0 th)|by eapply (low_eq md H s1 p n0 tl)]. }
    rewrite (bind_eq _ _ _ _ _ Hx) in Hq.
    assert (Hrep : repr (s_heap s1) (if b then n_hi n0 else n_lo n0) (if b then th else tl)) by (by destruct b).
    assert (Hht : (ht (if b then th else tl) < n)%nat) by (destruct b; lia).
    pose proof (negate_fuel_spec HE md H n s1 _ _ HI1 Hrep Hht) as Hsp. unfold sat in Hsp.
    rewrite (C75_negate_counted n _ s1), Hq in Hsp. destruct Hsp as (HI2&He2&_). split_and!; [exact (IH s1 _ _ _ _ _ HI1 Hrep Hht Hq)|done|by eapply ext_trans]. }
  apply bind_okc in Hs as ([l h]&s1&H1&Hs). apply bind_okc in Hs as (r'&s2&_&Hs). injection Hs as _ <- _.
  unfold args2 in H1. destruct e_rtl.
  - apply bind_okc in H1 as ([y ky]&s3&Hy&H1). apply bind_okc in H1 as ([x kx]&s4&Hx&H1). injection H1 as <- <- _.
    apply (Hc true) in Hy as (->&HI3&He3); [|done|apply ext_refl]. apply (Hc false) in Hx as (->&_); auto.
  - apply bind_okc in H1 as ([x kx]&s3&Hx&H1). apply bind_okc in H1 as ([y ky]&s4&Hy&H1). injection H1 as <- <- _.
    apply (Hc false) in Hx as (->&HI3&He3); [|done|apply ext_refl]. apply (Hc true) in Hy as (->&_); auto.
Qed.
Lemma paths_tsz h p t : repr h p t -> forall s P, h = s_heap s -> paths s p P -> tsz t + 1 = 2 * P.
Proof.
  intros Hr. induction Hr as [| |p n tl th Hs Hp Hl IHl Hh IHh]; intros s P Heq HP.
  1,2: inversion HP as [|? ? ? ? Hns]; subst; [done|destruct Hns; unfold sink; auto].
  inversion HP as [|? n' a b ? Hn' Ha Hb]; subst; [done|]. assert (n' = n) as -> by congruence.
  specialize (IHl _ _ eq_refl Ha). specialize (IHh _ _ eq_refl Hb). cbn [tsz]. lia.
Qed.
(** negate enters itself 2P-1 times, where P is the number of paths *)
Theorem C75_negate_paths md w i p k P : reach md w -> hnd w i = Some p -> p <> 0 -> negate_calls w i k -> paths (w_s w) p P -> k = 2 * P - 1.
Proof.
  intros HR Hi H0 (p'&r&s'&Hp'&Hk) HP. assert (p' = p) as -> by congruence. pose proof (reach_inv HE _ _ HR) as HW.
  destruct (winv_repr _ _ _ _ HW Hi H0) as [t Ht]. unfold with_fuel in Hk. pose proof (fuel_ht _ _ _ Ht).
  apply (negate_count_tsz md _ _ _ _ t _ _ _ HW Ht) in Hk; [|lia]. pose proof (paths_tsz _ _ _ Ht _ _ eq_refl HP). lia.
Qed.
(** it is less than 2^(n+1) for n variables *)
Theorem C75_negate_bound md w i k : md_ord md = true -> reach md w -> live w i -> negate_calls w i k -> k < 2 ^ (nr_variables (w_s w) + 1).
Proof.
  intros Ho HR Hl (p&r&s'&Hp&Hk). pose proof (reach_inv HE _ _ HR) as HW. destruct (live_hrep _ _ _ HW Hl) as (p'&t&Hr).
  assert (p' = p) as -> by (destruct Hr; congruence). pose proof (hrep_ht _ _ _ _ _ Ho HW Hr) as Hht. destruct Hr as (_&_&Ht).
  unfold with_fuel in Hk. pose proof (fuel_ht _ _ _ Ht). apply (negate_count_tsz md _ _ _ _ t _ _ _ HW Ht) in Hk; [|lia]. subst k.
  assert (Hx : tsz t < 2 ^ (N.of_nat (ht t) + 1)).
  { clear. induction t as [b|v l IHl h IHh]; [done|]. cbn [tsz ht]. 
    assert (H1 : 2 ^ (N.of_nat (ht l) + 1) <= 2 ^ N.of_nat (S (Nat.max (ht l) (ht h)))) by (apply N.pow_le_mono_r; lia).
    assert (H2 : 2 ^ (N.of_nat (ht h) + 1) <= 2 ^ N.of_nat (S (Nat.max (ht l) (ht h)))) by (apply N.pow_le_mono_r; lia).
    rewrite N.pow_add_r. lia. }
  eapply N.lt_le_trans; [exact Hx|]. apply N.pow_le_mono_r; lia.
Qed.

(** ** The bound is met: parity *)
Lemma hrep_keep md w o r w' k p t : reach md w -> allowed md w o -> step o w = WOk r w' -> ~ touches o k -> hrep w k p t -> hrep w' k p t.
Proof.
  intros HR Ha Hs Ht Hr. pose proof (reach_inv HE _ _ HR) as HW. pose proof (step_good HE _ _ _ HW Ha) as Hg. rewrite Hs in Hg.
  destruct (C22_persistent HE _ _ _ _ _ _ _ HR Ha Hs (proj1 Hr) Ht) as [Hk _]. destruct Hg as (_&Hl&_). by eapply hrep_lext.
Qed.
Lemma newh_tree md w m t r w' : WInv md w -> sat m (w_s w) (fun q s' => Inv md (hcount (w_h w)) s' /\ ext (w_s w) s' /\ repr (s_heap s') q t) ->
  newh w m = WOk r w' -> exists p, hrep w' (length (w_h w)) p t.
Proof.
  intros HW Hm. unfold newh. unfold sat in Hm. destruct (m (w_s w)) as [q s|[] s]; try done. destruct Hm as (HI&He&Hq).
  assert (H0 : q <> 0) by (pose proof (inv_repr_addr HE _ _ _ _ _ HI Hq); lia).
  destruct (ref_acquire_spec _ _ s q HI) as (s'&Hs'&_&He'&_).
  { intros _. destruct (repr_in _ _ _ _ _ (i_heap _ _ _ HI) Hq). by eapply elem_of_dom_2. }
  rewrite Hs'. intros [= _ <-]. exists q. split_and!; [apply hnd_snoc|done|]. cbn [w_s]. by eapply repr_ext_s.
Qed.
(** bdd_mgr::unique_find adds at most one node *)
Theorem C73_unique md w v i j : reach md w -> allowed md w (OUnique v i j) ->
  (forall r w', step (OUnique v i j) w = WOk r w' -> mgr_nr_nodes (w_s w') <= mgr_nr_nodes (w_s w) + 1) /\
  (mgr_nr_nodes (w_s w) < 262144 -> exists r w', step (OUnique v i j) w = WOk r w').
Proof.
  intros HR Ha. pose proof (reach_inv HE _ _ HR) as HW. pose proof Ha as (Hv&Hi&Hj&_).
  destruct (live_hrep _ _ _ HW Hi) as (p&tp&Hp). destruct (live_hrep _ _ _ HW Hj) as (q&tq&Hq).
  assert (Hst : step (OUnique v i j) w = newh w (mgr_unique_find v p q)) by (cbn [step]; by rewrite (with2_hrep _ _ _ _ _ _ _ _ Hp Hq)).
  assert (Hm : mgr_unique_find v p q (w_s w) = unique_find_v v p q (w_s w)).
  { unfold mgr_unique_find. rewrite (bind_eq get _ (w_s w) (w_s w) (w_s w) eq_refl). by rewrite (bind_eq _ _ _ _ _ (assert_eq _ _ (proj2 (N.ltb_lt _ _) Hv))). }
  assert (Hbd : bounded w (mgr_unique_find v p q) (size (s_heap (w_s w)) + 1)).
  { pose proof (C22_total HE _ _ _ HR Ha) as Hok. rewrite Hst in Hok. unfold newh in Hok. unfold bounded. rewrite Hm in *.
    pose proof (uf_bounded HE v p q (w_s w) (size (s_heap (w_s w)) + 1) (i_nc _ _ _ HW) ltac:(lia)) as Hb.
    destruct (unique_find_v v p q (w_s w)) as [r s1|[] s1]; done. }
  destruct (bounded_calls HE _ _ _ _ _ HR Ha Hst Hbd) as [H1 H2]. rewrite (mgr_size HE _ _ HR). split.
  - intros r w' Hs. specialize (H1 _ _ Hs). lia.
  - intros Hle. apply H2. lia.
Qed.
Lemma unique_tree md w v i j p q ti tj r w' : reach md w -> allowed md w (OUnique v i j) -> md_ord md = true -> hrep w i p ti -> hrep w j q tj ->
  ordt (v + 1) ti -> ordt (v + 1) tj -> step (OUnique v i j) w = WOk r w' -> exists p, hrep w' (length (w_h w)) p (br v ti tj).
Proof.
  intros HR Ha Ho Hp Hq H1 H2 Hs. pose proof (reach_inv HE _ _ HR) as HW. cbn [step] in Hs. rewrite (with2_hrep _ _ _ _ _ _ _ _ Hp Hq) in Hs.
  eapply newh_tree; [done| |exact Hs]. destruct Ha as (Hv&_). destruct Hp as (_&_&Hp). destruct Hq as (_&_&Hq).
  unfold mgr_unique_find. eapply sat_bind_ok; [reflexivity|]. eapply sat_bind_ok; [apply assert_eq; by apply N.ltb_lt|].
  by apply (unique_find_spec HE).
Qed.
Lemma vars_only n : N.of_nat n <= 65535 -> exists w, reach MOrd w /\ nr_variables (w_s w) = N.of_nat n /\ mgr_nr_nodes (w_s w) = 2.
Proof.
  induction n as [|n IH]; intros Hn; [exists w_init; split_and!; [constructor|done|done]|].
  destruct IH as (w&HR&Hw&Hm); [lia|]. destruct (C06_add_variable HE MOrd w HR) as (w'&Hs&Hnv&_); [unfold topsink_index; lia|].
  assert (HR' : reach MOrd w') by (eapply reach_step; [done| |done]; simpl; unfold topsink_index; lia).
  exists w'. split_and!; [done|rewrite Hnv, Hw; lia|]. rewrite <- Hm, (mgr_size HE _ _ HR), (mgr_size HE _ _ HR').
  cbn [step] in Hs. unfold query in Hs. pose proof (kd_add_variable (w_s w)) as Hk. destruct (add_variable (w_s w)) as [a s1|]; [|done].
  injection Hs as _ <-. cbn [w_s]. by rewrite <- !(size_dom (D := gset N)), Hk.
Qed.
Lemma const_step w o t : reach MOrd w -> o = OBot /\ t = Leaf false \/ o = OTop /\ t = Leaf true ->
  exists r w' p, step o w = WOk r w' /\ reach MOrd w' /\ hrep w' (length (w_h w)) p t /\ nr_variables (w_s w') = nr_variables (w_s w) /\
    mgr_nr_nodes (w_s w') = mgr_nr_nodes (w_s w).
Proof.
  intros HR Ho. pose proof (reach_inv HE _ _ HR) as HW. assert (Ha : allowed MOrd w o) by (by destruct Ho as [[-> _]|[-> _]]).
  assert (exists q, step o w = newh w (ret q) /\ repr (s_heap (w_s w)) q t /\ q ∈ dom (s_heap (w_s w))) as (q&Hst&Hq&Hd).
  { destruct Ho as [[-> ->]|[-> ->]]; eexists; (split; [reflexivity|]); (split; [constructor|]).
    all: match goal with |- ?x ∈ _ => assert (Hx : sink x) by (unfold sink; auto) end;
      destruct (inv_sk _ _ _ HW _ Hx) as (n&Hn&_); by eapply elem_of_dom_2. }
  destruct (ref_acquire_spec _ _ _ q HW ltac:(done)) as (s'&Hs'&_&He&He2).
  exists (OutP q), (W s' (w_h w ++ [Some q])), q.
  assert (Hs : step o w = WOk (OutP q) (W s' (w_h w ++ [Some q]))) by (rewrite Hst; unfold newh, ret; by rewrite Hs').
  assert (HR' : reach MOrd (W s' (w_h w ++ [Some q]))) by (by eapply reach_step).
  assert (H0 : q <> 0) by (pose proof (inv_repr_addr HE _ _ _ _ _ HW Hq); lia).
  split_and!; auto.
  - split_and!; [apply hnd_snoc|done|]. cbn [w_s]. by eapply repr_ext_s.
  - unfold nr_variables. cbn [w_s]. pose proof (inv_nv_ext _ _ He). lia.
  - rewrite (mgr_size HE _ _ HR), (mgr_size HE _ _ HR'). cbn [w_s]. pose proof (kd_acquire q (w_s w)) as Hk. rewrite Hs' in Hk.
    by rewrite <- !(size_dom (D := gset N)), Hk.
Qed.
Lemma uniq_step w v i j p q ti tj : reach MOrd w -> hrep w i p ti -> hrep w j q tj -> ti <> tj -> ordt (v + 1) ti -> ordt (v + 1) tj ->
  v < nr_variables (w_s w) -> mgr_nr_nodes (w_s w) < 262144 ->
  exists w' r, reach MOrd w' /\ hrep w' (length (w_h w)) r (Br v ti tj) /\ (forall k p t, hrep w k p t -> hrep w' k p t) /\
    nr_variables (w_s w') = nr_variables (w_s w) /\ mgr_nr_nodes (w_s w') <= mgr_nr_nodes (w_s w) + 1.
Proof.
  intros HR Hp Hq Hne Hoi Hoj Hv Hm. pose proof (reach_inv HE _ _ HR) as HW.
  assert (Ha : allowed MOrd w (OUnique v i j)).
  { split_and!; [done|by eapply hrep_live|by eapply hrep_live|]. intros _ u [Hu|Hu].
    - apply (supp_hrep _ _ _ _ _ _ HW Hp) in Hu. pose proof (ordt_occurs _ _ _ Hoi Hu). lia.
    - apply (supp_hrep _ _ _ _ _ _ HW Hq) in Hu. pose proof (ordt_occurs _ _ _ Hoj Hu). lia. }
  destruct (C73_unique _ _ _ _ _ HR Ha) as [H1 H2]. destruct (H2 Hm) as (r&w'&Hs).
  destruct (unique_tree MOrd w v i j p q ti tj r w' HR Ha eq_refl Hp Hq Hoi Hoj Hs) as (x&Hx).
  unfold br in Hx. rewrite decide_False in Hx by done. exists w', x. split_and!.
  - by eapply reach_step.
  - done.
  - intros k p0 t0 Hk. exact (hrep_keep MOrd w (OUnique v i j) r w' k p0 t0 HR Ha Hs (fun x => x) Hk).
  - pose proof (step_good HE _ _ _ HW Ha) as Hg. cbn [step] in Hs. rewrite (with2_hrep _ _ _ _ _ _ _ _ Hp Hq) in Hs.
    pose proof (unique_find_spec HE MOrd _ (w_s w) v p q ti tj HW Hv (proj2 (proj2 Hp)) (proj2 (proj2 Hq)) ltac:(done)) as Hu.
    unfold newh, mgr_unique_find in Hs. rewrite (bind_eq get _ (w_s w) (w_s w) (w_s w) eq_refl) in Hs.
    rewrite (bind_eq _ _ _ _ _ (assert_eq _ _ (proj2 (N.ltb_lt _ _) Hv))) in Hs. unfold sat in Hu.
    destruct (unique_find_v v p q (w_s w)) as [y s1|]; [|done]. destruct Hu as (HI1&He1&Hy).
    destruct (ref_acquire_spec _ _ s1 y HI1) as (s'&Hs'&_&He2&_).
    { intros _. destruct (repr_in _ _ _ _ _ (i_heap _ _ _ HI1) Hy). by eapply elem_of_dom_2. }
    rewrite Hs' in Hs. injection Hs as _ <-. unfold nr_variables. cbn [w_s].
    pose proof (inv_nv_ext _ _ He1). pose proof (inv_nv_ext _ _ He2). lia.
  - by eapply H1.
Qed.
(** two trees of the same shape with opposite leaves *)
Fixpoint compl (t u : bdd) : Prop :=
  match t, u with
  | Leaf b, Leaf b' => b' = negb b
  | Br v l h, Br v' l' h' => v = v' /\ compl l l' /\ compl h h'
  | _, _ => False
  end.
Lemma parity_pair n m : N.of_nat n <= 65535 -> (m <= n)%nat -> exists w i j p q ti tj, reach MOrd w /\ nr_variables (w_s w) = N.of_nat n /\
  mgr_nr_nodes (w_s w) <= 2 + 2 * N.of_nat m /\ hrep w i p ti /\ hrep w j q tj /\ ti <> tj /\
  ordt (N.of_nat (n - m)) ti /\ ordt (N.of_nat (n - m)) tj /\ 2 ^ N.of_nat m <= tsz ti /\ 2 ^ N.of_nat m <= tsz tj /\
  compl ti tj /\ compl tj ti.
Proof.
  intros Hn. induction m as [|m IH]; intros Hm.
  - destruct (vars_only n Hn) as (w&HR&Hv&Hc).
    destruct (const_step w OBot (Leaf false) HR ltac:(auto)) as (r1&w1&p1&H1&HR1&Hp1&Hv1&Hc1).
    destruct (const_step w1 OTop (Leaf true) HR1 ltac:(auto)) as (r2&w2&p2&H2&HR2&Hp2&Hv2&Hc2).
    assert (Hp1' : hrep w2 (length (w_h w)) p1 (Leaf false)) by (exact (hrep_keep MOrd w1 OTop r2 w2 _ _ _ HR1 I H2 (fun x => x) Hp1)).
    exists w2, (length (w_h w)), (length (w_h w1)), p1, p2, (Leaf false), (Leaf true). split_and!; auto; cbn; lia.
  - destruct IH as (w&i&j&p&q&ti&tj&HR&Hv&Hc&Hi&Hj&Hne&Hoi&Hoj&Hti&Htj&Hc1'&Hc2'); [lia|].
    assert (Heq : N.of_nat (n - S m) + 1 = N.of_nat (n - m)) by lia. rewrite <- Heq in Hoi, Hoj.
    destruct (uniq_step w (N.of_nat (n - S m)) i j p q ti tj) as (w1&x&HR1&Hx&Hk1&Hv1&Hc1); auto; [lia|lia|].
    destruct (uniq_step w1 (N.of_nat (n - S m)) j i q p tj ti) as (w2&y&HR2&Hy&Hk2&Hv2&Hc2); auto; [lia|lia|].
    exists w2, (length (w_h w)), (length (w_h w1)), x, y, (Br (N.of_nat (n - S m)) ti tj), (Br (N.of_nat (n - S m)) tj ti).
    assert (Hp : 2 ^ N.of_nat (S m) = 2 * 2 ^ N.of_nat m) by (rewrite Nat2N.inj_succ; apply N.pow_succ_r').
    split_and!; auto; [lia|lia|congruence| | |cbn [tsz]; lia|cbn [tsz]; lia|by cbn [compl]|by cbn [compl]].
    all: cbn [ordt]; split_and!; auto; lia.
Qed.
(** for every n below 2^16 there is a BDD with at most 2n nodes for which negate makes 2^n calls *)
Theorem C75_negate_exponential n : (0 < n)%nat -> N.of_nat n < 65536 -> exists w i a k, reach MOrd w /\ nr_variables (w_s w) = N.of_nat n /\
  nnodes w i a /\ (a <= 2 * n)%nat /\ negate_calls w i k /\ 2 ^ N.of_nat n <= k.
Proof.
  intros Hn Hn2. destruct (parity_pair n n) as (w&i&j&p&q&ti&tj&HR&Hv&Hc&Hi&_&_&_&_&Hti&_); [lia|lia|].
  pose proof (reach_inv HE _ _ HR) as HW. pose proof Hi as (Hp&H0&Hrp).
  assert (Hns : ~ sink p).
  { intros [-> | ->]; [apply repr_bot_inv in Hrp|apply repr_top_inv in Hrp]; subst ti; cbn [tsz] in Hti;
      destruct n as [|n]; [lia| |lia|]; rewrite Nat2N.inj_succ, N.pow_succ_r' in Hti; pose proof (N.pow_nonzero 2 (N.of_nat n)); lia. }
  destruct (C16_nr_nodes HE _ _ _ _ HR Hp H0) as (l&_&Hnd&Hl).
  { intros [Hx|Hx]; destruct Hns; rewrite Hx in Hp; injection Hp as <-; unfold sink; auto. }
  assert (Hnn : nnodes w i (length l)) by (exists p, l; by split_and!).
  assert (Hlen : (length l <= 2 * n)%nat).
  { rewrite (mgr_size HE _ _ HR) in Hc. enough (length (botsink :: topsink :: l) <= size (s_heap (w_s w)))%nat by (simpl in *; lia).
    assert (Hin : forall x, x ∈ l -> ~ sink x /\ x ∈ dom (s_heap (w_s w))).
    { intros x Hx. apply Hl, subnode_reach in Hx. clear -Hx. induction Hx; auto. split; [done|]. by eapply elem_of_dom_2. }
    rewrite <- (size_dom (D := gset N)). rewrite <- (size_list_to_set (C := gset N) (botsink :: topsink :: l)).
    - apply subseteq_size. intros x [-> |[-> |Hx]%elem_of_cons]%elem_of_list_to_set%elem_of_cons; [| |by apply Hin].
      + destruct (inv_sk _ _ _ HW botsink) as (y&Hy&_); [unfold sink; auto|by eapply elem_of_dom_2].
      + destruct (inv_sk _ _ _ HW topsink) as (y&Hy&_); [unfold sink; auto|by eapply elem_of_dom_2].
    - apply NoDup_cons. split; [|apply NoDup_cons; split; [|done]].
      + intros [Hx|Hx]%elem_of_cons; [by destruct (bot_neq_top Hx)|]. apply Hin in Hx as [Hx _]. apply Hx. unfold sink; auto.
      + intros Hx. apply Hin in Hx as [Hx _]. apply Hx. unfold sink; auto. }
  destruct (C73_negate HE MOrd w (ONot i) i (length l) eq_refl HR ltac:(auto) Hnn) as [_ Hret].
  destruct Hret as (r&w'&Hs); [lia|]. cbn [step] in Hs. rewrite (with1_hrep _ _ _ _ _ Hi) in Hs. unfold newh in Hs.
  pose proof (C75_negate_counted (fuel_of (w_s w)) p (w_s w)) as Hcn. unfold negate, with_fuel in Hs. rewrite Hcn in Hs.
  destruct (negate_count (fuel_of (w_s w)) p (w_s w)) as [[x k] s1|] eqn:Hk; [|done].
  exists w, i, (length l), k. split_and!; auto.
  - exists p, x, s1. by split.
  - pose proof (fuel_ht _ _ _ Hrp). apply (negate_count_tsz MOrd _ _ _ _ ti _ _ _ HW Hrp) in Hk; [|lia]. by subst k.
Qed.
End cost.
