(** * PropsDepth.v -- how deep the recursive functions recurse (C74)

    The model's recursive functions take the number of nested activations they may use; [f_fuel D]
    is the function with at most [D] nested activations, which gives up with [ELoop] where the
    code would make one more.  The theorems say that the function with a limit that depends on the
    number of variables only does the same as the unlimited one. *)
From Verif Require Export PropsThrow2 PropsOps.
Open Scope N_scope.

Section depth.
Context {E : Env} (HE : env_ok E).

(** [m] does what [m'] does, or gives up *)
Definition lef {A} (m m' : M A) : Prop := forall s, (exists s', m s = Fail ELoop s') \/ m s = m' s.
Lemma lef_refl {A} (m : M A) : lef m m.
Proof. intros s. by right. Qed.
Lemma lef_loop {A} (m : M A) : lef (fail ELoop) m.
Proof. intros s. left. by eexists. Qed.
Lemma lef_bind {A B} (m m' : M A) (k k' : A -> M B) : lef m m' -> (forall a, lef (k a) (k' a)) -> lef (bind m k) (bind m' k').
Proof.
  intros Hm Hk s. unfold bind. destruct (Hm s) as [[s' ->]|<-]; [left; by eexists|]. destruct (m s) as [a s1|e s1]; [apply Hk|by right].
Qed.
Lemma lef_args2 {A B} (a a' : M A) (b b' : M B) : lef a a' -> lef b b' -> lef (args2 a b) (args2 a' b').
Proof. intros Ha Hb. unfold args2. destruct e_rtl; repeat (apply lef_bind; [done|intros ?]); apply lef_refl. Qed.
Ltac lf := repeat lazymatch goal with
  | |- lef (bind _ _) (bind _ _) => apply lef_bind; [|intros ?]
  | |- lef (args2 _ _) (args2 _ _) => apply lef_args2
  | |- lef ?m ?m => apply lef_refl
  | |- lef (match ?x with _ => _ end) _ => destruct x
  | H : (forall m, _ -> forall f g : ptr, lef _ _) |- lef _ _ => apply H; lia
  | H : (forall m, _ -> forall f g h : ptr, lef _ _) |- lef _ _ => apply H; lia
  | H : (forall m, _ -> forall (p : ptr) (a : list ptr), lef _ _) |- lef _ _ => apply H; lia
  | H : (forall m, _ -> forall p : ptr, lef _ _) |- lef _ _ => apply H; lia
  end.
Ltac lfi := intros n; induction n as [|n IH]; intros [|m] Hle; intros; first [apply lef_loop|lia|idtac].
Lemma negate_lef : forall n m, (n <= m)%nat -> forall p, lef (negate_fuel n p) (negate_fuel m p).
Proof. lfi. cbn [negate_fuel]. lf. Qed.
Lemma and_lef : forall n m, (n <= m)%nat -> forall f g, lef (and_fuel n f g) (and_fuel m f g).
Proof. lfi. cbn [and_fuel]. lf. Qed.
Lemma or_lef : forall n m, (n <= m)%nat -> forall f g, lef (or_fuel n f g) (or_fuel m f g).
Proof. lfi. cbn [or_fuel]. lf. Qed.
Lemma ite_lef : forall n m, (n <= m)%nat -> forall f g h, lef (ite_fuel n f g h) (ite_fuel m f g h).
Proof. lfi. cbn [ite_fuel]. cbv zeta. lf. Qed.
Lemma lim_lef limit : forall n m, (n <= m)%nat -> forall f g, lef (and_limited_fuel n f g limit) (and_limited_fuel m f g limit).
Proof. lfi. cbn [and_limited_fuel]. cbv zeta. lf. Qed.
Lemma nr_lef : forall n m, (n <= m)%nat -> forall p, lef (nr_nodes_impl n p) (nr_nodes_impl m p).
Proof. lfi. cbn [nr_nodes_impl]. lf. Qed.
Lemma post_lef : forall n m, (n <= m)%nat -> forall p acc, lef (postorder_impl n p acc) (postorder_impl m p acc).
Proof. lfi. cbn [postorder_impl]. lf. Qed.
Lemma unmark_lef : forall n m, (n <= m)%nat -> forall p, lef (unmark_fuel n p) (unmark_fuel m p).
Proof. lfi. cbn [unmark_fuel]. lf. Qed.
Lemma lef_ok {A} (m : nat -> M A) n k s : (forall n k, (n <= k)%nat -> lef (m n) (m k)) ->
  (forall s', m n s <> Fail ELoop s') -> (forall s', m k s <> Fail ELoop s') -> m n s = m k s.
Proof.
  intros Hm Hn Hk. destruct (Nat.le_ge_cases n k) as [Hle|Hle].
  - destruct (Hm n k Hle s) as [[s' H]|]; [by destruct (Hn s')|done].
  - destruct (Hm k n Hle s) as [[s' H]|]; [by destruct (Hk s')|done].
Qed.
Lemma sat_nl {A} (m : M A) s Q s' : sat m s Q -> m s <> Fail ELoop s'.
Proof. unfold sat. intros H Heq. by rewrite Heq in H. Qed.
(** paths are not longer than the number of variables *)
Lemma ordt_ht nv t : forall lb, ordt lb t -> (forall u, occurs u t -> u < nv) -> lb <= nv -> N.of_nat (ht t) <= nv - lb.
Proof.
  induction t as [b|v l IHl h IHh]; intros lb Ho Hv Hlb; cbn [ht]; [lia|]. destruct Ho as (H1&H2&H3).
  pose proof (Hv v ltac:(simpl; auto)). specialize (IHl (v + 1) H2 ltac:(intros; apply Hv; simpl; auto) ltac:(lia)).
  specialize (IHh (v + 1) H3 ltac:(intros; apply Hv; simpl; auto) ltac:(lia)). lia.
Qed.
Lemma hrep_ht md w i p t : md_ord md = true -> WInv md w -> hrep w i p t -> N.of_nat (ht t) <= nr_variables (w_s w).
Proof.
  intros Ho HW Hr. pose proof (ordt_ht (nr_variables (w_s w)) t 0) as H. rewrite N.sub_0_r in H. apply H; [|intros; by eapply hrep_occurs|lia].
  by eapply hrep_shape.
Qed.
Lemma live_ht md w i p : md_ord md = true -> reach md w -> hnd w i = Some p -> p <> 0 -> exists t, hrep w i p t /\ (ht t <= N.to_nat (nr_variables (w_s w)))%nat.
Proof.
  intros Ho HR Hp H0. pose proof (reach_inv HE _ _ HR) as HW. destruct (live_hrep _ _ i HW) as (q&t&Hr); [by exists p|].
  assert (q = p) as -> by (destruct Hr; congruence). exists t. split; [done|]. pose proof (hrep_ht _ _ _ _ _ Ho HW Hr). lia.
Qed.
Theorem C74_negate md w i p : md_ord md = true -> reach md w -> hnd w i = Some p -> p <> 0 ->
  negate_fuel (N.to_nat (nr_variables (w_s w)) + 1) p (w_s w) = negate p (w_s w).
Proof.
  intros Ho HR Hp H0. pose proof (reach_inv HE _ _ HR) as HW. destruct (live_ht _ _ _ _ Ho HR Hp H0) as (t&(_&_&Hr)&Ht).
  apply (lef_ok (fun n => negate_fuel n p)); [intros; by apply negate_lef| |]; intros s'; eapply sat_nl; [|by apply (negate_spec HE _ _ _ _ _ HW Hr)].
  apply (negate_fuel_spec HE _ _ _ _ _ _ HW Hr). lia.
Qed.
Lemma fu2_all md H s p q t u : md_ord md = true -> Inv md H s -> repr (s_heap s) p t -> repr (s_heap s) q u ->
  fu2 md s p q t u (2 * N.to_nat (nr_variables s) + 2).
Proof.
  intros Ho HI Hp Hq. right. split; [done|]. exists 0. pose proof (i_heap _ _ _ HI) as Hh. pose proof (swp_le p q).
  split_and!; [exact (ho_ord _ _ _ Hh Ho _ _ Hp)|exact (ho_ord _ _ _ Hh Ho _ _ Hq)|]. unfold nr_variables. lia.
Qed.
Theorem C74_and md w i j p q : md_ord md = true -> reach md w -> hnd w i = Some p -> p <> 0 -> hnd w j = Some q -> q <> 0 ->
  and_fuel (2 * N.to_nat (nr_variables (w_s w)) + 2) p q (w_s w) = and_rec p q (w_s w).
Proof.
  intros Ho HR Hp H0 Hq H1. pose proof (reach_inv HE _ _ HR) as HW. destruct (live_ht _ _ _ _ Ho HR Hp H0) as (t&(_&_&Hr)&Ht).
  destruct (live_ht _ _ _ _ Ho HR Hq H1) as (u&(_&_&Hru)&Hu).
  apply (lef_ok (fun n => and_fuel n p q)); [intros; by apply and_lef| |]; intros s'; eapply sat_nl; [|by apply (and_spec HE _ _ _ _ _ _ _ HW Hr Hru)].
  apply (and_fuel_spec_g HE _ _ _ _ _ _ _ _ HW Hr Hru). exact (fu2_all _ _ _ _ _ _ _ Ho HW Hr Hru).
Qed.
Theorem C74_or md w i j p q : md_ord md = true -> reach md w -> hnd w i = Some p -> p <> 0 -> hnd w j = Some q -> q <> 0 ->
  or_fuel (2 * N.to_nat (nr_variables (w_s w)) + 2) p q (w_s w) = or_rec p q (w_s w).
Proof.
  intros Ho HR Hp H0 Hq H1. pose proof (reach_inv HE _ _ HR) as HW. destruct (live_ht _ _ _ _ Ho HR Hp H0) as (t&(_&_&Hr)&Ht).
  destruct (live_ht _ _ _ _ Ho HR Hq H1) as (u&(_&_&Hru)&Hu). assert (Hm : md_or md = true) by (by destruct md).
  apply (lef_ok (fun n => or_fuel n p q)); [intros; by apply or_lef| |]; intros s'; eapply sat_nl; [|by apply (or_spec HE md _ _ _ _ _ _ Hm HW Hr Hru)].
  apply (or_fuel_spec_g HE md _ _ Hm _ _ _ _ _ HW Hr Hru). exact (fu2_all _ _ _ _ _ _ _ Ho HW Hr Hru).
Qed.
Theorem C74_and_limited md w i j limit p q : md_ord md = true -> reach md w -> allowed md w (OAndLim i j limit) -> hnd w i = Some p -> hnd w j = Some q ->
  and_limited_fuel (2 * N.to_nat (nr_variables (w_s w)) + 2) p q limit (w_s w) = and_rec_limited p q limit (w_s w).
Proof.
  intros Ho HR Ha Hp Hq. pose proof (reach_inv HE _ _ HR) as HW. destruct Ha as (Hi&Hj&Hm&Hlim&Hsz).
  destruct (live_hrep _ _ _ HW Hi) as (p'&t&Hr1). destruct (live_hrep _ _ _ HW Hj) as (q'&u&Hr2).
  assert (p' = p) as -> by (destruct Hr1; congruence). assert (q' = q) as -> by (destruct Hr2; congruence).
  destruct Hr1 as (_&_&Hr). destruct Hr2 as (_&_&Hru).
  assert (Hsz' : N.of_nat (size (s_heap (w_s w))) < size_max).
  { destruct (i_nc _ _ _ HW) as (_&_&_&_&Htot&_). unfold mgr_nr_nodes in Hsz. rewrite Htot in Hsz. exact Hsz. }
  apply (lef_ok (fun n => and_limited_fuel n p q limit)); [intros; by apply lim_lef| |]; intros s'; eapply sat_nl;
    [|by apply (and_limited_spec HE _ _ _ _ _ _ _ limit Hm Hlim Hsz' HW Hr Hru)].
  apply (and_limited_fuel_spec_g HE md _ limit _ Hm Hlim HW Hsz' _ _ _ _ _ _ HW (ext_refl _) Hr Hru). exact (fu2_all _ _ _ _ _ _ _ Ho HW Hr Hru).
Qed.
Lemma satu_nl {A} (m : M A) s Q s' : satu m s Q -> m s <> Fail ELoop s'.
Proof. unfold satu. intros H Heq. by rewrite Heq in H. Qed.
Theorem C74_ite md w i j k p q r : md_ord md = true -> reach md w -> hnd w i = Some p -> p <> 0 -> hnd w j = Some q -> q <> 0 ->
  hnd w k = Some r -> r <> 0 ->
  ite_fuel (N.to_nat (nr_variables (w_s w)) + 1) p q r (w_s w) = ite_rec p q r (w_s w).
Proof.
  intros Ho HR Hp H0 Hq H1 Hr H2. pose proof (reach_inv HE _ _ HR) as HW. destruct (live_ht _ _ _ _ Ho HR Hp H0) as (t&(_&_&Hrp)&Ht).
  destruct (live_ht _ _ _ _ Ho HR Hq H1) as (u&(_&_&Hrq)&Hu). destruct (live_ht _ _ _ _ Ho HR Hr H2) as (v&(_&_&Hrr)&Hv).
  apply (lef_ok (fun n => ite_fuel n p q r)); [intros; by apply ite_lef| |]; intros s'; eapply satu_nl; [|by apply (ite_exact HE md _ _ _ _ _ _ _ _ Ho HW Hrp Hrq Hrr)].
  apply (ite_fuel_exact_g HE md _ _ Ho _ _ _ _ _ _ _ HW Hrp Hrq Hrr). right. split; [done|]. exists 0. pose proof (i_heap _ _ _ HW) as Hh.
  split_and!; [exact (ho_ord _ _ _ Hh Ho _ _ Hrp)|exact (ho_ord _ _ _ Hh Ho _ _ Hrq)|exact (ho_ord _ _ _ Hh Ho _ _ Hrr)|]. unfold nr_variables. lia.
Qed.

(** traversals and queries: one activation per node of a path *)
Theorem C74_queries md w i p : md_ord md = true -> reach md w -> hnd w i = Some p -> p <> 0 ->
  let D := (N.to_nat (nr_variables (w_s w)) + 1)%nat in let s := w_s w in
  nr_nodes_impl D p s = with_fuel (fun n => nr_nodes_impl n p) s /\
  postorder_impl D p [] s = with_fuel (fun n => postorder_impl n p []) s /\
  exactly_one_solution_fuel D p s = exactly_one_solution p s /\ find_bdd_mgr_fuel D p s = find_bdd_mgr p s /\
  forall x, covers w x -> evaluate_fuel D p x s = evaluate p x s.
Proof.
  intros Ho HR Hp H0 D s. pose proof (reach_inv HE _ _ HR) as HW. destruct (live_ht _ _ _ _ Ho HR Hp H0) as (t&Hh&Ht).
  pose proof Hh as (_&_&Hr). pose proof (fuel_ht _ _ _ Hr) as Hf. destruct (dfs_ex _ p t Hr ∅) as (pre&post&S'&Hd).
  assert (Hns : sink p \/ p ∉ (∅ : gset N)) by (right; set_solver).
  assert (HD : (ht t < D)%nat) by (unfold D; lia). assert (HF : (ht t < fuel_of s)%nat) by (unfold s; lia).
  split_and!.
  - unfold with_fuel. pose proof (nr_nodes_dfs _ _ _ HW _ _ _ _ _ Hd _ t Hr HD Hns) as H1. pose proof (nr_nodes_dfs _ _ _ HW _ _ _ _ _ Hd _ t Hr HF Hns) as H2.
    rewrite mk_empty in H1, H2. unfold s in *. by rewrite H1, H2.
  - unfold with_fuel. rewrite !postorder_gtrav. pose proof (dfs_acc_post _ _ _ _ _ _ Hd []) as Ha.
    set (f1 := fun (_ : N) (_ : node) (a : list N) => a) in *. set (f2 := fun (p : N) (_ : node) (a : list N) => a ++ [p]) in *.
    assert (C1 : core_only f1) by done. assert (C2 : core_only f2) by done.
    pose proof (gtrav_acc _ _ _ HW f1 f2 C1 C2 _ _ _ _ _ Ha _ t Hr HD Hns) as H1.
    pose proof (gtrav_acc _ _ _ HW f1 f2 C1 C2 _ _ _ _ _ Ha _ t Hr HF Hns) as H2.
    rewrite mk_empty in H1, H2. unfold s in *. by rewrite H1, H2.
  - unfold s. rewrite (eos_fuel_spec _ _ _ HW _ p t Hr HD). symmetry. exact (exactly_one_solution_spec _ _ _ HW p t Hr).
  - unfold s. rewrite (find_bdd_mgr_fuel_spec _ _ _ HW _ p t Hr HD). symmetry. exact (find_bdd_mgr_spec _ _ _ HW p t Hr).
  - intros x Hx. assert (Hx' : forall v, occurs v t -> v < N.of_nat (length x)) by (intros v Hv; pose proof (hrep_occurs _ _ _ _ _ _ HW Hh Hv); unfold covers in Hx; lia).
    unfold s. rewrite (evaluate_fuel_spec _ _ _ HW x _ p t Hr HD Hx'). symmetry. exact (evaluate_spec _ _ _ HW p t x Hr Hx').
Qed.
End depth.
