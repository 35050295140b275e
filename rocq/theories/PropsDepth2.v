(** * PropsDepth2.v -- how deep the recursive functions recurse in managers whose BDDs need not be ordered (C74)

    As in PropsDepth.v, but the limits depend on the numbers of nodes of the operands and hold in
    every history. *)
From Verif Require Export PropsXor PropsDepth PropsCost4.
Open Scope N_scope.

Section depth2.
Context {E : Env} (HE : env_ok E).
Lemma nnodes_ht md w i p n : reach md w -> hnd w i = Some p -> nnodes w i n -> p <> 0 /\ exists t, hrep w i p t /\ (ht t <= n)%nat.
Proof.
  intros HR Hp (q&l&Hq&Hq0&_&Hl&<-). assert (q = p) as -> by congruence. split; [done|].
  pose proof (reach_inv HE _ _ HR) as HW. destruct (winv_repr _ _ _ _ HW Hp Hq0) as [t Ht]. exists t. split; [done|].
  exact (ht_nodes _ _ _ _ l HW Ht (fun x Hx => proj2 (Hl x) Hx)).
Qed.
Lemma xor_lef : forall n m, (n <= m)%nat -> forall f g, lef (xor_fuel n f g) (xor_fuel m f g).
Proof.
  intros n; induction n as [|n IH]; intros [|m] Hle f g; [apply lef_loop|apply lef_loop|lia|]. cbn [xor_fuel]. cbv zeta.
  repeat lazymatch goal with
  | |- lef (bind _ _) (bind _ _) => apply lef_bind; [|intros ?]
  | |- lef ?m ?m => apply lef_refl
  | |- lef (match ?x with _ => _ end) _ => destruct x
  | |- lef (xor_fuel _ _ _) _ => apply IH; lia
  end.
Qed.
Theorem C74_negate_nodes md w i p n : reach md w -> hnd w i = Some p -> nnodes w i n -> negate_fuel (n + 1) p (w_s w) = negate p (w_s w).
Proof.
  intros HR Hp Hn. pose proof (reach_inv HE _ _ HR) as HW. destruct (nnodes_ht _ _ _ _ _ HR Hp Hn) as (_&t&(_&_&Hr)&Ht).
  apply (lef_ok (fun n => negate_fuel n p)); [intros; by apply negate_lef| |]; intros s'; eapply sat_nl; [|by apply (negate_spec HE _ _ _ _ _ HW Hr)].
  apply (negate_fuel_spec HE _ _ _ _ _ _ HW Hr). lia.
Qed.
Theorem C74_and_nodes md w i j p q n m : reach md w -> hnd w i = Some p -> hnd w j = Some q -> nnodes w i n -> nnodes w j m ->
  and_fuel (2 * (n + m) + 2) p q (w_s w) = and_rec p q (w_s w).
Proof.
  intros HR Hp Hq Hn Hm. pose proof (reach_inv HE _ _ HR) as HW. destruct (nnodes_ht _ _ _ _ _ HR Hp Hn) as (_&t&(_&_&Hr)&Ht).
  destruct (nnodes_ht _ _ _ _ _ HR Hq Hm) as (_&u&(_&_&Hru)&Hu). pose proof (swp_le p q).
  apply (lef_ok (fun n => and_fuel n p q)); [intros; by apply and_lef| |]; intros s'; eapply sat_nl; [|by apply (and_spec HE _ _ _ _ _ _ _ HW Hr Hru)].
  apply (and_fuel_spec_g HE _ _ _ _ _ _ _ _ HW Hr Hru). left. lia.
Qed.
Theorem C74_and_limited_nodes md w i j limit p q n m : reach md w -> allowed md w (OAndLim i j limit) -> hnd w i = Some p -> hnd w j = Some q -> nnodes w i n -> nnodes w j m ->
  and_limited_fuel (2 * (n + m) + 2) p q limit (w_s w) = and_rec_limited p q limit (w_s w).
Proof.
  intros HR (_&_&Hm&Hlim&Hsz) Hp Hq Hn Hm'. pose proof (reach_inv HE _ _ HR) as HW. destruct (nnodes_ht _ _ _ _ _ HR Hp Hn) as (_&t&(_&_&Hr)&Ht).
  destruct (nnodes_ht _ _ _ _ _ HR Hq Hm') as (_&u&(_&_&Hru)&Hu). pose proof (swp_le p q).
  assert (Hsz' : N.of_nat (size (s_heap (w_s w))) < size_max).
  { destruct (i_nc _ _ _ HW) as (_&_&_&_&Htot&_). unfold mgr_nr_nodes in Hsz. rewrite Htot in Hsz. exact Hsz. }
  apply (lef_ok (fun n => and_limited_fuel n p q limit)); [intros; by apply lim_lef| |]; intros s'; eapply sat_nl;
    [|by apply (and_limited_spec HE _ _ _ _ _ _ _ limit Hm Hlim Hsz' HW Hr Hru)].
  apply (and_limited_fuel_spec_g HE md _ limit _ Hm Hlim HW Hsz' _ _ _ _ _ _ HW (ext_refl _) Hr Hru). left. lia.
Qed.
Theorem C74_or_nodes md w i j p q n m : md_or md = true -> reach md w -> hnd w i = Some p -> hnd w j = Some q -> nnodes w i n -> nnodes w j m ->
  or_fuel (2 * (n + m) + 2) p q (w_s w) = or_rec p q (w_s w).
Proof.
  intros Ho HR Hp Hq Hn Hm. pose proof (reach_inv HE _ _ HR) as HW. destruct (nnodes_ht _ _ _ _ _ HR Hp Hn) as (_&t&(_&_&Hr)&Ht).
  destruct (nnodes_ht _ _ _ _ _ HR Hq Hm) as (_&u&(_&_&Hru)&Hu). pose proof (swp_le p q).
  apply (lef_ok (fun n => or_fuel n p q)); [intros; by apply or_lef| |]; intros s'; eapply sat_nl; [|by apply (or_spec HE md _ _ _ _ _ _ Ho HW Hr Hru)].
  apply (or_fuel_spec_g HE md _ _ Ho _ _ _ _ _ HW Hr Hru). left. lia.
Qed.
Theorem C74_xor_nodes md w i j p q n m : md_xor md = true -> reach md w -> hnd w i = Some p -> hnd w j = Some q -> nnodes w i n -> nnodes w j m ->
  xor_fuel (2 * (n + m) + 2) p q (w_s w) = xor_rec p q (w_s w).
Proof.
  intros Ho HR Hp Hq Hn Hm. pose proof (reach_inv HE _ _ HR) as HW. destruct (nnodes_ht _ _ _ _ _ HR Hp Hn) as (_&t&(_&_&Hr)&Ht).
  destruct (nnodes_ht _ _ _ _ _ HR Hq Hm) as (_&u&(_&_&Hru)&Hu). pose proof (swp_le p q).
  apply (lef_ok (fun n => xor_fuel n p q)); [intros; by apply xor_lef| |]; intros s'; eapply sat_nl; [|by apply (xor_spec HE md _ _ _ _ _ _ Ho HW Hr Hru)].
  apply (xor_fuel_spec HE md _ _ Ho _ _ _ _ _ HW Hr Hru). lia.
Qed.
Theorem C74_ite_nodes md w i j l p q r n m o : allowed md w (OIte i j l) -> reach md w -> hnd w i = Some p -> hnd w j = Some q -> hnd w l = Some r ->
  nnodes w i n -> nnodes w j m -> nnodes w l o -> ite_fuel (n + m + o + 1) p q r (w_s w) = ite_rec p q r (w_s w).
Proof.
  intros (_&_&_&Hmd&Hok) HR Hp Hq Hx Hn Hm Ho. pose proof (reach_inv HE _ _ HR) as HW.
  destruct (nnodes_ht _ _ _ _ _ HR Hp Hn) as (Hp0&t&(_&_&Ht)&H1). destruct (nnodes_ht _ _ _ _ _ HR Hq Hm) as (Hq0&u&(_&_&Hu)&H2).
  destruct (nnodes_ht _ _ _ _ _ HR Hx Ho) as (Hx0&v&(_&_&Hv)&H3).
  assert (Hto : ite_ok md (nr_variables (w_s w)) t u v).
  { destruct Hok as [[Hod Hc]|Hnn].
    - left. split; [done|]. by eapply (clash_safe _ _ _ _ _ _ _ _ _ _ _ HW (conj Hp (conj Hp0 Ht)) (conj Hq (conj Hq0 Hu)) (conj Hx (conj Hx0 Hv))).
    - right. intros Hoc. apply Hnn. exact (proj2 (supp_hrep _ _ _ _ _ _ HW (conj Hp (conj Hp0 Ht))) Hoc). }
  apply (lef_ok (fun n => ite_fuel n p q r)); [intros; by apply ite_lef| |]; intros s'; eapply sat_nl; [|by apply (ite_spec HE md _ _ _ _ _ _ _ _ Hmd HW Ht Hu Hv Hto)].
  apply (ite_fuel_spec HE md _ _ Hmd _ _ _ _ _ _ _ HW Ht Hu Hv Hto). lia.
Qed.
(** traversals and queries: one activation per node of a path *)
Theorem C74_queries_nodes md w i p n : reach md w -> hnd w i = Some p -> nnodes w i n ->
  let D := (n + 1)%nat in let s := w_s w in
  nr_nodes_impl D p s = with_fuel (fun n => nr_nodes_impl n p) s /\
  postorder_impl D p [] s = with_fuel (fun n => postorder_impl n p []) s /\
  exactly_one_solution_fuel D p s = exactly_one_solution p s /\ find_bdd_mgr_fuel D p s = find_bdd_mgr p s /\
  forall x, covers w x -> evaluate_fuel D p x s = evaluate p x s.
Proof.
  intros HR Hp Hn D s. pose proof (reach_inv HE _ _ HR) as HW. destruct (nnodes_ht _ _ _ _ _ HR Hp Hn) as (_&t&Hh&Ht).
  pose proof Hh as (_&_&Hr). pose proof (fuel_ht _ _ _ Hr) as Hf. destruct (dfs_ex _ p t Hr ∅) as (pre&post&S'&Hd).
  assert (Hns : sink p \/ p ∉ (∅ : gset N)) by (right; set_solver).
  assert (HD : (ht t < D)%nat) by (unfold D; lia). assert (HF : (ht t < fuel_of s)%nat) by (unfold s; lia).
  split_and!.
  - unfold with_fuel. pose proof (nr_nodes_dfs _ _ _ HW _ _ _ _ _ Hd _ t Hr HD Hns) as H1. pose proof (nr_nodes_dfs _ _ _ HW _ _ _ _ _ Hd _ t Hr HF Hns) as H2.
    rewrite mk_empty in H1, H2. unfold s in *. by rewrite H1, H2.
  - unfold with_fuel. rewrite !postorder_gtrav. pose proof (dfs_acc_post _ _ _ _ _ _ Hd []) as Ha.
    set (f1 := fun (_ : N) (_ : node) (a : list N) => a) in *. set (f2 := fun (p : N) (_ : node) (a : list N) => a ++ [p]) in *.
    assert (C1 : core_only f1) by done. assert (C2 : core_only f2) by done.
    pose proof (gtrav_acc _ _ _ HW f1 f2 C1 C2 _ _ _ _ _ Ha _ t Hr HD Hns) as H1.
    pose proof (gtrav_acc _ _ _ HW f1 f2 C1 C2 _ _ _ _ _ Ha _ t Hr HF Hns) as H2.
    rewrite mk_empty in H1, H2. unfold s in *. by rewrite H1, H2.
  - unfold s. rewrite (eos_fuel_spec _ _ _ HW _ p t Hr HD). symmetry. exact (exactly_one_solution_spec _ _ _ HW p t Hr).
  - unfold s. rewrite (find_bdd_mgr_fuel_spec _ _ _ HW _ p t Hr HD). symmetry. exact (find_bdd_mgr_spec _ _ _ HW p t Hr).
  - intros x Hx. assert (Hx' : forall v, occurs v t -> v < N.of_nat (length x)) by (intros v Hv; pose proof (hrep_occurs _ _ _ _ _ _ HW Hh Hv); unfold covers in Hx; lia).
    unfold s. rewrite (evaluate_fuel_spec _ _ _ HW x _ p t Hr HD Hx'). symmetry. exact (evaluate_spec _ _ _ HW p t x Hr Hx').
Qed.
End depth2.
