(** * Witness9.v -- the hypotheses of the C76 theorems hold for concrete collections *)
From Verif Require Export PropsCollSize Witness2 Witness3.
Open Scope N_scope.
Local Notation "'!!!'" := ltac:(ok) (only parsing).

Lemma c2_of : ofbuilt c2.
Proof. apply (obuilt_and c1 [0; 1; 2] 100 (andk c1 [0; 1; 2] 100)); [apply c1_o|apply forall_lt; comp|lia|apply c1_sat|apply andc_eq; comp|apply c2_s]. Qed.
(** BDD 1 was added, BDD 3 is a conjunction: both are x0 & x1 *)
Lemma c2_same x : ccovers c2 1 x -> ccovers c2 3 x -> cval c2 1 x = cval c2 3 x.
Proof.
  intros _ _. destruct x as [|p [|q [|r x]]]; [..|rewrite (cval_3 c2 1), (cval_3 c2 3) by first [apply c2_b|apply c2_s|comp]];
    repeat match goal with b : bool |- _ => destruct b end; by vm_compute.
Qed.
Lemma c2_nr1 : nr_bdd_nodes c2 1 = inr 4. Proof. comp. Qed.
Definition ex_C76_same_size := C76_same_size HE0 c2 c2 1 3 _ _ c2_of c2_of c2_s c2_s !!! !!! c2_same c2_nr1 c2_nr.
Lemma c2_like x : ccovers c2 3 x -> covers wo x -> cval c2 3 x = Some (bev (BA x0 x1) x).
Proof.
  intros _ Hx. assert (Hl : (3 <= length x)%nat).
  { unfold covers in Hx. assert (nr_variables (w_s wo) = 3) as Hn by comp. rewrite Hn in Hx. lia. }
  destruct x as [|p [|q [|r x]]]; simpl in Hl; try lia. rewrite (cval_3 c2 3) by first [apply c2_b|apply c2_s|comp].
  destruct p, q, r; by vm_compute.
Qed.
Definition ex_C76_like_manager := C76_like_manager HE0 c2 3 4 MOrd wo 3 (bev (BA x0 x1)) 2 c2_of c2_s !!! !!! wo_r (evo 3 (BA x0 x1) !!!) (nn 3 2 !!!) c2_like c2_nr.
Lemma c1_gr x : ccovers c1 0 x -> exists b, cval c1 0 x = Some b /\ gval gr (inr 0) (asg x) b.
Proof.
  intros Hx. assert (Hl : 2 < N.of_nat (length x)).
  { apply Hx. exists (Instr 3 4 2). split; [|done]. exists 0, 5, 2. split; [split; comp|]. split; [lia|comp]. }
  exists (bev F4 x). split.
  - destruct x as [|p [|q [|r x]]]; simpl in Hl; try lia. rewrite (cval_3 c1 0) by first [apply c1_b|apply c1_s|comp]. destruct p, q, r; by vm_compute.
  - apply gr_v. unfold covers. assert (nr_variables (w_s wo) = 3) as -> by comp. lia.
Qed.
Definition ex_C76_minimal := C76_minimal HE0 c1 0 5 c1_o c1_s !!! !!! gr (inr 0) gr_o gr_c (ex_intro _ _ gr_0) c1_gr.
Lemma c1_sizes : Forall2 (fun b n => nr_bdd_nodes c1 b = inr n) [0; 1; 2] [5; 4; 3].
Proof. repeat constructor; comp. Qed.
Definition ex_C76_and := C76_and HE0 c1 [0; 1; 2] [5; 4; 3] 25 c1_o c1_s (forall_lt c1 [0; 1; 2] !!!) !!! c1_sat c1_sizes !!! !!!.
Definition ex_C76_and2 := C76_and2 HE0 c1 0 1 5 4 13 c1_o c1_s !!! !!! c1_sat2 !!! !!! !!! !!!.
