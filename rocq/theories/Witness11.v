(** * Witness11.v -- the hypotheses of the C78 theorems hold in a concrete history *)
From Verif Require Export PropsCost2 Witness8.
Open Scope N_scope.
Local Notation "'!!!'" := ltac:(ok) (only parsing).
#[local] Opaque wo.
(** x1 & ((x0 & x1) | x2): seven activations *)
Lemma calls_and : exists r s', and_rec_calls wo 1 4 7 r s'.
Proof.
  assert (match with_fuel (fun n => and_count n (h_ 1%nat) (h_ 4%nat)) (w_s wo) with Ok (_, k) _ => k =? 7 | _ => false end = true) as H by (by vm_compute).
  destruct (with_fuel (fun n => and_count n (h_ 1%nat) (h_ 4%nat)) (w_s wo)) as [[r k] s'|e s'] eqn:Hk; [|discriminate H].
  apply N.eqb_eq in H. subst k. exists r, s', (h_ 1%nat), (h_ 4%nat). split; [exact (hnd_eq wo 1 !!!)|]. split; [exact (hnd_eq wo 4 !!!)|exact Hk].
Qed.
Definition ex_C78_and_bound r s' := C78_and_bound HE0 MOrd wo 1 4 7 r s' !!! wo_r !!! !!!.
(** x2 | ((x0 & x1) | x2): six *)
Lemma calls_or : exists r s', or_rec_calls wo 2 4 6 r s'.
Proof.
  assert (match with_fuel (fun n => or_count n (h_ 2%nat) (h_ 4%nat)) (w_s wo) with Ok (_, k) _ => k =? 6 | _ => false end = true) as H by (by vm_compute).
  destruct (with_fuel (fun n => or_count n (h_ 2%nat) (h_ 4%nat)) (w_s wo)) as [[r k] s'|e s'] eqn:Hk; [|discriminate H].
  apply N.eqb_eq in H. subst k. exists r, s', (h_ 2%nat), (h_ 4%nat). split; [exact (hnd_eq wo 2 !!!)|]. split; [exact (hnd_eq wo 4 !!!)|exact Hk].
Qed.
Definition ex_C78_or_bound r s' := C78_or_bound HE0 MOrd wo 2 4 6 r s' !!! wo_r !!! !!!.
(** ite(x1, (x0 & x1) | x2, x2): five *)
Lemma calls_ite : exists r s', ite_rec_calls wo 1 4 2 5 r s'.
Proof.
  assert (match with_fuel (fun n => ite_count n (h_ 1%nat) (h_ 4%nat) (h_ 2%nat)) (w_s wo) with Ok (_, k) _ => k =? 5 | _ => false end = true) as H by (by vm_compute).
  destruct (with_fuel (fun n => ite_count n (h_ 1%nat) (h_ 4%nat) (h_ 2%nat)) (w_s wo)) as [[r k] s'|e s'] eqn:Hk; [|discriminate H].
  apply N.eqb_eq in H. subst k. exists r, s', (h_ 1%nat), (h_ 4%nat), (h_ 2%nat).
  split; [exact (hnd_eq wo 1 !!!)|]. split; [exact (hnd_eq wo 4 !!!)|]. split; [exact (hnd_eq wo 2 !!!)|exact Hk].
Qed.
Definition ex_C78_ite_bound r s' := C78_ite_bound HE0 MOrd wo 1 4 2 5 r s' !!! wo_r !!! !!! !!!.
Definition ex_C78_and_repeat := C78_and_repeat HE0 MOrd wo 1 4 _ _ wo_r !!! (runs (OAnd 1 4) wo !!!).
Definition ex_C78_or_repeat := C78_or_repeat HE0 MOrd wo 2 4 _ _ wo_r !!! (runs (OOr 2 4) wo !!!).
