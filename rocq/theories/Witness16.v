(** * Witness16.v -- the hypotheses of the C78 theorems that need no order hold in concrete histories *)
From Verif Require Export PropsCost4 Witness15.
Open Scope N_scope.
Local Notation "'!!!'" := ltac:(ok) (only parsing).
#[local] Opaque wo wu wx wm.
Lemma nng md w i n : reach md w -> liveb w i && negb (constb w i) && (nrb w i =? n) = true -> nnodes w i (N.to_nat n).
Proof. intros HR. rewrite !andb_true_iff, negb_true_iff, N.eqb_eq. intros [[H1 H2] <-]. by apply (nnodes_eq md). Qed.
Definition andr (w : world) (i j : nat) := with_fuel (fun n => and_count n (addr w i) (addr w j)) (w_s w).
Definition orr (w : world) (i j : nat) := with_fuel (fun n => or_count n (addr w i) (addr w j)) (w_s w).
Definition iter (w : world) (i j l : nat) := with_fuel (fun n => ite_count n (addr w i) (addr w j) (addr w l)) (w_s w).
Definition cntb (r : res (ptr * N)) (k : N) : bool := match r with Ok (_, k') _ => k' =? k | _ => false end.
Lemma andr_ok w i j k : someb w i = true -> someb w j = true -> cntb (andr w i j) k = true -> exists r s', and_rec_calls w i j k r s'.
Proof.
  intros Hi%hnd_eq Hj%hnd_eq H. unfold cntb in H. destruct (andr w i j) as [[r k'] s'|e s'] eqn:Hk; [|discriminate H]. apply N.eqb_eq in H as <-.
  exists r, s', (addr w i), (addr w j). done.
Qed.
Lemma orr_ok w i j k : someb w i = true -> someb w j = true -> cntb (orr w i j) k = true -> exists r s', or_rec_calls w i j k r s'.
Proof.
  intros Hi%hnd_eq Hj%hnd_eq H. unfold cntb in H. destruct (orr w i j) as [[r k'] s'|e s'] eqn:Hk; [|discriminate H]. apply N.eqb_eq in H as <-.
  exists r, s', (addr w i), (addr w j). done.
Qed.
Lemma iter_ok w i j l k : someb w i = true -> someb w j = true -> someb w l = true -> cntb (iter w i j l) k = true -> exists r s', ite_rec_calls w i j l k r s'.
Proof.
  intros Hi%hnd_eq Hj%hnd_eq Hl%hnd_eq H. unfold cntb in H. destruct (iter w i j l) as [[r k'] s'|e s'] eqn:Hk; [|discriminate H]. apply N.eqb_eq in H as <-.
  exists r, s', (addr w i), (addr w j), (addr w l). done.
Qed.
Lemma calls_and_u : exists r s', and_rec_calls wm 2 5 4 r s'. Proof. apply andr_ok; by vm_compute. Qed.
Lemma calls_or_u : exists r s', or_rec_calls wu 4 5 9 r s'. Proof. apply orr_ok; by vm_compute. Qed.
Lemma calls_ite_u : exists r s', ite_rec_calls wu 3 4 5 5 r s'. Proof. apply iter_ok; by vm_compute. Qed.
Lemma ite_u_allowed : allowed MOr wu (OIte 3 4 5).
Proof. split; [exact (liveb_ok wu 3 !!!)|]. split; [exact (liveb_ok wu 4 !!!)|]. split; [exact (liveb_ok wu 5 !!!)|]. split; [done|]. right. exact wu_supp. Qed.
Definition ex_C78_and_nodes r s' := C78_and_nodes HE0 MMix wm 2 5 2 2 4 r s' wm_r (nng MMix wm 2 2 wm_r !!!) (nng MMix wm 5 2 wm_r !!!).
Definition ex_C78_or_nodes r s' := C78_or_nodes HE0 MOr wu 4 5 3 3 9 r s' eq_refl wu_r (nng MOr wu 4 3 wu_r !!!) (nng MOr wu 5 3 wu_r !!!).
Definition ex_C78_ite_nodes r s' := C78_ite_nodes HE0 MOr wu 3 4 5 2 3 3 5 r s' ite_u_allowed wu_r (nng MOr wu 3 2 wu_r !!!) (nng MOr wu 4 3 wu_r !!!) (nng MOr wu 5 3 wu_r !!!).
