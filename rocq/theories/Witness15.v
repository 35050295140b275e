(** * Witness15.v -- the hypotheses of the C81 theorems hold in a concrete history *)
From Verif Require Export PropsXor Witness14.
Open Scope N_scope.
Local Notation "'!!!'" := ltac:(ok) (only parsing).
#[local] Opaque wo wx.
Lemma nnx i n : liveb wx i && negb (constb wx i) && (nrb wx i =? n) = true -> nnodes wx i (N.to_nat n).
Proof. rewrite !andb_true_iff, negb_true_iff, N.eqb_eq. intros [[H1 H2] <-]. by apply (nnodes_eq MXor); [apply wx_r| |]. Qed.
Definition xr (w : world) (i j : nat) := with_fuel (fun n => xor_count n (addr w i) (addr w j)) (w_s w).
Lemma xr_ok w i j k : someb w i = true -> someb w j = true -> match xr w i j with Ok (_, k') _ => k' =? k | _ => false end = true -> exists r s', xor_rec_calls w i j k r s'.
Proof.
  intros Hi%hnd_eq Hj%hnd_eq H. destruct (xr w i j) as [[r k'] s'|e s'] eqn:Hk; [|discriminate H]. apply N.eqb_eq in H as <-.
  exists r, s', (addr w i), (addr w j). done.
Qed.
(** !x0 xor ((x0 xor x1) & x2): eight activations, at most 4 * 1 * 4 + 2 *)
Lemma calls_xor : exists r s', xor_rec_calls wx 5 4 8 r s'.
Proof. apply xr_ok; by vm_compute. Qed.
Definition ex_C81_xor_product r s' := C81_xor_product HE0 MXor wx 5 4 _ _ 1 4 8 r s' eq_refl wx_r (hnd_eq wx 5 !!!) (hnd_eq wx 4 !!!) (nnx 5 1 !!!) (nnx 4 4 !!!) (apartb_ok MXor wx 5 4 _ _ xor_symb wx_r (hnd_eq wx 5 !!!) (hnd_eq wx 4 !!!) !!! !!! !!! !!! !!!).
Lemma nconst w i : negb (constb w i) = true -> ~ isconst w i.
Proof. intros H%negb_true_iff. by apply constb_ok. Qed.
Definition ex_C81_xor_repeat := C81_xor_repeat HE0 MXor wx 5 4 _ _ wx_r !!! (nconst wx 5 !!!) (nconst wx 4 !!!) (runs (OXor 5 4) wx !!!).
Definition ex_C81_xor_bound r s' := C81_xor_bound HE0 MXor wx 5 4 1 4 8 r s' eq_refl wx_r (nnx 5 1 !!!) (nnx 4 4 !!!).
