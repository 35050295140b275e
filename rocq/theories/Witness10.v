(** * Witness10.v -- the hypotheses of the C77 theorems hold for concrete collections *)
From Verif Require Export PropsCollCost Witness9.
Open Scope N_scope.
Local Notation "'!!!'" := ltac:(ok) (only parsing).

Definition ex_C77_and_counted := C77_and_counted HE0 c1 [0; 1; 2] 100 c1_b (forall_lt c1 [0; 1; 2] !!!) !!! !!!.
Definition ex_C77_and2_counted := C77_and_counted HE0 c1 [0; 1] 100 c1_b (forall_lt c1 [0; 1] !!!) !!! !!!.
Lemma c1_vars b v : b ∈ [0; 1; 2] -> cvar c1 b v -> v < 3.
Proof.
  intros Hb H. apply N.ltb_lt. revert v H. apply (cvar_lt c1 b (fun v => v <? 3) c1_b c1_s);
    (apply elem_of_cons in Hb as [-> |Hb]; [comp|apply elem_of_cons in Hb as [-> |Hb]; [comp|apply elem_of_list_singleton in Hb as ->; comp]]).
Qed.
Lemma lim100 : 2 < 100 < 2 ^ 62. Proof. by vm_compute. Qed.
Lemma len3 : (2 <= length [0; 1; 2] <= 49)%nat. Proof. simpl. lia. Qed.
Definition ex_C77_and_at_most := C77_and_at_most HE0 c1 [0; 1; 2] 100 3 c1_o (forall_lt c1 [0; 1; 2] !!!) len3 lim100 c1_vars.
Lemma c1_calls : and_calls c1 [0; 1; 2] 100 5.
Proof.
  assert (match and_calls_run c1 [0; 1; 2] 100 with inr (_, k) => k =? 5 | _ => false end = true) as H by comp. unfold and_calls.
  destruct (and_calls_run c1 [0; 1; 2] 100) as [|[r k]]; [done|]. apply N.eqb_eq in H as ->. by exists r.
Qed.
Definition ex_C77_and_exponential := C77_and_exponential HE0 3 !!! !!!.
Definition ex_C77_and_depth := C77_and_depth HE0 c1 [0; 1; 2] 100 3 c1_o (forall_lt c1 [0; 1; 2] !!!) len3 (proj1 lim100) c1_vars.
