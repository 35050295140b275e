(** * Witness14.v -- the hypotheses of the C80 theorems hold in a concrete history *)
From Verif Require Export PropsMem Witness13.
Open Scope N_scope.
Local Notation "'!!!'" := ltac:(ok) (only parsing).
#[local] Opaque wo.
Definition tabb (w : world) (v : N) : vtab := List.nth (N.to_nat v) (s_vars (w_s w)) (VTab (Page (PgId 0 0 0) []) 0 0 0).
Lemma tabb_ok w v : (Nat.ltb (N.to_nat v) (length (s_vars (w_s w)))) = true -> s_vars (w_s w) !! N.to_nat v = Some (tabb w v).
Proof. intros Hl%Nat.ltb_lt. unfold tabb. rewrite nth_lookup. destruct (lookup_lt_is_Some_2 _ _ Hl) as [t Ht]. by rewrite Ht. Qed.
(** three tables of 64 slots, one page of nodes, four slots of memo cache *)
Example ex_C80_figures : map (fun t => vt_size t) (s_vars (w_s wo)) = [64; 64; 64] /\ nc_npages (s_nc (w_s wo)) = 1%nat /\ length (mc_tab (s_memo (w_s wo))) = 4%nat.
Proof. by vm_compute. Qed.
Definition ex_C80_table := C80_table HE0 MOrd wo 0 _ wo_r (tabb_ok wo 0 !!!).
Definition ex_C80_tables := C80_tables HE0 MOrd wo wo_r.
Definition ex_C80_node_pages := C80_node_pages MOrd wo wo_r.
Definition ex_C80_memo_cache := C80_memo_cache MOrd wo wo_r.
