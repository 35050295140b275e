(** * Witness12.v -- the hypotheses of the C75 theorems about the other traversals hold in a concrete history *)
From Verif Require Export PropsCost3 Witness8.
Open Scope N_scope.
Local Notation "'!!!'" := ltac:(ok) (only parsing).
#[local] Opaque wo.
(** (x0 & x1) | x2, three nodes *)
Definition ex_C75_nodes_postorder := C75_nodes_postorder HE0 MOrd wo 4 _ 3 wo_r !!! !!! (nn 4 3 !!!).
Definition ex_C75_nodes_bfs := C75_nodes_bfs HE0 MOrd wo 4 _ 3 wo_r !!! !!! (nn 4 3 !!!).
Definition ex_C75_variables := C75_variables HE0 MOrd wo 4 _ 3 wo_r !!! !!! (nn 4 3 !!!).
Definition ex_C75_print := C75_print HE0 MOrd wo 4 _ 3 wo_r !!! !!! (nn 4 3 !!!).
(** the breadth-first walk of three nodes makes 4 tests of its queue and 7 calls of unmark, and the check 14 calls where asserts are on *)
Example ex_C75_bfs_number : match nodes_bfs_count (h_ 4%nat) (w_s wo) with Ok (l, k) _ => (N.of_nat (length l) =? 3) && (11 <=? k) | _ => false end = true.
Proof. by vm_compute. Qed.
