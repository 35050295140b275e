(** * Witness17.v -- the hypotheses of the C74 theorems that need no order hold in concrete histories *)
From Verif Require Export PropsDepth2 Witness16.
Open Scope N_scope.
Local Notation "'!!!'" := ltac:(ok) (only parsing).
#[local] Opaque wo wu wx wm.
Lemma hpe w i : someb w i = true -> hnd w i = Some (addr w i). Proof. apply hnd_eq. Qed.
Definition ex_C74_negate_nodes := C74_negate_nodes HE0 MMix wm 2 _ _ wm_r (hpe wm 2 !!!) (nng MMix wm 2 2 wm_r !!!).
Definition ex_C74_and_nodes := C74_and_nodes HE0 MMix wm 2 5 _ _ _ _ wm_r (hpe wm 2 !!!) (hpe wm 5 !!!) (nng MMix wm 2 2 wm_r !!!) (nng MMix wm 5 2 wm_r !!!).
Definition ex_C74_and_limited_nodes := C74_and_limited_nodes HE0 MMix wm 2 5 100 _ _ _ _ wm_r !!! (hpe wm 2 !!!) (hpe wm 5 !!!) (nng MMix wm 2 2 wm_r !!!) (nng MMix wm 5 2 wm_r !!!).
Definition ex_C74_or_nodes := C74_or_nodes HE0 MOr wu 4 5 _ _ _ _ eq_refl wu_r (hpe wu 4 !!!) (hpe wu 5 !!!) (nng MOr wu 4 3 wu_r !!!) (nng MOr wu 5 3 wu_r !!!).
Definition ex_C74_ite_nodes := C74_ite_nodes HE0 MOr wu 3 4 5 _ _ _ _ _ _ ite_u_allowed wu_r (hpe wu 3 !!!) (hpe wu 4 !!!) (hpe wu 5 !!!)
  (nng MOr wu 3 2 wu_r !!!) (nng MOr wu 4 3 wu_r !!!) (nng MOr wu 5 3 wu_r !!!).
Definition ex_C74_queries_nodes := C74_queries_nodes HE0 MOr wu 4 _ _ wu_r (hpe wu 4 !!!) (nng MOr wu 4 3 wu_r !!!).
Definition ex_C74_xor_nodes := C74_xor_nodes HE0 MXor wx 5 4 _ _ 1 4 eq_refl wx_r (hpe wx 5 !!!) (hpe wx 4 !!!) (nnx 5 1 !!!) (nnx 4 4 !!!).
(** a limit that is too small is noticed: two nested activations of xor_rec are not enough here *)
Example ex_C74_xor_limit : match xor_fuel 2 (addr wx 5) (addr wx 4) (w_s wx) with Fail ELoop _ => true | _ => false end = true.
Proof. by vm_compute. Qed.
