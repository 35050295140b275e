(** * Witness8.v -- the hypotheses of the C73, C74 and C75 theorems hold in concrete histories *)
From Verif Require Export PropsGrow PropsGrow2 PropsDepth PropsCost Witness3.
Open Scope N_scope.

(** and_rec of handles 0 and 4 creates nodes: the bound is not vacuous *)
Example ex_C73_creates : (mgr_nr_nodes (w_s wo) <? mgr_nr_nodes (w_s (okw (step (OAnd 0 4) wo)))) = true.
Proof. by vm_compute. Qed.
Definition ex_C73_no_garbage := C73_no_garbage HE0 MOrd wo (OAnd 0 4) _ _ wo_r !!! (runs (OAnd 0 4) wo !!!).
Definition ex_C73_growth := C73_growth HE0 MOrd wo (OAnd 0 4) _ _ _ wo_r !!! !!! (runs (OAnd 0 4) wo !!!) (nn' (OAnd 0 4) 8 3 !!! !!! !!!).
Definition ex_C73_and := proj2 (C73_and HE0 MOrd wo (OAnd 0 4) 0 4 1 3 !!! wo_r (or_introl eq_refl) (nn 0 1 !!!) (nn 4 3 !!!)) !!!.
Definition ex_C73_and' := proj1 (C73_and HE0 MOrd wo (OpAnd 0 4) 0 4 1 3 !!! wo_r (or_intror eq_refl) (nn 0 1 !!!) (nn 4 3 !!!)) _ _ (runs (OpAnd 0 4) wo !!!).
Definition ex_C73_or := proj2 (C73_or HE0 MOrd wo (OOr 0 4) 0 4 1 3 !!! wo_r (or_introl eq_refl) (nn 0 1 !!!) (nn 4 3 !!!)) !!!.
Definition ex_C73_negate := proj2 (C73_negate HE0 MOrd wo (ONot 4) 4 3 !!! wo_r (or_introl eq_refl) (nn 4 3 !!!)) !!!.
Definition ex_C73_ite := proj2 (C73_ite HE0 MOrd wo 3 0 2 2 1 1 !!! wo_r !!! (nn 3 2 !!!) (nn 0 1 !!!) (nn 2 1 !!!)) !!!.
Definition ex_C73_limited := proj2 (C73_limited HE0 MOrd wo 0 4 100 1 3 !!! wo_r !!! (nn 0 1 !!!) (nn 4 3 !!!)) !!!.
Definition ex_C73_projection := proj2 (C73_projection HE0 MOrd wo (OProj 7) 7 wo_r !!! (or_introl eq_refl)) !!!.

(** ** C74 *)
Notation h_ i := (default 0 (hnd wo i)) (only parsing).
Definition ex_C74_negate := C74_negate HE0 MOrd wo 4 (h_ 4%nat) !!! wo_r !!! !!!.
Definition ex_C74_and := C74_and HE0 MOrd wo 0 4 (h_ 0%nat) (h_ 4%nat) !!! wo_r !!! !!! !!! !!!.
Definition ex_C74_or := C74_or HE0 MOrd wo 0 4 (h_ 0%nat) (h_ 4%nat) !!! wo_r !!! !!! !!! !!!.
Definition ex_C74_and_limited := C74_and_limited HE0 MOrd wo 0 4 100 (h_ 0%nat) (h_ 4%nat) !!! wo_r !!! !!! !!!.
Definition ex_C74_ite := C74_ite HE0 MOrd wo 3 0 2 (h_ 3%nat) (h_ 0%nat) (h_ 2%nat) !!! wo_r !!! !!! !!! !!! !!! !!!.
Definition ex_C74_queries := C74_queries HE0 MOrd wo 4 (h_ 4%nat) !!! wo_r !!! !!!.
(** with one activation less than a path has nodes the limited function gives up: the limit counts activations *)
Example ex_C74_limit : match negate_fuel 3 (h_ 4%nat) (w_s wo) with Fail ELoop _ => true | _ => false end = true.
Proof. by vm_compute. Qed.

(** ** C75 *)
Definition ex_C73_unique := proj2 (C73_unique HE0 MOrd wo 0 1 2 wo_r !!!) !!!.
Definition ex_C75_nr_nodes := C75_nr_nodes HE0 MOrd wo 4 _ 3 wo_r !!! !!! (nn 4 3 !!!).
Definition ex_C75_negate_exponential := C75_negate_exponential HE0 20 !!! !!!.
(** (x0 & x1) | x2 has three nodes and five paths; negate enters itself nine times *)
#[local] Opaque wo.
Lemma calls4 : negate_calls wo 4 9.
Proof.
  assert (match with_fuel (fun n => negate_count n (h_ 4%nat)) (w_s wo) with Ok (_, k) _ => k =? 9 | _ => false end = true) as H by (by vm_compute).
  destruct (with_fuel (fun n => negate_count n (h_ 4%nat)) (w_s wo)) as [[r k] s'|e s'] eqn:Hk; [|discriminate H].
  apply N.eqb_eq in H. subst k. exists (h_ 4%nat), r, s'. split; [exact (hnd_eq wo 4 !!!)|exact Hk].
Qed.
(** the number of paths, for the evaluation below *)
Fixpoint npaths (n : nat) (s : mstate) (p : ptr) : option N :=
  match n with
  | O => None
  | S n => if (p =? botsink) || (p =? topsink) then Some 1 else
    match s_heap s !! p with
    | None => None
    | Some x => match npaths n s (n_lo x), npaths n s (n_hi x) with Some a, Some b => Some (a + b) | _, _ => None end
    end
  end.
Lemma npaths_ok n s : forall p k, npaths n s p = Some k -> paths s p k.
Proof.
  induction n as [|n IH]; intros p k Hk; cbn [npaths] in Hk; [done|].
  destruct ((p =? botsink) || (p =? topsink)) eqn:Hs.
  - injection Hk as <-. apply paths_const. apply orb_true_iff in Hs as [Hs|Hs]; apply N.eqb_eq in Hs; unfold sink; auto.
  - destruct (s_heap s !! p) as [x|] eqn:Hx; [|done]. destruct (npaths n s (n_lo x)) as [a|] eqn:Ha; [|done].
    destruct (npaths n s (n_hi x)) as [b|] eqn:Hb; [|done]. injection Hk as <-.
    apply (paths_node _ _ x); auto. apply orb_false_iff in Hs as [Hs1 Hs2]. apply N.eqb_neq in Hs1, Hs2. intros [->| ->]; auto.
Qed.
Lemma paths4 : paths (w_s wo) (h_ 4%nat) 5.
Proof. apply (npaths_ok 5). by vm_compute. Qed.
Definition ex_C75_negate_paths := C75_negate_paths HE0 MOrd wo 4 (h_ 4%nat) 9 5 wo_r !!! !!! calls4 paths4.
Definition ex_C75_negate_bound := C75_negate_bound HE0 MOrd wo 4 9 !!! wo_r !!! calls4.
