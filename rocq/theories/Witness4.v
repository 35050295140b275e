(** * Witness4.v -- every theorem applied to a concrete, non-trivial case, continued: rerouting, export_graphviz, entries *)
From Verif Require Export Witness3 Refute3.
Open Scope N_scope.

#[local] Existing Instance TE.
#[local] Opaque wo wu wx wm.
Notation "'!!!'" := ltac:(ok) (only parsing).
(** the nodes of BDD 0 of [c1], x0&x1|x2 *)
Definition nthb (c : coll) (nr k : N) : cnode := match entry_nth c nr k with inr m => m | inl _ => (0, 0) end.
Definition nthok (c : coll) (nr k : N) : bool := match nr_bdd_nodes c nr, entry_nth c nr k with inr n, inr _ => k <? n | _, _ => false end.
Lemma nth_ok c nr k : nthok c nr k = true -> node_nr c nr k (nthb c nr k).
Proof.
  unfold nthok, nthb. destruct (nr_bdd_nodes c nr) as [|n] eqn:Hn; [done|]. destruct (entry_nth c nr k) as [|m] eqn:Hm; [done|]. intros H%N.ltb_lt. by exists n.
Qed.
(** ** Rerouting *)
Definition ex_C65_set_lo_arc := C65_set_lo_arc HE0 c1 0 1 3 _ _ c1_b c1_s !!! (nth_ok c1 0 1 !!!) (nth_ok c1 0 3 !!!) !!! !!!.
Definition ex_C65_set_hi_arc := C65_set_hi_arc HE0 c1 0 0 2 _ _ c1_b c1_s !!! (nth_ok c1 0 0 !!!) (nth_ok c1 0 2 !!!) !!! !!!.
Lemma c1_bot : entry_sink false c1 0 = inr (3, 0). Proof. comp. Qed.
Definition ex_C65_to_terminal := C65_to_terminal HE0 true false c1 0 1 _ _ c1_b c1_s !!! (nth_ok c1 0 1 !!!) !!! c1_bot !!!.
Definition ex_C65_and_terminal_refuted := C65_and_terminal_refuted HE0 true false c1 [0; 1; 2] 100 c2 1 _ c1_b c2_s (forall_lt c1 [0; 1; 2] !!!) !!! !!! c1_sat c2_eq (nth_ok c2 3 1 !!!) !!!.
(** x0&x1|x2: the hi arc of the x1-node to the root *)
Lemma c1_path : node_path c1 [true; true; false] (nthb c1 0 0) (nthb c1 0 1).
Proof. apply (np_step _ _ _ 0 true (nthb c1 0 1)); [comp|comp|comp|comp|apply np_here]. Qed.
Definition ex_C65_cycle_refuted := C65_cycle_refuted HE0 true c1 0 1 0 _ _ [true; true; false] (nthb c1 0 0) 1 c1_b c1_s !!! (nth_ok c1 0 1 !!!) (nth_ok c1 0 0 !!!) !!! !!! eq_refl !!! c1_path c1_path.
(** ** export_graphviz *)
Lemma id_perm {A} (l : list A) : l ≡ₚ l. Proof. done. Qed.
Lemma rev_perm {A} (l : list A) : reverse l ≡ₚ l. Proof. apply reverse_Permutation. Qed.
Definition ex_C66_export_graphviz := C66_export_graphviz HE0 (fun l => l) reverse c2 3 id_perm rev_perm c2_b c2_s !!!.
Definition ex_C66_denotes := C66_denotes HE0 reverse (fun l => l) c1 0 rev_perm id_perm c1_b c1_s !!!.
(** without asserts: x0 and !x0 *)
Definition wn2 : world := @Refute.W TN MOrd [OProj 0; ONot 0].
Lemma wn2_r : @reach TN MOrd wn2. Proof. apply (@W_reach TN); comp. Qed.
Definition addn (i : nat) (c : coll) : coll := match @step TN (QCollAdd c i) wn2 with WOk (OutC _ c') _ => c' | _ => c end.
Definition addnb (i : nat) (c : coll) : bool :=
  liveb wn2 i && negb (@constb TN wn2 i) && (mgr_nr_nodes (w_s wn2) <? 2 ^ 62) && match @step TN (QCollAdd c i) wn2 with WOk (OutC _ _) _ => true | _ => false end.
Definition cn2 : coll := addn 1 (addn 0 coll_init).
Lemma addn_obuilt ed i c : addnb i c = true -> @obuilt_by TN ed c -> @obuilt_by TN ed (addn i c).
Proof.
  intros [[[Hl%liveb_ok Hc%negb_true_iff%constb_ok]%andb_true_iff Hm%N.ltb_lt]%andb_true_iff Hs]%andb_true_iff HB.
  unfold addn. destruct (@step TN (QCollAdd c i) wn2) as [[] ?|] eqn:He; try discriminate Hs.
  eapply (@obuilt_add TN ed MOrd); [exact HB|exact eq_refl|exact wn2_r|exact Hl|exact Hc|exact Hm|exact He].
Qed.
Lemma cn2_o {ed} : @obuilt_by TN ed cn2.
Proof. apply addn_obuilt; [comp|]. apply addn_obuilt; [comp|]. apply (@obuilt_init TN ed). Qed.
Lemma cn2_s : csmall cn2. Proof. apply N.ltb_lt. comp. Qed.
Lemma cn2_unsat : ~ @csatisfiable TN cn2 [0; 1].
Proof.
  intros (x&Hx). inversion_clear Hx as [|? ? H0 H1']. inversion_clear H1' as [|? ? H1 _]. destruct x as [|z x]; [revert H0; vm_compute; discriminate|].
  destruct z; revert H0 H1; vm_compute; discriminate.
Qed.
Lemma cn2_lt : Forall (fun b => b < nr_bdds cn2) [0; 1]. Proof. apply forall_lt. comp. Qed.
Definition ex_C66_contradiction_refuted := @C66_contradiction_refuted TN (tenv_ok true false false) (fun l => l) reverse cn2 [0; 1] 100 eq_refl rev_perm cn2_o cn2_s cn2_lt !!! !!! cn2_unsat.
(** ** Entries *)
Definition ex_C67_entry_and := C67_entry_and HE0 c1 0 1 c1_b c1_s !!! !!! c1_sat2.
Definition ex_C67_contradiction_refuted := C67_contradiction_refuted HE0 c3 0 1 c3_o c3_s !!! !!! c3_unsat.
Definition ex_C67_contradiction_ndebug := @C67_contradiction_refuted TN (tenv_ok true false false) cn2 0 1 cn2_o cn2_s !!! !!! cn2_unsat.
Definition ex_C67_nodes := C67_nodes HE0 c2 3 c2_b c2_s !!!.
Definition ex_C68_instructions := C68_instructions HE0 c2 3 c2_b c2_s !!!.
Definition ex_C68_reverse_refuted := C68_reverse_refuted HE0 c1 0 c1_b !!!.
