(** * Witness3.v -- every theorem applied to a concrete, non-trivial case, continued: marks, sizes *)
From Verif Require Export Witness2 PropsMark PropsSize PropsGc2 PropsKill.
Open Scope N_scope.

#[local] Existing Instance TE.
#[local] Opaque wo wu wx wm.
Notation "'!!!'" := ltac:(ok) (only parsing).
(** ** Marks *)
Definition heapb (w : world) (q : ptr) : node := default (Node 0 0 0 0 false 0) (s_heap (w_s w) !! q).
Lemma heapb_ok w q : bool_decide (is_Some (s_heap (w_s w) !! q)) = true -> s_heap (w_s w) !! q = Some (heapb w q).
Proof. intros H%bool_decide_eq_true. unfold heapb. by destruct H as [? ->]. Qed.
Lemma inner_ok q : negb (q =? botsink) && negb (q =? topsink) = true -> inner q.
Proof. rewrite andb_true_iff, !negb_true_iff, !N.eqb_neq. intros [H1 H2]. by split. Qed.
Definition ex_C62_none_marked := C62_none_marked HE0 MMix wm (addr wm 5) _ wm_r (heapb_ok wm (addr wm 5) !!!) (inner_ok (addr wm 5) !!!).
Definition ex_C62_mark := C62_mark HE0 MMix wm 5 _ wm_r (hnd_eq wm 5 !!!) !!!.
Definition ex_C62_ref_mark := C62_ref_mark HE0 MMix wm 5 _ wm_r (hnd_eq wm 5 !!!) !!! !!!.
Lemma ex_C62_marked_nr_nodes : exists s', ref_mark (addr wm 5) (w_s wm) = Ok tt s' /\ exists s'', nr_nodes (addr wm 5) s' = Fail EAssert s'' /\ nodes_postorder (addr wm 5) s' = Fail EAssert s''.
Proof.
  destruct ex_C62_ref_mark as (s'&Hs&_). exists s'. split; [exact Hs|].
  exact (C62_marked_nr_nodes HE0 MMix wm 5 _ s' wm_r (hnd_eq wm 5 !!!) !!! !!! eq_refl Hs).
Qed.
(** ** Sizes *)
Lemma nnodes_eq md w i : reach md w -> liveb w i = true -> constb w i = false -> nnodes w i (N.to_nat (nrb w i)).
Proof.
  intros HR Hl%liveb_ok Hc%constb_ok. destruct Hl as (p&Hp&H0). destruct (C16_nr_nodes HE0 md w i p HR Hp H0) as (l&Hs&Hnd&Hin); [done|].
  exists p, l. split_and!; auto. unfold nrb. by rewrite Hs, Nat2N.id.
Qed.
Lemma nn i n : liveb wo i && negb (constb wo i) && (nrb wo i =? n) = true -> nnodes wo i (N.to_nat n).
Proof.
  rewrite !andb_true_iff, negb_true_iff, N.eqb_eq. intros [[H1 H2] <-]. by apply (nnodes_eq MOrd); [apply wo_r| |].
Qed.
(** the world after an allowed operation, with the size of a handle *)
Lemma nn' o i n : allowedb MOrd wo o = true -> runsb o wo = true ->
  liveb (okw (step o wo)) i && negb (constb (okw (step o wo)) i) && (nrb (okw (step o wo)) i =? n) = true -> nnodes (okw (step o wo)) i (N.to_nat n).
Proof.
  rewrite !andb_true_iff, negb_true_iff, N.eqb_eq. intros Ha%allowedb_ok Hr%runs [[H1 H2] <-].
  apply (nnodes_eq MOrd); [|done|done]. by eapply (reach_step MOrd wo o); [apply wo_r| |exact Hr].
Qed.
Definition ex_C63_and := C63_and HE0 MOrd wo 0 1 3 (bev x0) (bev x1) _ _ _ !!! wo_r (evo 0 x0 !!!) (evo 1 x1 !!!) (evo 3 (BA x0 x1) !!!) (nn 0 1 !!!) (nn 1 1 !!!) (nn 3 2 !!!).
Definition ex_C63_or := C63_or HE0 MOrd wo 3 2 4 (bev (BA x0 x1)) (bev x2) _ _ _ !!! wo_r (evo 3 (BA x0 x1) !!!) (evo 2 x2 !!!) (evo 4 F4 !!!) (nn 3 2 !!!) (nn 2 1 !!!) (nn 4 3 !!!).
Lemma ev4 : evals wo 4 (fun x => if bev (BA x0 x1) x then bev x0 x else bev x2 x).
Proof.
  intros x Hx. rewrite (evo 4 F4 !!! x Hx). cbn [bev]. by destruct (nth 0 x false), (nth 1 x false).
Qed.
Definition ex_C63_ite := C63_ite HE0 MOrd wo 3 0 2 4 (bev (BA x0 x1)) (bev x0) (bev x2) _ _ _ _ !!! wo_r (evo 3 (BA x0 x1) !!!) (evo 0 x0 !!!) (evo 2 x2 !!!) ev4 (nn 3 2 !!!) (nn 0 1 !!!) (nn 2 1 !!!) (nn 4 3 !!!).
Definition ex_C63_negate := C63_negate HE0 MOrd wo 4 5 (bev F4) _ _ !!! wo_r (evo 4 F4 !!!) (evo 5 (BN F4) !!!) (nn 4 3 !!!) (nn 5 3 !!!).
Definition ex_C63_and_rec := C63_and_rec HE0 MOrd wo 0 4 _ _ _ _ _ !!! wo_r !!! !!! (runs (OAnd 0 4) wo !!!) (nn 0 1 !!!) (nn 4 3 !!!) (nn' (OAnd 0 4) 8 3 !!! !!! !!!).
Definition ex_C63_or_rec := C63_or_rec HE0 MOrd wo 0 4 _ _ _ _ _ !!! wo_r !!! !!! (runs (OOr 0 4) wo !!!) (nn 0 1 !!!) (nn 4 3 !!!) (nn' (OOr 0 4) 8 2 !!! !!! !!!).
Definition ex_C63_negate_rec := C63_negate_rec HE0 MOrd wo 4 _ _ _ _ !!! wo_r !!! (runs (ONot 4) wo !!!) (nn 4 3 !!!) (nn' (ONot 4) 8 3 !!! !!! !!!).
Lemma ev_vars : Forall2 (fun i v => evals wo i (var_fn v)) [0; 1; 2]%nat [0; 1; 2].
Proof.
  repeat apply Forall2_cons_2; [| | |constructor]; intros x Hx; [rewrite (evo 0 x0 !!! x Hx)|rewrite (evo 1 x1 !!! x Hx)|rewrite (evo 2 x2 !!! x Hx)];
    unfold var_fn; rewrite <- nth_lookup; done.
Qed.
Lemma ev_sym : evals wo 3 (fun x => (fun m => 2 <=? m)%nat (ntrue (map var_fn [0; 1]) x)).
Proof.
  intros x Hx. rewrite (evo 3 (BA x0 x1) !!! x Hx). f_equal. unfold ntrue. cbn [map]. rewrite !filter_cons, filter_nil. unfold var_fn. rewrite <- !nth_lookup.
  change (bev (BA x0 x1) x) with (nth (N.to_nat 0) x false && nth (N.to_nat 1) x false).
  clear Hx. destruct (nth (N.to_nat 0) x false), (nth (N.to_nat 1) x false);
    (destruct (decide (true = true)); [|congruence]) || idtac; (destruct (decide (false = true)); [congruence|]) || idtac; reflexivity.
Qed.
Lemma ge2 m : (2 <= m)%nat -> (2 <=? m)%nat = (2 <=? 2)%nat. Proof. intros H. apply Nat.leb_le in H. by rewrite H. Qed.
Definition ex_C64_symmetric := C64_symmetric HE0 MOrd wo 3 [0; 1] (fun m => 2 <=? m)%nat 2 _ !!! wo_r ev_sym ge2 (nn 3 2 !!!).
Definition ex_C64_cardinality := C64_cardinality HE0 MOrd wo [0; 1; 2]%nat [0; 1; 2] 2 _ _ _ !!! wo_r !!! ev_vars (runs (OCard [0; 1; 2]%nat 2) wo !!!) (nn' (OCard [0; 1; 2]%nat 2) 8 5 !!! !!! !!!).
Definition ex_C64_simplex := C64_simplex HE0 MOrd wo [0; 1; 2]%nat [0; 1; 2] _ _ _ !!! wo_r !!! ev_vars (runs (OSimplex [0; 1; 2]%nat) wo !!!) (nn' (OSimplex [0; 1; 2]%nat) 8 5 !!! !!! !!!).
Definition ex_C64_at_most_one := C64_at_most_one HE0 MOrd wo [0; 1; 2]%nat [0; 1; 2] _ _ _ !!! wo_r !!! ev_vars (runs (OAtMostOne [0; 1; 2]%nat) wo !!!) (nn' (OAtMostOne [0; 1; 2]%nat) 8 4 !!! !!! !!!).
Definition ex_C64_at_least := C64_at_least HE0 MOrd wo [0; 1; 2]%nat [0; 1; 2] 2 _ _ _ !!! wo_r !!! ev_vars (runs (OAtLeast [0; 1; 2]%nat 2) wo !!!) (nn' (OAtLeast [0; 1; 2]%nat 2) 8 4 !!! !!! !!!).
Definition ex_C64_at_most := C64_at_most HE0 MOrd wo [0; 1; 2]%nat [0; 1; 2] 1 _ _ _ !!! wo_r !!! !!! ev_vars (runs (OAtMost [0; 1; 2]%nat 1) wo !!!) (nn' (OAtMost [0; 1; 2]%nat 1) 8 4 !!! !!! !!!).
Lemma nd01 : NoDup [0; 1]. Proof. repeat constructor; set_solver. Qed.
Lemma nd012 : NoDup [0; 1; 2]. Proof. repeat constructor; set_solver. Qed.
Lemma lt12 : (1 < 2)%nat. Proof. lia. Qed.
Lemma P12 : (fun m => 2 <=? m)%nat 1%nat <> (fun m => 2 <=? m)%nat 2%nat. Proof. done. Qed.
Definition ex_C64_lower := C64_lower HE0 MOrd wo 3 [0; 1] _ !!! wo_r !!! nd01
  (fun v => sym_dep wo 3 [0; 1] (fun m => 2 <=? m)%nat 1 v ev_sym nd01 lt12 P12) (nn 3 2 !!!).
Definition ex_C64_symmetric_lower := C64_symmetric_lower HE0 MOrd wo 3 [0; 1] (fun m => 2 <=? m)%nat 1 _ !!! wo_r ev_sym nd01 lt12 P12 (nn 3 2 !!!).
Definition ex_C64_all_false := C64_all_false HE0 MOrd wo [0; 1; 2]%nat [0; 1; 2] _ _ _ !!! wo_r !!! ev_vars nd012 (runs (OAllFalse [0; 1; 2]%nat) wo !!!) (nn' (OAllFalse [0; 1; 2]%nat) 8 3 !!! !!! !!!).
Definition ex_C64_at_least_one := C64_at_least_one HE0 MOrd wo [0; 1; 2]%nat [0; 1; 2] _ _ _ !!! wo_r !!! ev_vars nd012 (runs (OAtLeastOne [0; 1; 2]%nat) wo !!!) (nn' (OAtLeastOne [0; 1; 2]%nat) 8 3 !!! !!! !!!).
Definition ex_C64_projection := C64_projection HE0 MOrd wo 7 _ _ _ !!! wo_r !!! (runs (OProj 7) wo !!!) (nn' (OProj 7) 8 1 !!! !!! !!!).

(** ** Reads after a collection *)
Fixpoint readsb (md : mode) (os : list op) (w : world) : bool :=
  match os with
  | [] => true
  | o :: os => is_read o && allowedb md w o && match step o w with WOk _ w1 => readsb md os w1 | WFail _ _ => true end
  end.
Lemma readsb_ok md os : forall w, readsb md os w = true -> reads md os w.
Proof.
  induction os as [|o os IH]; intros w; cbn [readsb reads]; [done|]. rewrite !andb_true_iff. intros [[H1 H2] H3].
  split_and!; [done|by apply allowedb_ok|]. intros r w1 Hs. rewrite Hs in H3. by apply IH.
Qed.
(** the collection frees nodes (wg_freed); afterwards: copy, read, list, assign, move, drop *)
Definition rd : list op := [OCopy 3; QEval 3 [true; true; false]; OHigh 3; QVars 3; OBfsAll 3; QPost 3; QPrint 3; QEq 3 6; OAssign 0 3; OMove 3; ODrop 6; QNrNodes 0].
Lemma rd_reads : reads MOrd rd wg. Proof. apply readsb_ok. comp. Qed.
Definition ex_C28_gc_transparent := C28_gc_transparent HE0 MOrd wg 100 _ _ rd !!! wg_r (runs _ _ wg_runs) rd_reads.
(** the dead node !((x0 & x1) | x2), whose child on x1 has no other parent *)
Lemma wg_dead : n_xref (heapb wg 1048896) = 0%Z. Proof. comp. Qed.
Definition ex_C72_kill_revive := C72_kill_revive HE0 MOrd wg 1048896 _ wg_r (heapb_ok wg 1048896 !!!) (inner_ok 1048896 !!!).
Definition ex_C21_count_range := C21_count_range HE0 MMix wm (addr wm 5) _ wm_r (heapb_ok wm (addr wm 5) !!!).
Definition ex_C72_deref := C72_deref HE0 MMix wm 5 _ wm_r (hnd_eq wm 5 !!!) !!!.
Definition ex_C72_hash_code := C72_hash_code HE0 MMix wm (addr wm 5) _ wm_r (heapb_ok wm (addr wm 5) !!!) (inner_ok (addr wm 5) !!!).
