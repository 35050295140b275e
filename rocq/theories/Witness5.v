(** * Witness5.v -- every theorem applied to a concrete, non-trivial case, continued: bdd_or_var in general *)
From Verif Require Export Witness4 Refute4 PropsColl8.
Open Scope N_scope.

Notation tm_bot := (Instr cbot cbot cbot).
Notation tm_top := (Instr ctop ctop ctop).
Lemma entry_in c b y : c_del c = [0; b + 2] -> centry c 0 y -> y ∈ take (N.to_nat b) (c_ins c).
Proof.
  intros Hd (a&b'&i&[Ha Hb]&Hi&Hy). rewrite Hd in Ha, Hb. injection Ha as <-. injection Hb as <-. apply (elem_of_list_lookup_2 _ (N.to_nat i)). rewrite lookup_take by lia. exact Hy.
Qed.
Ltac each Hy := cbn in Hy; repeat (apply elem_of_cons in Hy as [->|Hy]); [..|by apply elem_of_nil in Hy].
(** x0 ? x2 & x4 : (x1 | x2 & x3), or x2: the two x2-entries become equal *)
Definition c6_ : coll := Coll [Instr 3 1 0; Instr 6 2 2; Instr 6 7 4; Instr 4 7 1; Instr 6 5 2; Instr 6 7 3; tm_bot; tm_top] [0; 8].
Lemma c6_b nd : @built (R4 nd) c6_.
Proof. apply (chk4_built nd [OProj 0; OProj 1; OProj 2; OProj 3; OProj 4; OAnd 2 3; OAnd 2 4; OOr 1 5; OIte 0 6 7] 8). destruct nd; comp. Qed.
Lemma c6_s : csmall c6_. Proof. apply N.ltb_lt. comp. Qed.
Definition c6' : coll := Coll (c_ins c6_ ++ [Instr 10 11 0; Instr 13 14 4; Instr 11 14 1; Instr 13 14 2; Instr 13 14 3; tm_bot; tm_top]) [0; 8; 15].
Lemma c6_run nd : @bdd_or_var (R4 nd) c6_ 0 (fun v => v =? 2) (fun _ => false) = inr (1, c6'). Proof. destruct nd; comp. Qed.
Lemma c6_kept : root_kept c6_ 0 (fun v => v =? 2) (fun _ => false).
Proof.
  exists 7, (Instr 3 1 0). split; [exists 0, 8, tm_top; split_and!; done|]. split; [by exists 0|]. split; [cbn; lia|]. intros y Hy%(entry_in c6_ 6 y eq_refl). each Hy; cbn; intros [=]; done.
Qed.
Definition ex_C50_or_var_returns nd := @C50_or_var_returns (R4 nd) (tenv_ok _ _ _) c6_ 0 _ _ 1 c6' (c6_b nd) c6_s eq_refl (c6_run nd).
(** one entry less; the root is kept *)
Lemma ex_C50_or_var_returns_size nd : @nr_bdd_nodes (R4 nd) c6_ 0 = inr 8 /\ @nr_bdd_nodes (R4 nd) c6' 1 = inr 7 /\ root_kept c6_ 0 (fun v => v =? 2) (fun _ => false).
Proof. split; [destruct nd; comp|]. split; [destruct nd; comp|exact c6_kept]. Qed.
(** !x0 & x1 & x2 & x3 *)
Definition c7_ : coll := Coll [Instr 1 4 0; Instr 4 2 1; Instr 4 3 2; Instr 4 5 3; tm_bot; tm_top] [0; 6].
Lemma c7_b nd : @built (R4 nd) c7_.
Proof. apply (chk4_built nd [OProj 0; OProj 1; OProj 2; OProj 3; ONot 0; OAnd 1 2; OAnd 5 3; OAnd 4 6] 7). destruct nd; comp. Qed.
Lemma c7_s : csmall c7_. Proof. apply N.ltb_lt. comp. Qed.
Lemma c7_top : ctop_at c7_ 0 5. Proof. exists 0, 6, tm_top. done. Qed.
Lemma c7_seg : cseg c7_ 0 0 6. Proof. done. Qed.
(** ... or x3 or !x3: the last entry becomes redundant, but the x2-entry still leads to it *)
Lemma ex_C50_redundant_child_refuted nd : @bdd_or_var (R4 nd) c7_ 0 (fun v => v =? 3) (fun v => v =? 3) = inl (if nd then EUB else EAssert).
Proof.
  apply (@C50_redundant_child_refuted (R4 nd) (tenv_ok _ _ _) c7_ 0 _ _ 5 0 6 2 3 (Instr 4 3 2) (Instr 4 5 3) true (c7_b nd) c7_s eq_refl c7_top c7_seg); try done; try lia; cbn; lia.
Qed.
(** ... or !x0, x1, !x1, x2, !x2, x3, !x3: three redundant entries, all unreachable *)
Lemma c7_tidy : or_tidy c7_ 0 (fun v => 1 <=? v) (fun _ => true) 5.
Proof.
  assert (Hred : forall y, centry c7_ 0 y -> y = Instr 1 4 0 \/ made_redundant (fun v => 1 <=? v) (fun _ => true) 5 y).
  { intros y Hy%(entry_in c7_ 4 y eq_refl). each Hy; [by left|right; done..]. }
  assert (Hnr : ~ made_redundant (fun v => 1 <=? v) (fun _ => true) 5 (Instr 1 4 0)) by (intros He; vm_compute in He; discriminate He).
  assert (Hce : centry c7_ 0 (Instr 1 4 0)) by (exists 0, 6, 0; split_and!; try done; lia).
  exists 0, 6. split; [done|]. split; [exact c7_top|]. split; [|split; [|split; [by exists (Instr 1 4 0)|]]].
  - intros y z Hy Hz Hny He. destruct (Hred y Hy) as [->|?]; [|done]. destruct (Hred z Hz) as [->|Hm]; [done|]. exfalso. apply Hny. unfold made_redundant in *. by rewrite He.
  - intros y z j Hy Hny Harc Hj _. destruct (Hred y Hy) as [->|?]; [|done]. exfalso. clear -Harc Hj. cbn in Harc. destruct Harc as [<-|<-]; cbn in Hj; lia.
  - intros l Hnd Hf. assert (Hl : (length l <= length (take 4 (c_ins c7_)))%nat); [|cbn in Hl; lia].
    apply submseteq_length, NoDup_submseteq; [done|]. intros y Hy. rewrite Forall_forall in Hf. destruct (Hf y Hy) as [Hc _]. by apply (entry_in c7_ 4 y eq_refl).
Qed.
Definition ex_C50_or_var_drops nd := @C50_or_var_drops (R4 nd) (tenv_ok _ _ _) c7_ 0 _ _ 5 (Instr 1 4 0) (c7_b nd) c7_s eq_refl c7_tidy (ex_intro _ 0 (conj eq_refl eq_refl)).
(** ... or x0 or !x0 *)
Lemma c7_only : forall y, centry c7_ 0 y -> i_idx y = 0 -> y = Instr 1 4 0.
Proof. intros y Hy%(entry_in c7_ 4 y eq_refl). each Hy; cbn; intros ?; done. Qed.
Definition ex_C50_tautology_refuted nd := @C50_tautology_refuted (R4 nd) (tenv_ok _ _ _) c7_ 0 0 6 (Instr 1 4 0) (c7_b nd) c7_s eq_refl c7_seg ltac:(lia) eq_refl c7_only.

(** ordered BDDs *)
Lemma c6_o {ed} nd : @obuilt_by (R4 nd) ed c6_.
Proof. apply (chk4_obuilt ed nd [OProj 0; OProj 1; OProj 2; OProj 3; OProj 4; OAnd 2 3; OAnd 2 4; OOr 1 5; OIte 0 6 7] 8). destruct nd; comp. Qed.
Lemma c6_top : ctop_at c6_ 0 7. Proof. exists 0, 8, tm_top. done. Qed.
Lemma c6_root : croot_entry c6_ 0 (Instr 3 1 0). Proof. by exists 0. Qed.
Lemma c6_nr : ~ made_redundant (fun v => v =? 2) (fun _ => false) 7 (Instr 3 1 0). Proof. intros He. vm_compute in He. discriminate He. Qed.
Definition ex_C50_or_var_ordered nd := @C50_or_var_ordered (R4 nd) (tenv_ok _ _ _) c6_ 0 _ _ 1 c6' 7 (Instr 3 1 0) 8 7 (c6_o nd) c6_s eq_refl (c6_run nd) c6_top c6_root c6_nr
  (proj1 (ex_C50_or_var_returns_size nd)) (proj1 (proj2 (ex_C50_or_var_returns_size nd))) ltac:(lia).
(** a collection with an unreachable entry, and one where moreover an arc has been rerouted, are still ordered *)
Lemma c6'_o nd : @obuilt (R4 nd) c6'.
Proof.
  apply (@obuilt_or (R4 nd) true c6_ 0 (fun v => v =? 2) (fun _ => false) 1 c6' 8 7 eq_refl (c6_o nd) c6_s eq_refl (c6_run nd)); [destruct nd; comp| |apply ex_C50_or_var_returns_size..|lia].
  exists (Instr 10 11 0), 8, 15, 8. split; [done|]. split; [lia|done].
Qed.
Lemma c6'_s : csmall c6'. Proof. apply N.ltb_lt. comp. Qed.
Definition c6'' : coll := Coll (c_ins c6_ ++ [Instr 10 12 0; Instr 13 14 4; Instr 11 14 1; Instr 13 14 2; Instr 13 14 3; tm_bot; tm_top]) [0; 8; 15].
Lemma c6''_o nd : @obuilt (R4 nd) c6''.
Proof.
  apply (@obuilt_arc (R4 nd) true c6' 1 0 4 (8, 1) (12, 1) true c6'' 0 3 eq_refl (c6'_o nd) c6'_s eq_refl); try (destruct nd; comp); try lia.
  - exists 7. split; [destruct nd; comp|]. split; [lia|destruct nd; comp].
  - exists 7. split; [destruct nd; comp|]. split; [lia|destruct nd; comp].
Qed.
Definition ex_C45_ordered_edited nd := @C45_ordered (R4 nd) (tenv_ok _ _ _) c6'' 1 (c6''_o nd) eq_refl.
(** ... or !x0 *)
Definition ex_C50_or_var_root nd := @C50_or_var_root (R4 nd) (tenv_ok _ _ _) c6_ 0 7 (Instr 3 1 0) false (c6_o nd) c6_s eq_refl c6_top c6_root ltac:(cbn; lia).
(** (!x0 | x1 & x2) or x0 is true, but comes out as x1 & x2 *)
Definition c8_ : coll := Coll [Instr 4 1 0; Instr 3 2 1; Instr 3 4 2; tm_bot; tm_top] [0; 5].
Lemma c8_o {ed} nd : @obuilt_by (R4 nd) ed c8_.
Proof. apply (chk4_obuilt ed nd [OProj 0; OProj 1; OProj 2; ONot 0; OAnd 1 2; OOr 3 4] 5). destruct nd; comp. Qed.
Lemma c8_s : csmall c8_. Proof. apply N.ltb_lt. comp. Qed.
Lemma c8_top : ctop_at c8_ 0 4. Proof. exists 0, 5, tm_top. done. Qed.
Definition ex_C50_or_var_root_refuted nd := @C50_or_var_root_refuted (R4 nd) (tenv_ok _ _ _) c8_ 0 0 5 4 (Instr 4 1 0) true (c8_o nd) c8_s eq_refl ltac:(done) ltac:(lia) c8_top
  (ex_intro _ 0 (conj eq_refl eq_refl)) eq_refl.
Lemma c8_only : forall y, centry c8_ 0 y -> i_idx y = 0 -> y = Instr 4 1 0.
Proof. intros y Hy%(entry_in c8_ 3 y eq_refl). each Hy; cbn; intros ?; done. Qed.
Lemma ex_C50_root_dropped_refuted nd : exists c', @bdd_or_var (R4 nd) c8_ 0 (fun v => v =? 0) (fun _ => false) = inr (1, c') /\ @cval (R4 nd) c' 1 [true; false; true] = Some false.
Proof.
  destruct (@C50_root_dropped_refuted (R4 nd) (tenv_ok _ _ _) c8_ 0 0 5 (Instr 4 1 0) (fun v => v =? 0) (fun _ => false) 4 (obuilt_built _ (c8_o nd)) c8_s eq_refl ltac:(done) ltac:(lia) eq_refl c8_only c8_top)
    as (c'&Hr&_&Hx); [intros v Hv%N.eqb_neq; done|done|]. exists c'. split; [exact Hr|].
  destruct (Hx [true; false; true]) as (d&Hd&Hc).
  { intros v (y&Hy%(entry_in c8_ 3 y eq_refl)&<-). each Hy; cbn; lia. }
  change (nr_bdds c8_) with 1 in Hc. rewrite Hc. f_equal. clear -Hr Hc. destruct nd; vm_compute in Hr; injection Hr as <-; vm_compute in Hc; by injection Hc.
Qed.
