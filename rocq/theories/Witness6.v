(** * Witness6.v -- every theorem applied to a concrete, non-trivial case, continued: edited BDDs *)
From Verif Require Export Witness5 PropsColl9 PropsThrow2.
Open Scope N_scope.

(** the result of merging the two x2-entries (Witness5.v) *)
Lemma ex_C50_or_var_usable : @built (R4 false) c6'.
Proof. apply (@C50_or_var_usable (R4 false) (tenv_ok _ _ _) c6_ 0 (fun v => v =? 2) (fun _ => false) 1 c6' 7 eq_refl (c6_b false) c6_s eq_refl (c6_run false)); [comp|lia]. Qed.
(** !x0 & x1 & x2 & x3, or !x0: the other entries stay, unreachable *)
Lemma c7_clean : or_clean c7_ 0 (fun _ => false) (fun v => v =? 0).
Proof.
  exists 5, 0, 6, tm_top. split; [exact c7_seg|]. split; [lia|]. split; [done|]. split; [done|]. split.
  - intros y Hy%(entry_in c7_ 4 y eq_refl). each Hy; cbn; lia.
  - intros y z Hy%(entry_in c7_ 4 y eq_refl) Hz%(entry_in c7_ 4 z eq_refl). each Hy; each Hz; cbn; intros [=]; done.
Qed.
Lemma ex_C50_unreachable_refuted nd : exists c' a' b', @bdd_or_var (R4 nd) c7_ 0 (fun _ => false) (fun v => v =? 0) = inr (1, c') /\ cseg c' 1 a' b' /\ b' - a' = 6 - 0 /\ ~ rtc (carc c') a' (a' + (1 - 0)).
Proof.
  apply (@C50_unreachable_refuted (R4 nd) (tenv_ok _ _ _) c7_ 0 (fun _ => false) (fun v => v =? 0) 0 6 1 (c7_b nd) c7_s eq_refl c7_clean c7_seg ltac:(lia));
    intros y Hy%(entry_in c7_ 4 y eq_refl); each Hy; cbn; lia.
Qed.
(** ... or all literals: false *)
Lemma ex_C50_all_dropped_refuted nd : (forall x, ccovers c7_ 0 x -> @cval (R4 nd) c7_ 0 x = Some true \/ exists v, lit_true (fun _ => true) (fun _ => true) x v) /\
  exists c', @bdd_or_var (R4 nd) c7_ 0 (fun _ => true) (fun _ => true) = inr (1, c') /\ @nr_bdd_nodes (R4 nd) c' 1 = inr 2 /\ @ckeeps (R4 nd) c7_ c' /\ forall x, @cval (R4 nd) c' 1 x = Some false.
Proof. apply (@C50_all_dropped_refuted (R4 nd) (tenv_ok _ _ _) c7_ 0 (fun _ => true) (fun _ => true) 5 0 6 (c7_b nd) c7_s eq_refl c7_top c7_seg). intros y _. done. Qed.
(** is_bdd on arbitrary contents *)
Definition ex_C69_is_bdd nd := @C69_is_bdd (R4 nd) c6' 1 8 15 eq_refl ltac:(done) ltac:(lia) ltac:(cbn; lia) ltac:(done).
Definition ex_C69_is_bdd_no nd := @C69_is_bdd (R4 nd) (Coll [Instr 1 2 0; Instr 0 2 1; tm_bot; tm_top] [0; 4]) 0 0 4 eq_refl ltac:(done) ltac:(lia) ltac:(cbn; lia) ltac:(done).
Lemma c6'_s : csmall c6'. Proof. apply N.ltb_lt. comp. Qed.
Definition ex_C69_built := @C69_built (R4 false) (tenv_ok _ _ _) c6' 1 ex_C50_or_var_usable c6'_s eq_refl.
(** rerouting the hi arc of the root of !x0 & x1 & x2 & x3 to the x3-entry *)
Definition ex_C65_is_bdd nd := @C65_is_bdd (R4 nd) (tenv_ok _ _ _) c7_ 0 0 6 0 3 (Instr 1 4 0) true (c7_b nd) c7_s eq_refl c7_seg ltac:(lia) ltac:(lia) eq_refl.
Definition c7r : coll := Coll (Instr 1 3 0 :: tail (c_ins c7_)) [0; 6].
Lemma c7r_b nd : @built (R4 nd) c7r.
Proof.
  destruct (ex_C65_is_bdd nd) as (c'&r&Hset&Hr&Hiff&Hb). injection Hset as <-. apply Hb, Hiff. split; [lia|]. split; [done|].
  intros i y Hi Hne Hy. assert (i = 1 \/ i = 2 \/ i = 3) as [->|[->| ->]] by lia; injection Hy as <-; done.
Qed.
(** the other theorems apply to it *)
Definition ex_C55_rerouted nd := @C55_evaluate (R4 nd) (tenv_ok _ _ _) c7r 0 [true; false; false; true] (c7r_b nd) eq_refl.

(** a throw, and what is left *)
Lemma ex_C26_handles_survive : exists w o w', reach or_mode w /\ allowed or_mode w o /\ step o w = WFail EThrow w' /\
  w_h w' = w_h w /\ forall i phi x, evals w i phi -> covers w x -> val w' i x = Some (phi x).
Proof.
  destruct (C26_throw_reachable HE0) as (w&o&w'&HR&Ha&Hs). exists w, o, w'. split_and!; [done|done|done|..];
    apply (C26_handles_survive HE0 or_mode w o EThrow w' HR Ha Hs).
Qed.
Lemma ex_C26_references : exists w o w', reach or_mode w /\ allowed or_mode w o /\ step o w = WFail EThrow w' /\
  forall p n, s_heap (w_s w') !! p = Some n ->
    n_xref n = (hcount (w_h w') p + Z.of_nat (arcs_into (s_heap (w_s w')) p) + if decide (inner p) then 0 else 1)%Z.
Proof.
  destruct (C26_throw_reachable HE0) as (w&o&w'&HR&Ha&Hs). exists w, o, w'. split_and!; [done|done|done|].
  intros p n Hp. by apply (C26_references HE0 or_mode w o w' HR Ha Hs).
Qed.
(** after it: take a constant, look at it, copy it, drop it *)
Lemma ex_C26_transparent : exists w o w' rs w2 w2', let k := length (w_h w) in let os := [OTop; QIsTop k; OCopy k; ODrop k] in
  reach or_mode w /\ allowed or_mode w o /\ step o w = WFail EThrow w' /\ reads or_mode os w /\
  outs os w = Some (rs, w2) /\ outs os w' = Some (rs, w2') /\ w_h w2' = w_h w2.
Proof.
  destruct (C26_throw_reachable HE0) as (w&o&w'&HR&Ha&Hs). pose proof (reach_inv HE0 _ _ HR) as HW. set (k := length (w_h w)).
  assert (Hos : reads or_mode [OTop; QIsTop k; OCopy k; ODrop k] w).
  { cbn [reads is_read]. split; [done|]. split; [done|]. intros r w1 H1.
    destruct (yields_or HE0 or_mode w OTop (fun _ => true) HR I) as [[w1' Hw]|(w1'&p&Hs'&HR1&He&Hl&_)];
      [by intros ? []|apply (C06_constants HE0 or_mode w HR)|congruence|].
    rewrite Hs' in H1. injection H1 as <- <-. fold k in Hl. pose proof Hl as (q&Hq&_).
    split; [done|]. split; [exact Hl|]. intros r2 w2 H2.
    destruct (step_query or_mode w1' (QIsTop k) (reach_inv HE0 _ _ HR1) Hl eq_refl) as (r2'&H2'&_).
    rewrite H2' in H2. injection H2 as _ <-. split; [done|]. assert (Hc : allowed or_mode w1' (OCopy k)) by (cbn; eauto). split; [exact Hc|].
    intros r3 w3 H3. split; [done|]. split; [|done]. cbn [allowed].
    pose proof (step_good HE0 _ _ _ (reach_inv HE0 _ _ HR1) Hc) as Hg. rewrite H3 in Hg. destruct Hg as (_&_&Hh).
    exists q. apply hnd_lookup. apply hnd_lookup in Hq. rewrite Hh. cbn. destruct r3; apply lookup_app_l_Some || idtac; done. }
  destruct (C26_transparent HE0 or_mode w o w' _ HR Ha Hs Hos) as (rs&w2&w2'&?&?&?); [set_solver|].
  by exists w, o, w', rs, w2, w2'.
Qed.
