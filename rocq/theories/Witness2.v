(** * Witness2.v -- every theorem applied to a concrete, non-trivial case, continued: collections *)
From Verif Require Export Witness.
Open Scope N_scope.

#[local] Existing Instance TE.
#[local] Opaque wo wu wx wm.
Notation "'!!!'" := ltac:(ok) (only parsing).
(** 335 copies of x0, three cells each *)
Fixpoint bld (n : nat) (c : coll) : option coll := match n with O => Some c | S n => if addb wo 0 c then bld n (addc wo 0 c) else None end.
Lemma bld_built n : forall c c', bld n c = Some c' -> built c -> built c'.
Proof.
  induction n as [|n IH]; simpl; intros c c' H HB; [by injection H as <-|]. destruct (addb wo 0 c) eqn:Ha; [|discriminate H].
  apply (IH _ _ H). apply (addc_built MOrd); [apply wo_r|exact Ha|exact HB].
Qed.
Definition c4o : option coll := bld 335 coll_init.
Definition c4 : coll := default coll_init c4o.
Definition someo {A} (o : option A) : bool := match o with Some _ => true | None => false end.
Definition c4_some : bool := someo c4o.
Lemma c4_b : built c4.
Proof.
  assert (H : c4_some = true) by comp. unfold c4_some, c4 in *. destruct c4o as [c|] eqn:He; [|discriminate H].
  apply (bld_built _ _ _ He). constructor.
Qed.
Definition ex_C47_offset_refuted := C47_offset_refuted HE0 MOrd wo c4 334 wo_r c4_b !!! !!! !!!.
Definition vm1 (v : N) : option N := if v <? 3 then Some (2 - v) else None.
Lemma c1_vm v : cvar c1 0 v -> exists u, vm1 v = Some u /\ u < cbot.
Proof.
  intros H. assert (Hv : v <? 3 = true) by (revert v H; apply (cvar_lt c1 0 (fun v => v <? 3) c1_b c1_s); comp).
  unfold vm1. rewrite Hv. eexists. split; [done|]. unfold cbot, two64, size_max. lia.
Qed.
Lemma c1_inj v v' : cvar c1 0 v -> cvar c1 0 v' -> vm1 v = vm1 v' -> v = v'.
Proof.
  intros H H'. assert (Hv : v <? 3 = true) by (revert v H; apply (cvar_lt c1 0 (fun v => v <? 3) c1_b c1_s); comp).
  assert (Hv' : v' <? 3 = true) by (revert v' H'; apply (cvar_lt c1 0 (fun v => v <? 3) c1_b c1_s); comp).
  unfold vm1. rewrite Hv, Hv'. intros [= ?]. apply N.ltb_lt in Hv, Hv'. lia.
Qed.
Definition ex_C48_rebase := C48_rebase HE0 c1 0 vm1 c1_b !!! c1_vm.
Definition ex_C48_rebase_built := C48_rebase_built HE0 c1 0 vm1 c1_b !!! c1_vm c1_inj.
Lemma c1_lt3 v : cvar c1 0 v -> v < 3.
Proof. intros H. apply N.ltb_lt. revert v H; apply (cvar_lt c1 0 (fun v => v <? 3) c1_b c1_s); comp. Qed.
Lemma c1_210 : Forall (fun u => u < cbot) [2; 1; 0]. Proof. repeat constructor; unfold cbot, two64, size_max; lia. Qed.
Definition ex_C48_rebase_range := C48_rebase_range HE0 c1 0 [2; 1; 0] c1_b !!! c1_lt3 c1_210.
Definition vmap1 : gmap N N := {[0 := 2; 1 := 1; 2 := 0]}.
Lemma c1_vmap v : cvar c1 0 v -> exists u, vmap1 !! v = Some u /\ u < cbot.
Proof.
  intros H%c1_lt3. assert (v = 0 \/ v = 1 \/ v = 2) as [->|[->| ->]] by lia; eexists; (split; [comp|]); unfold cbot, two64, size_max; lia.
Qed.
Definition ex_C48_rebase_varmap := C48_rebase_varmap HE0 c1 0 vmap1 c1_b !!! c1_vmap.
Lemma sorted02 : StronglySorted N.lt [0; 2]. Proof. repeat constructor. Qed.
Lemma sorted0 : StronglySorted N.lt [0]. Proof. repeat constructor. Qed.
Definition ex_C49_remove := C49_remove HE0 c1 [0; 2] c1_b c1_s sorted02 (forall_lt c1 [0; 2] !!!) ltac:(right; assert (nr_bdds c1 - 1 = 2) as -> by comp; set_solver).
Definition ex_C49_remove_refuted := C49_remove_refuted HE0 c1 [0] c1_b c1_s ltac:(discriminate) sorted0 (forall_lt c1 [0] !!!) ltac:(assert (nr_bdds c1 - 1 = 2) as -> by comp; set_solver).
(** entries by computation *)
Lemma forallb_el {A} (P : A -> bool) l x : forallb P l = true -> x ∈ l -> P x = true.
Proof. rewrite forallb_forall. intros H Hx. by apply H, elem_of_list_In. Qed.
Definition ents (c : coll) (a b : N) : list instr := take (N.to_nat (b - 2 - a)) (drop (N.to_nat a) (c_ins c)).
Lemma in_ents c nr a b y : cseg c nr a b -> centry c nr y -> y ∈ ents c a b.
Proof.
  intros [Ha Hb] (a'&b'&i&[Ha' Hb']&Hi&Hy). rewrite Ha in Ha'. rewrite Hb in Hb'. injection Ha' as <-. injection Hb' as <-.
  unfold ents. apply elem_of_list_lookup. exists (N.to_nat (i - a)). rewrite lookup_take by lia. rewrite lookup_drop.
  rewrite <- Hy. f_equal. lia.
Qed.
Definition instr_eqb (y z : instr) : bool := (i_lo y =? i_lo z) && (i_hi y =? i_hi z) && (i_idx y =? i_idx z).
Lemma instr_eqb_eq y z : instr_eqb y z = true <-> y = z.
Proof.
  unfold instr_eqb. rewrite !andb_true_iff, !N.eqb_eq. split; [|by intros ->]. destruct y, z; simpl. by intros [[-> ->] ->].
Qed.
Definition cleanb (c : coll) (a b T : N) (pos neg : N -> bool) : bool :=
  forallb (fun y => negb (i_lo (redirected pos neg T y) =? i_hi (redirected pos neg T y))) (ents c a b) &&
  forallb (fun y => forallb (fun z => negb (instr_eqb (redirected pos neg T y) (redirected pos neg T z)) || instr_eqb y z) (ents c a b)) (ents c a b).
Lemma clean_ok c nr a b T e pos neg : cseg c nr a b -> a <= T < b -> ix (c_ins c) T = Some e -> i_idx e = ctop -> cleanb c a b T pos neg = true -> or_clean c nr pos neg.
Proof.
  intros Hs HT He Hi [H1 H2]%andb_true_iff. exists T, a, b, e. split; [done|]. split; [done|]. split; [done|]. split; [done|]. split.
  - intros y Hy%(in_ents _ _ _ _ _ Hs). pose proof (forallb_el _ _ _ H1 Hy) as H. cbv beta in H. by apply negb_true_iff, N.eqb_neq in H.
  - intros y z Hy%(in_ents _ _ _ _ _ Hs) Hz%(in_ents _ _ _ _ _ Hs) Heq. pose proof (forallb_el _ _ _ (forallb_el _ _ _ H2 Hy) Hz) as H. cbv beta in H.
    apply instr_eqb_eq in Heq. rewrite Heq in H. by apply instr_eqb_eq.
Qed.
Definition pos0 (v : N) : bool := v =? 0.
Definition none (v : N) : bool := false.
Lemma c1_seg : cseg c1 0 0 5. Proof. split; comp. Qed.
Lemma c1_seg2 : cseg c1 2 9 12. Proof. split; comp. Qed.
Lemma c1_clean : or_clean c1 0 pos0 none.
Proof. eapply (clean_ok _ _ 0 5 4 (Instr ctop ctop ctop)); [exact c1_seg|lia|comp|comp|comp]. Qed.
(** the literal x0 is looked at first *)
Lemma c1_first x v : ccovers c1 0 x -> lit_true pos0 none x v -> cvisits c1 0 x v.
Proof.
  intros _ [[->%N.eqb_eq _]|[[=] _]]. exists 0, 0, (Instr 2 1 0). split; [comp|]. split; [constructor|]. split; [comp|]. split; [|done].
  discriminate.
Qed.
Definition ex_C50_or_var := C50_or_var HE0 c1 0 pos0 none c1_b c1_s !!! c1_clean.
Definition ex_C50_or_var_disjunction := C50_or_var_disjunction HE0 c1 0 pos0 none c1_b c1_s !!! c1_clean c1_first.
(** x0 or x1, asked of the BDD x0 *)
Lemma c1_no1 : ~ cvar c1 2 1.
Proof. intros H. assert (1 =? 0 = true) by (revert H; apply (cvar_lt c1 2 (fun v => v =? 0) c1_b c1_s); comp). discriminate. Qed.
Lemma c1_cov : ccovers c1 2 [false; true].
Proof. intros v Hv. assert (H : v <? 2 = true) by (revert v Hv; apply (cvar_lt c1 2 (fun v => v <? 2) c1_b c1_s); comp). apply N.ltb_lt in H. simpl. lia. Qed.
Definition ex_C50_or_var_refuted := C50_or_var_refuted HE0 c1 2 1 [false; true] c1_b c1_s !!! c1_no1 c1_cov !!! !!!.
Definition ex_C51_builder_assert_refuted := C51_builder_assert_refuted HE0 c1 5 c1_b c1_s !!!.
Definition ex_C52_queries := C52_queries HE0 c1 0 c1_b c1_s !!!.
Definition ex_C53_traversal := C53_traversal HE0 c1 0 c1_b c1_s !!!.
Definition ex_C53_node_eval := C53_node_eval HE0 c1 0 [true; true; false] true c1_b !!!.
Definition ex_C54_add_terminals := C54_add_terminals HE0 MMix wm c1 5 wm_r c1_b !!! !!! !!!.
Definition ex_C54_and_terminals_refuted := C54_and_terminals_refuted HE0 c1 [0; 1; 2] 100 c2 c1_b c2_s (forall_lt c1 [0; 1; 2] !!!) !!! !!! c1_sat c2_eq.
Lemma c1_cov0 : ccovers c1 0 [true; true; false].
Proof. intros v Hv. assert (H : v <? 3 = true) by (revert v Hv; apply (cvar_lt c1 0 (fun v => v <? 3) c1_b c1_s); comp). apply N.ltb_lt in H. simpl. lia. Qed.
Definition ex_C55_evaluate := C55_evaluate HE0 c1 0 [true; true; false] c1_b !!! c1_cov0.
Definition ex_C55_never_loops := C55_never_loops HE0 c1 0 [] c1_b !!!.
Definition ex_C57_depths_postorder := C57_depths_postorder HE0 MOrd wo 4 _ wo_r (hnd_eq wo 4 !!!) !!! !!!.
Lemma ex_C57_depths : exists l ks, l <> [] /\ depths l (w_s wo) = Ok ks (w_s wo) /\ Forall2 (longest (s_heap (w_s wo))) l ks.
Proof.
  destruct (C17_postorder HE0 MOrd wo 4 _ wo_r (hnd_eq wo 4 !!!) !!! !!!) as (l&_&Hnd&Hin&Hlast&Hb).
  destruct (C57_depths HE0 MOrd wo l wo_r Hnd) as (ks&Hks&Hf).
  - intros q Hq%Hin. clear -Hq. induction Hq; auto. by split; [split|].
  - intros a q b n c He Hn Hcc Hic. by eapply Hb.
  - exists l, ks. split; [|split; [exact Hks|exact Hf]]. intros ->. discriminate Hlast.
Qed.
(** asserts off: the builder *)
Definition TN : Env := tenv true false false.
Definition wn : world := @Refute.W TN MOrd [OProj 0].
Lemma wn_r : @reach TN MOrd wn. Proof. apply (@W_reach TN); comp. Qed.
Definition cn : coll := match @step TN (QCollAdd coll_init 0) wn with WOk (OutC _ c') _ => c' | _ => coll_init end.
Definition cnb : bool := match @step TN (QCollAdd coll_init 0) wn with WOk (OutC _ _) _ => true | _ => false end.
Lemma cn_b : @built TN cn.
Proof.
  assert (H : cnb = true) by comp. unfold cn, cnb in *. destruct (@step TN (QCollAdd coll_init 0) wn) as [[] ?|] eqn:He; try discriminate H.
  eapply (@SpecColl.built_add TN _ MOrd wn coll_init 0); [exact (@SpecColl.built_init TN _)|apply wn_r|apply liveb_ok; comp|apply (@constb_ok TN); comp|apply N.ltb_lt; comp|exact He].
Qed.
Lemma cn_s : csmall cn. Proof. apply N.ltb_lt. comp. Qed.
Definition ex_C51_builder_ndebug_refuted := @C51_builder_ndebug_refuted TN (tenv_ok true false false) cn 1 [2; 5] [true; false; true] cn_b cn_s !!! eq_refl !!! !!! !!!.
(** another graph for x0&x1|x2: the shared node is copied *)
Definition gr : gmap N (N * garc * garc) := {[ 0 := (0, inr 3, inr 1); 1 := (1, inr 2, inl true); 2 := (2, inl false, inl true); 3 := (2, inl false, inl true) ]}.
Lemma gr_in k v lo hi : gr !! k = Some (v, lo, hi) ->
  (k = 0 /\ v = 0 /\ lo = inr 3 /\ hi = inr 1) \/ (k = 1 /\ v = 1 /\ lo = inr 2 /\ hi = inl true) \/ ((k = 2 \/ k = 3) /\ v = 2 /\ lo = inl false /\ hi = inl true).
Proof.
  unfold gr. rewrite !lookup_insert_Some, lookup_singleton_Some. intros H. naive_solver.
Qed.
Lemma gr_0 : gr !! 0 = Some (0, inr 3, inr 1). Proof. done. Qed.
Lemma gr_1 : gr !! 1 = Some (1, inr 2, inl true). Proof. done. Qed.
Lemma gr_2 : gr !! 2 = Some (2, inl false, inl true). Proof. done. Qed.
Lemma gr_3 : gr !! 3 = Some (2, inl false, inl true). Proof. done. Qed.
Lemma gr_o : gordered gr.
Proof. intros k v lo hi Hk m u l h Hm Hu. apply gr_in in Hk, Hu. naive_solver lia. Qed.
Lemma gr_c : gclosed gr.
Proof.
  intros k v lo hi Hk. apply gr_in in Hk as [(_&_&->&->)|[(_&_&->&->)|(_&_&->&->)]]; simpl; rewrite ?gr_1, ?gr_2, ?gr_3; eauto.
Qed.
Lemma gr_v x : covers wo x -> gval gr (inr 0) (asg x) (bev F4 x).
Proof.
  intros Hx. assert (Hl : (3 <= length x)%nat).
  { unfold covers in Hx. assert (nr_variables (w_s wo) = 3) as Hn by comp. rewrite Hn in Hx. lia. }
  destruct x as [|p [|q [|r x]]]; simpl in Hl; try lia. clear. eapply gval_node; [exact gr_0|].
  destruct p; simpl; [eapply gval_node; [exact gr_1|]; destruct q; simpl; [constructor|]|]; (eapply gval_node; [first [exact gr_2|exact gr_3]|]);
    destruct r; simpl; try destruct q; constructor.
Qed.
Lemma gr_bd k v lo hi : gr !! k = Some (v, lo, hi) -> v < nr_variables (w_s wo).
Proof. intros H. assert (nr_variables (w_s wo) = 3) as -> by comp. apply gr_in in H. naive_solver lia. Qed.
Definition ex_C35_minimal_competitor := ex_C35_minimal gr (inr 0) gr_o gr_c (ex_intro _ _ gr_0) gr_v gr_bd.
