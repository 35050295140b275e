(** * CollMisc.v -- rebase, remove and the queries of a collection *)
From Verif Require Export CollAnd2.
Open Scope N_scope.

(** the tree with variables renamed *)
Fixpoint rent (vm : N -> option N) (t : bdd) : bdd :=
  match t with Leaf b => Leaf b | Br v l h => Br (default 0 (vm v)) (rent vm l) (rent vm h) end.

Lemma seg_entries_eq c nr a b x : CInv c -> cseg c nr a b -> (centry c nr x <-> exists i, a <= i < b - 2 /\ ix (c_ins c) i = Some x).
Proof.
  intros HI [Ha Hb]. split.
  - intros (a'&b'&i&[Ha' Hb']&Hi&Hx). simplify_eq. eauto.
  - intros (i&Hi&Hx). exists a, b, i. done.
Qed.
Lemma evp_rename (vm : N -> option N) t x y : (forall v, occurs v t -> exists w, vm v = Some w /\ x !! N.to_nat w = y !! N.to_nat v) ->
  evp (rent vm t) x = evp t y.
Proof.
  induction t as [b|v l IHl h IHh]; intros Hx; [done|]. simpl. destruct (Hx v) as (w&Hw&Hxw); [by left|]. rewrite Hw. simpl. rewrite Hxw.
  rewrite IHl, IHh; [done|..]; intros u Hu; apply Hx; simpl; auto.
Qed.

Section misc.
Context {E : Env}.

(** ** rebase *)
Definition reb (vm : N -> option N) (x : instr) : instr :=
  if ci_is_term x then x else Instr (i_lo x) (i_hi x) (default 0 (vm (i_idx x))).
Lemma rebase_instrs_eq vm l : (forall x, x ∈ l -> ci_is_term x = false -> is_Some (vm (i_idx x))) ->
  rebase_instrs vm l = inr (map (reb vm) l).
Proof.
  induction l as [|x l IH]; intros Hx; [done|]. cbn [rebase_instrs]. rewrite IH by (intros y Hy; apply Hx; by right).
  assert (rebase_instr vm x = inr (reb vm x)) as ->; [|done]. unfold rebase_instr, reb. destruct (ci_is_term x) eqn:Ht; [done|].
  destruct (Hx x) as [v Hv]; [by left|done|]. by rewrite Hv.
Qed.
Lemma rebase_ok c nr a b vm : CInv c -> cseg c nr a b -> (forall x, centry c nr x -> is_Some (vm (i_idx x))) ->
  exists ins', c_rebase c nr vm = inr (Coll ins' (c_del c)) /\ length ins' = length (c_ins c) /\
    (forall i, ~ (a <= i < b) -> ix ins' i = ix (c_ins c) i) /\
    (forall i x, a <= i < b -> ix (c_ins c) i = Some x -> ix ins' i = Some (reb vm x)).
Proof.
  intros HI Hs Hdef. pose proof (ci_seg _ HI _ _ _ Hs) as Hg. pose proof (sg_ab _ _ _ Hg) as Hab. pose proof (sg_len _ _ _ Hg) as Hlen.
  pose proof (cseg_lt _ _ _ _ HI Hs) as Hnr. unfold c_rebase. rewrite assertR_true by (by apply N.ltb_lt). cbn [bindR].
  destruct Hs as [Ha Hb]. rewrite (del_at_eq _ _ _ Ha), (del_at_eq _ _ _ Hb). cbn [bindR].
  destruct (slice_eq c a b ltac:(lia) Hlen) as (l&->&Hl&Hli). cbn [bindR].
  rewrite rebase_instrs_eq.
  2:{ intros x Hx Ht. apply elem_of_list_lookup in Hx as [k Hk]. pose proof (lookup_lt_Some _ _ _ Hk).
      rewrite Hli in Hk by lia. apply Hdef. exists a, b, (a + N.of_nat k). split_and!; [done|lia| |done].
      destruct (decide (a + N.of_nat k < b - 2)); [done|]. destruct (seg_last _ _ _ Hg (a + N.of_nat k) x) as [z Hz]; [lia|done|].
      destruct (cterm_instr _ _ Hz). congruence. }
  cbn [bindR]. eexists. split; [reflexivity|]. rewrite N.max_r by lia.
  assert (Hlt : length (take (N.to_nat a) (c_ins c)) = N.to_nat a) by (rewrite take_length; lia).
  split_and!.
  - rewrite !app_length, Hlt, map_length, drop_length, Hl. lia.
  - intros i Hi. destruct (decide (i < a)) as [Hia|Hia].
    + rewrite lookup_app_l by lia. rewrite lookup_take by lia. done.
    + rewrite lookup_app_r by lia. rewrite lookup_app_r by (rewrite map_length; lia). rewrite lookup_drop, map_length, Hlt, Hl. f_equal. lia.
  - intros i x Hi Hx. rewrite lookup_app_r by lia. rewrite lookup_app_l by (rewrite map_length; lia).
    rewrite list_lookup_fmap, Hlt, Hli by lia. replace (a + N.of_nat (N.to_nat i - N.to_nat a)) with i by lia. by rewrite Hx.
Qed.
Lemma rebase_crep c nr a b vm ins' t i : CInv c -> cseg c nr a b -> (forall x, centry c nr x -> exists w, vm (i_idx x) = Some w /\ w < cbot) ->
  (forall i x, a <= i < b -> ix (c_ins c) i = Some x -> ix ins' i = Some (reb vm x)) -> a <= i < b ->
  crep (c_ins c) i t -> crep ins' i (rent vm t).
Proof.
  intros HI Hs Hdef Hin Hi Ht. pose proof (ci_seg _ HI _ _ _ Hs) as Hg.
  induction Ht as [i x z Hx Hz|i x tl th Hx Hne Hv Hl Hh Hrl IHl Hrh IHh].
  - eapply crep_leaf; [by apply Hin|]. unfold reb. destruct (cterm_instr _ _ Hz) as (->&_). done.
  - assert (Hi2 : a <= i < b - 2).
    { split; [lia|]. destruct (decide (i < b - 2)); [done|]. destruct (seg_last _ _ _ Hg i x) as [z [Hz _]]; [lia|done|done]. }
    destruct (sg_node _ _ _ Hg i x Hi2 Hx) as (_&_&?&?). destruct (Hdef x) as (w&Hw&Hwb); [exists a, b, i; done|].
    pose proof (Hin i x Hi Hx) as Hy. unfold reb in Hy. destruct (cnode_instr _ Hne Hv) as (Htm&_). rewrite Htm, Hw in Hy. simpl in Hy.
    simpl. rewrite Hw. simpl. apply (crep_node _ i _ _ _ Hy); simpl; auto; [apply IHl; lia|apply IHh; lia].
Qed.
Lemma rebase_CInv c nr a b vm ins' : CInv c -> cseg c nr a b -> (forall x, centry c nr x -> exists w, vm (i_idx x) = Some w /\ w < cbot) ->
  (forall x y, centry c nr x -> centry c nr y -> vm (i_idx x) = vm (i_idx y) -> i_idx x = i_idx y) ->
  length ins' = length (c_ins c) -> (forall i, ~ (a <= i < b) -> ix ins' i = ix (c_ins c) i) ->
  (forall i x, a <= i < b -> ix (c_ins c) i = Some x -> ix ins' i = Some (reb vm x)) -> CInv (Coll ins' (c_del c)).
Proof.
  intros HI Hs Hdef Hinj Hlen Hout Hin. pose proof (ci_seg _ HI _ _ _ Hs) as Hg. split; simpl.
  - apply HI.
  - rewrite Hlen. apply HI.
  - intros nr' a' b' Hs'. destruct (decide (nr' = nr)) as [->|Hne].
    + assert (a' = a /\ b' = b) as [-> ->] by (destruct Hs, Hs'; simpl in *; naive_solver).
      assert (Hnode : forall i x, a <= i < b - 2 -> ix ins' i = Some x -> exists y w, ix (c_ins c) i = Some y /\ vm (i_idx y) = Some w /\ w < cbot /\
         centry c nr y /\ x = Instr (i_lo y) (i_hi y) w).
      { intros i x Hi Hx. destruct (seg_ix _ _ _ Hg i) as [y Hy]; [lia|]. destruct (sg_node _ _ _ Hg i y Hi Hy) as (Hn1&Hn2&_).
        rewrite (Hin i y) in Hx by (done || lia). injection Hx as <-. assert (Hc : centry c nr y) by (exists a, b, i; done).
        destruct (Hdef y Hc) as (w&Hw&Hwb). exists y, w. split_and!; auto. unfold reb. destruct (cnode_instr _ Hn1 Hn2) as (->&_). by rewrite Hw. }
      split.
      * apply Hg.
      * rewrite Hlen. apply Hg.
      * destruct (sg_term _ _ _ Hg) as (bt&x&y&Hx&Hy&Tx&Ty). pose proof (sg_ab _ _ _ Hg). exists bt, x, y.
        pose proof (Hin (b - 2) x ltac:(lia) Hx) as Hx'. pose proof (Hin (b - 1) y ltac:(lia) Hy) as Hy'. unfold reb in Hx', Hy'.
        destruct (cterm_instr _ _ Tx) as (Htx&_). destruct (cterm_instr _ _ Ty) as (Hty&_). rewrite Htx in Hx'. rewrite Hty in Hy'. done.
      * intros i x Hi Hx. destruct (Hnode i x Hi Hx) as (y&w&Hy&_&Hw&_&->). destruct (sg_node _ _ _ Hg i y Hi Hy) as (?&?&?&?). done.
      * intros i j x Hi Hj Hx Hx'. destruct (Hnode i x Hi Hx) as (y&w&Hy&Hwy&Hw&Hcy&Ey). destruct (Hnode j x Hj Hx') as (z&w'&Hz&Hwz&_&Hcz&Ez).
        rewrite Ey in Ez. injection Ez as El Eh Ew. assert (y = z) as ->.
        { destruct y as [yl yh yv], z as [zl zh zv]; simpl in *. f_equal; try done. apply (Hinj _ _ Hcy Hcz). simpl. congruence. }
        eapply (sg_dist _ _ _ Hg); eauto.
    + eapply seg_same; [| |eapply ci_seg; eauto].
      * intros i Hi. apply Hout. intros Hi'. destruct Hs as [Ha Hb], Hs' as [Ha' Hb']; simpl in *.
        destruct (N.lt_total nr nr') as [Hlt|[Heq|Hlt]]; [|done|].
        -- destruct (decide (nr' = nr + 1)) as [->|]; [simplify_eq; lia|]. pose proof (del_mono _ _ _ _ _ HI Hb Ha' ltac:(lia)). lia.
        -- destruct (decide (nr = nr' + 1)) as [->|]; [simplify_eq; lia|]. pose proof (del_mono _ _ _ _ _ HI Hb' Ha ltac:(lia)). lia.
      * rewrite Hlen. destruct Hs' as [? ?]. eapply (sg_len _ _ _ (ci_seg _ HI nr' a' b' ltac:(done))).
Qed.
Lemma cseg_disj c nr nr' a b a' b' i : CInv c -> cseg c nr a b -> cseg c nr' a' b' -> nr <> nr' -> a' <= i < b' -> ~ (a <= i < b).
Proof.
  intros HI [Ha Hb] [Ha' Hb'] Hne Hi Hi'. destruct (N.lt_total nr nr') as [Hlt|[Heq|Hlt]]; [|done|].
  - destruct (decide (nr' = nr + 1)) as [->|]; [simplify_eq; lia|]. pose proof (del_mono _ _ _ _ _ HI Hb Ha' ltac:(lia)). lia.
  - destruct (decide (nr = nr' + 1)) as [->|]; [simplify_eq; lia|]. pose proof (del_mono _ _ _ _ _ HI Hb' Ha ltac:(lia)). lia.
Qed.

(** ** variables *)
Lemma c_variables_spec c nr a b : CInv c -> csmall c -> cseg c nr a b ->
  exists l, c_variables c nr = inr l /\ StronglySorted N.lt l /\ forall v, v ∈ l <-> exists x, centry c nr x /\ i_idx x = v.
Proof.
  intros HI Hsm Hs. pose proof (ci_seg _ HI _ _ _ Hs) as Hg. pose proof (sg_ab _ _ _ Hg) as Hab. pose proof (sg_len _ _ _ Hg) as Hlen.
  pose proof (cseg_lt _ _ _ _ HI Hs) as Hnr. unfold c_variables. rewrite assertR_true by (by apply N.ltb_lt). cbn [bindR].
  assert (two64 = 2 ^ 62 * 4) by done. unfold csmall in Hsm.
  rewrite (del_at_eq _ _ _ (proj1 Hs)), (del_at_eq _ _ _ (proj2 Hs)). cbn [bindR]. rewrite sub64_small by lia.
  destruct (slice_eq c a (b - 2) ltac:(lia) ltac:(lia)) as (l&->&Hl&Hli). cbn [bindR].
  assert (Hel : forall v, v ∈ unique_adj (map i_idx l) <-> exists x, centry c nr x /\ i_idx x = v).
  { intros v. rewrite unique_adj_elem, elem_of_list_fmap. setoid_rewrite (seg_entries_eq c nr a b) ; [|done|done]. split.
    - intros (x&->&Hx). exists x. split; [|done]. apply elem_of_list_lookup in Hx as [k Hk]. pose proof (lookup_lt_Some _ _ _ Hk).
      exists (a + N.of_nat k). split; [lia|]. by rewrite <- Hli by lia.
    - intros (x&(i&Hi&Hx)&<-). exists x. split; [done|]. apply (elem_of_list_lookup_2 _ (N.to_nat (i - a))). rewrite Hli by lia.
      replace (a + N.of_nat (N.to_nat (i - a))) with i by lia. done. }
  rewrite assertR_true.
  2:{ apply N.ltb_lt. destruct (seg_ix _ _ _ Hg a) as [x Hx]; [lia|].
      assert (i_idx x ∈ unique_adj (map i_idx l)) as Hin. { apply Hel. exists x. split; [|done]. exists a, b, a. split_and!; [done|lia|lia|done]. }
      destruct (unique_adj (map i_idx l)); [by apply elem_of_nil in Hin|]. simpl. lia. }
  cbn [bindR]. eexists. split; [reflexivity|]. destruct (sort_unique_spec (unique_adj (map i_idx l))) as [H1 H2]. split; [done|].
  intros v. by rewrite H2, Hel.
Qed.

(** ** node counts *)
Lemma nr_bdd_nodes_var_spec c nr a b v : CInv c -> cseg c nr a b ->
  nr_bdd_nodes_var c nr v = inr (N.of_nat (length (filter (fun x => i_idx x = v) (take (N.to_nat (b - a)) (drop (N.to_nat a) (c_ins c)))))).
Proof.
  intros HI Hs. pose proof (ci_seg _ HI _ _ _ Hs) as Hg. pose proof (sg_ab _ _ _ Hg) as Hab. pose proof (sg_len _ _ _ Hg) as Hlen.
  pose proof (cseg_lt _ _ _ _ HI Hs) as Hnr. unfold nr_bdd_nodes_var. rewrite assertR_true by (by apply N.ltb_lt). cbn [bindR].
  rewrite (del_at_eq _ _ _ (proj1 Hs)), (del_at_eq _ _ _ (proj2 Hs)). cbn [bindR]. unfold slice.
  rewrite (proj2 (N.leb_gt _ _)) by lia. by rewrite (proj2 (N.leb_le _ _)) by lia.
Qed.

(** ** entries *)
Lemma mk_cnode_ok c nr a b i : cseg c nr a b -> a <= i < b -> mk_cnode c i nr = inr (i, nr).
Proof.
  intros [Ha Hb] Hi. unfold mk_cnode. rewrite !(del_at_eq c _ _ Ha), !(del_at_eq c _ _ Hb). cbn [bindR].
  rewrite (proj2 (N.ltb_lt _ _)) by lia. rewrite (proj2 (N.leb_le _ _)) by lia. by rewrite !assertRR_true.
Qed.
Lemma root_node_ok c nr a b : CInv c -> cseg c nr a b -> root_node c nr = inr (a, nr).
Proof.
  intros HI Hs. pose proof (sg_ab _ _ _ (ci_seg _ HI _ _ _ Hs)). unfold root_node. rewrite (del_at_eq _ _ _ (proj1 Hs)). cbn [bindR].
  eapply mk_cnode_ok; [done|lia].
Qed.
Lemma first_node_ok c nr a b : CInv c -> csmall c -> cseg c nr a b -> first_node_postorder c nr = inr (b - 3, nr).
Proof.
  intros HI Hsm Hs. pose proof (ci_seg _ HI _ _ _ Hs) as Hg. pose proof (sg_ab _ _ _ Hg). pose proof (sg_len _ _ _ Hg).
  assert (two64 = 2 ^ 62 * 4) by done. unfold csmall in Hsm. unfold first_node_postorder.
  rewrite (nr_bdd_nodes_eq _ _ _ _ HI Hs) by lia. cbn [bindR]. rewrite (proj2 (N.ltb_lt _ _)) by lia. rewrite assertRR_true by done. cbn [bindR].
  rewrite (del_at_eq _ _ _ (proj2 Hs)). cbn [bindR]. rewrite sub64_small by lia. eapply mk_cnode_ok; [done|lia].
Qed.
Lemma next_postorder_ok c nr a b i : CInv c -> csmall c -> cseg c nr a b -> a < i < b - 2 -> next_postorder c (i, nr) = inr (i - 1, nr).
Proof.
  intros HI Hsm Hs Hi. pose proof (ci_seg _ HI _ _ _ Hs) as Hg. pose proof (sg_ab _ _ _ Hg). pose proof (sg_len _ _ _ Hg).
  assert (two64 = 2 ^ 62 * 4) by done. unfold csmall in Hsm. unfold next_postorder, cn_is_terminal, cn_instr. simpl.
  destruct (seg_ix _ _ _ Hg i) as [x Hx]; [lia|]. rewrite (vecR_eq _ _ _ Hx). cbn [bindR].
  destruct (sg_node _ _ _ Hg i x) as (Hn1&Hn2&_); [lia|done|]. destruct (cnode_instr _ Hn1 Hn2) as (->&_). rewrite assertRR_true by done. cbn [bindR].
  rewrite (root_node_ok _ _ _ _ HI Hs). cbn [bindR]. simpl. rewrite (proj2 (N.eqb_neq a i)) by lia. rewrite assertRR_true by done. cbn [bindR].
  rewrite sub64_small by lia. eapply mk_cnode_ok; [done|lia].
Qed.
Lemma cn_child_ok c nr a b i x : CInv c -> cseg c nr a b -> a <= i < b - 2 -> ix (c_ins c) i = Some x ->
  cn_lo c (i, nr) = inr (i_lo x, nr) /\ cn_hi c (i, nr) = inr (i_hi x, nr) /\ cn_variable c (i, nr) = inr (i_idx x) /\ cn_is_terminal c (i, nr) = inr false.
Proof.
  intros HI Hs Hi Hx. pose proof (ci_seg _ HI _ _ _ Hs) as Hg. destruct (sg_node _ _ _ Hg i x Hi Hx) as (Hn1&Hn2&?&?).
  destruct (cnode_instr _ Hn1 Hn2) as (Ht&_). unfold cn_lo, cn_hi, cn_variable, cn_is_terminal, cn_instr. simpl. rewrite (vecR_eq _ _ _ Hx). cbn [bindR]. rewrite Ht.
  rewrite assertR_true by done. cbn [bindR]. split_and!; try done; (eapply mk_cnode_ok; [done|lia]).
Qed.
End misc.
