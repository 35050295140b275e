(** * PropsColl6.v -- export_graphviz (C66), entry objects (C67), iterator pairs (C68) *)
From Verif Require Export PropsColl5.
Open Scope N_scope.

(** ** Specification *)
(** the cluster and the label of an entry *)
Definition g_term (e : instr) : bool := i_lo e =? i_hi e.
Definition g_cluster (e : instr) : N := if g_term e then size_max else i_idx e.
Definition g_label (e : instr) : glabel := if g_term e then if i_idx e =? ctop then LTop else LBot else LVar (i_idx e).
(** the text of a cluster with the given nodes, of the chain of invisible arrows, and of the arcs of entry [k] *)
Definition cluster_text (b : N * list (N * glabel)) : list gline :=
  GCluster (fst b) :: map (fun n => GNode (fst n) (snd n)) (snd b) ++ [GColor; GClose].
Definition chain_text (reps : list (N * N)) : list gline := map (fun p => GInvis (snd (fst p)) (snd (snd p))) (zip reps (tail reps)).
Definition arcs_text (a : N) (k : nat) (e : instr) : list gline :=
  if g_term e then [] else [GSolid (N.of_nat k) (i_hi e - a); GDashed (N.of_nat k) (i_lo e - a)].
(** the Boolean function drawn: start at node [k], take the solid arc if the variable is true, else the dashed one *)
Inductive drawn (out : list gline) (x : list bool) : N -> bool -> Prop :=
| dr_top (k : N) : GNode k LTop ∈ out -> drawn out x k true
| dr_bot (k : N) : GNode k LBot ∈ out -> drawn out x k false
| dr_node (k v j : N) (z d : bool) : GNode k (LVar v) ∈ out -> x !! N.to_nat v = Some z ->
    (if z then GSolid k j else GDashed k j) ∈ out -> drawn out x j d -> drawn out x k d.

Section gv.
Context {E : Env} (HE : env_ok E).
(** ** Proof: the first loop *)
Definition good (e : instr) : Prop := (i_lo e <> i_hi e /\ i_idx e < cbot) \/ exists d, cterm d e.
Fixpoint labs (l : list instr) (k : N) : list (N * (N * glabel)) :=
  match l with [] => [] | e :: l => (g_cluster e, (k, g_label e)) :: labs l (k + 1) end.
Definition sel {A} (v : N) (L : list (N * A)) : list A := map snd (filter (fun p => fst p = v) L).
Definition gnode (n : N * glabel) : gline := GNode (fst n) (snd n).
Definition add_opt {A} (o : option (list A)) (l : list A) : option (list A) := match l with [] => o | _ => Some (default [] o ++ l) end.
Lemma add_opt_assoc {A} (o : option (list A)) l1 l2 : add_opt (add_opt o l1) l2 = add_opt o (l1 ++ l2).
Proof. destruct l1; [done|]. destruct l2; simpl; [by rewrite app_nil_r|]. by rewrite <- app_assoc. Qed.
Fixpoint poss (l : list instr) (k : N) : list (N * N) :=
  match l with [] => [] | e :: l => (if g_term e then [] else [(i_idx e, k)]) ++ poss l (k + 1) end.
Lemma sel_cons {A} v u (y : A) L : sel v ((u, y) :: L) = (if decide (u = v) then [y] else []) ++ sel v L.
Proof. unfold sel. rewrite filter_cons. cbn [fst]. by destruct (decide (u = v)). Qed.
Lemma cl_add_lookup v u g cl : cl_add u g cl !! v = add_opt (cl !! v) (if decide (u = v) then [g] else []).
Proof. unfold cl_add. destruct (decide (u = v)) as [->|]; [by rewrite lookup_insert|by rewrite lookup_insert_ne]. Qed.
Lemma gv_pass_spec l : Forall good l -> forall k cl cn, exists cl' cn', gv_pass l k cl cn = inr (cl', cn') /\
  (forall v, cl' !! v = add_opt (cl !! v) (map gnode (sel v (labs l k)))) /\
  (forall v, cn' !! v = match last (sel v (poss l k)) with Some p => Some p | None => cn !! v end).
Proof.
  induction 1 as [|e l He Hl IH]; intros k cl cn; [by exists cl, cn|]. cbn [gv_pass labs poss].
  assert (Hcl : forall cl1 v g, g = gnode (k, g_label e) -> add_opt (cl_add (g_cluster e) g cl1 !! v) (map gnode (sel v (labs l (k + 1)))) =
    add_opt (cl1 !! v) (map gnode (sel v ((g_cluster e, (k, g_label e)) :: labs l (k + 1))))).
  { intros cl1 v g ->. rewrite sel_cons, cl_add_lookup, map_app, <- add_opt_assoc. by destruct (decide (g_cluster e = v)). }
  destruct He as [[Hne Hv]|[d Hd]].
  - destruct (cnode_instr _ Hne Hv) as (->&_&_). assert (Hg : g_term e = false) by (by apply N.eqb_neq). rewrite Hg. cbn [app].
    destruct (IH (k + 1) (cl_add (i_idx e) (GNode k (LVar (i_idx e))) cl) (<[i_idx e := k]> cn)) as (cl'&cn'&Hp&H1&H2). exists cl', cn'. split_and!; [exact Hp| |].
    + intros v. rewrite H1. unfold g_cluster in Hcl |- *. rewrite Hg in Hcl |- *. apply Hcl. unfold gnode, g_label. by rewrite Hg.
    + intros v. rewrite H2, sel_cons. destruct (decide (i_idx e = v)) as [->|Hne'].
      * cbn [app]. rewrite last_cons. destruct (last (sel v _)); [done|]. by rewrite lookup_insert.
      * cbn [app]. destruct (last (sel v _)); [done|]. by rewrite lookup_insert_ne.
  - destruct (cterm_instr _ _ Hd) as (->&->&->). destruct Hd as [Hlh Hi].
    assert (Hg : g_term e = true) by (apply N.eqb_eq; done). rewrite Hg. cbn [app].
    assert (Hlab : g_label e = if d then LTop else LBot). { unfold g_label. rewrite Hg, Hi. by destruct d. }
    assert (Hclu : g_cluster e = size_max) by (unfold g_cluster; by rewrite Hg). rewrite Hclu in *.
    destruct (IH (k + 1) (cl_add size_max (GNode k (g_label e)) cl) cn) as (cl'&cn'&Hp&H1&H2). exists cl', cn'. split_and!; [|intros v; rewrite H1; by apply Hcl|done].
    rewrite Hlab in Hp. by destruct d.
Qed.
Lemma labs_lookup l : forall k i p, labs l k !! i = Some p <-> exists e, l !! i = Some e /\ p = (g_cluster e, (k + N.of_nat i, g_label e)).
Proof.
  induction l as [|e l IH]; intros k [|i] p; cbn [labs lookup list_lookup]; [naive_solver|naive_solver| |].
  - rewrite N.add_0_r. naive_solver.
  - rewrite IH. split; intros (e'&He&->); exists e'; (split; [done|]); do 2 f_equal; lia.
Qed.
Lemma sel_elem {A} v (L : list (N * A)) y : y ∈ sel v L <-> (v, y) ∈ L.
Proof.
  unfold sel. rewrite elem_of_list_fmap. split.
  - intros ((u&z)&->&Hu). apply elem_of_list_filter in Hu as [Hf Hu]. simpl in *. by subst.
  - intros H. exists (v, y). split; [done|]. by apply elem_of_list_filter.
Qed.
Lemma sel_labs v l k m lab : (m, lab) ∈ sel v (labs l k) <-> exists e, k <= m /\ l !! N.to_nat (m - k) = Some e /\ v = g_cluster e /\ lab = g_label e.
Proof.
  rewrite sel_elem, elem_of_list_lookup. setoid_rewrite labs_lookup. split.
  - intros (i&e&He&[= -> -> ->]). exists e. split_and!; [lia| |done|done]. rewrite <- He. f_equal. lia.
  - intros (e&Hk&He&->&->). exists (N.to_nat (m - k)), e. split; [done|]. do 2 f_equal. lia.
Qed.
Lemma sel_labs_sorted v l : forall k, StronglySorted N.lt (map fst (sel v (labs l k))).
Proof.
  induction l as [|e l IH]; intros k; [constructor|]. cbn [labs]. rewrite sel_cons. destruct (decide _); [|apply IH]. cbn [app map fst]. constructor; [apply IH|].
  apply Forall_forall. intros m Hm. apply elem_of_list_fmap in Hm as ((m'&lab)&->&Hm). apply sel_labs in Hm as (?&?&_). simpl. lia.
Qed.
Lemma sel_poss v l : forall k m, m ∈ sel v (poss l k) <-> exists e, k <= m /\ l !! N.to_nat (m - k) = Some e /\ g_term e = false /\ i_idx e = v.
Proof.
  induction l as [|e l IH]; intros k m; cbn [poss].
  - split; [by intros ?%elem_of_nil|]. intros (e&_&He&_). rewrite lookup_nil in He. done.
  - assert (Htl : forall e', (k + 1 <= m /\ l !! N.to_nat (m - (k + 1)) = Some e') <-> (k <= m /\ m <> k /\ (e :: l) !! N.to_nat (m - k) = Some e')).
    { intros e'. split; intros (H1&H2).
      - split_and!; [lia|lia|]. replace (N.to_nat (m - k)) with (S (N.to_nat (m - (k + 1)))) by lia. done.
      - destruct H2 as [H2 H3]. split; [lia|]. by replace (N.to_nat (m - k)) with (S (N.to_nat (m - (k + 1)))) in H3 by lia. }
    assert (Hsel : sel v ((if g_term e then [] else [(i_idx e, k)]) ++ poss l (k + 1)) = (if g_term e then [] else if decide (i_idx e = v) then [k] else []) ++ sel v (poss l (k + 1))).
    { destruct (g_term e); [done|]. cbn [app]. by rewrite sel_cons. }
    rewrite Hsel, elem_of_app, IH. split.
    + intros [H|(e'&H1&H2&H3)].
      * destruct (g_term e) eqn:Hg; [by apply elem_of_nil in H|]. destruct (decide (i_idx e = v)); [|by apply elem_of_nil in H]. apply elem_of_list_singleton in H as ->.
        exists e. rewrite N.sub_diag. split_and!; [lia|done|done|done].
      * destruct (proj1 (Htl e') (conj H1 H2)) as (?&_&?). exists e'. done.
    + intros (e'&H1&H2&H3&H4). destruct (decide (m = k)) as [->|Hne].
      * left. rewrite N.sub_diag in H2. injection H2 as <-. rewrite H3, decide_True by done. by apply elem_of_list_singleton.
      * right. exists e'. destruct (proj2 (Htl e')) as [? ?]; [done|]. done.
Qed.
Lemma sel_poss_sorted v l : forall k, StronglySorted N.lt (sel v (poss l k)).
Proof.
  induction l as [|e l IH]; intros k; [constructor|]. cbn [poss]. destruct (g_term e); [apply IH|]. cbn [app]. rewrite sel_cons. destruct (decide _); [|apply IH].
  cbn [app]. constructor; [apply IH|]. apply Forall_forall. intros m Hm. apply sel_poss in Hm as (?&?&_). lia.
Qed.
Lemma sorted_last (l : list N) p : StronglySorted N.lt l -> last l = Some p -> forall m, m ∈ l -> m <= p.
Proof.
  induction 1 as [|y l Hl IH Hy]; [done|]. intros Hp m Hm. rewrite last_cons in Hp. destruct (last l) as [q|] eqn:Hq.
  - injection Hp as ->. apply elem_of_cons in Hm as [->|Hm]; [|by apply IH]. rewrite Forall_forall in Hy. apply N.lt_le_incl, Hy.
    apply last_Some in Hq as [l' ->]. set_solver.
  - injection Hp as ->. apply last_None in Hq as ->. apply elem_of_list_singleton in Hm as ->. lia.
Qed.
Lemma gv_arcs_eq a l : a < two64 -> forall k, (forall e, e ∈ l -> i_lo e <> i_hi e -> a <= i_lo e < two64 /\ a <= i_hi e < two64) ->
  gv_arcs l (N.of_nat k) a = concat (imap (fun i e => arcs_text a (k + i) e) l).
Proof.
  intros Ha. induction l as [|e l IH]; intros k Hl; [done|]. cbn [gv_arcs imap concat]. rewrite Nat.add_0_r.
  assert (Himap : imap ((fun (i : nat) (e0 : instr) => arcs_text a (k + i) e0) ∘ S) l = imap (fun i e => arcs_text a (S k + i) e) l).
  { apply imap_ext. intros i y _. unfold compose. f_equal. lia. }
  rewrite Himap, <- IH by (intros y Hy; apply Hl; by right). replace (N.of_nat k + 1) with (N.of_nat (S k)) by lia.
  unfold arcs_text at 1, g_term. unfold ci_is_term. destruct (N.eqb_spec (i_lo e) (i_hi e)) as [|Hne]; [done|]. cbn [app].
  destruct (Hl e ltac:(by left) Hne) as [H1 H2].
  assert (Hsub : forall q, a <= q < two64 -> sub64 q a = q - a).
  { intros q Hq. unfold sub64. rewrite (N.mod_small a) by lia. replace (q + (two64 - a)) with (q - a + 1 * two64) by lia. rewrite N.mod_add by done. apply N.mod_small. lia. }
  by rewrite !Hsub.
Qed.
Lemma chain_eq l : l <> [] -> gv_chain l = inr (chain_text l).
Proof.
  intros H. unfold gv_chain, chain_text. destruct l as [|p l]; [done|]. f_equal. apply map_ext. by intros [[] []].
Qed.
Lemma centries_eq c nr a b : cseg c nr a b -> centries c nr = take (N.to_nat (b - a)) (drop (N.to_nat a) (c_ins c)).
Proof. intros [H1 H2]. unfold centries. by rewrite H1, H2. Qed.
Lemma centries_lookup c nr a b k e : CInv c -> cseg c nr a b -> centries c nr !! k = Some e <-> (a + N.of_nat k < b /\ ix (c_ins c) (a + N.of_nat k) = Some e).
Proof.
  intros HI Hs. rewrite (centries_eq _ _ _ _ Hs). pose proof (sg_ab _ _ _ (ci_seg _ HI _ _ _ Hs)). rewrite lookup_take_Some, lookup_drop.
  replace (N.to_nat (a + N.of_nat k)) with (N.to_nat a + k)%nat by lia. split; intros [H1 H2]; (split; [|done]) || (split; [done|]); try lia; done || lia.
Qed.
Lemma centries_good c nr a b : CInv c -> cseg c nr a b -> Forall good (centries c nr).
Proof.
  intros HI Hs. apply Forall_lookup. intros k e He. apply (centries_lookup _ _ _ _ _ _ HI Hs) in He as [Hlt He].
  pose proof (ci_seg _ HI _ _ _ Hs) as Hg. destruct (decide (a + N.of_nat k < b - 2)) as [Hb|Hb].
  - left. destruct (sg_node _ _ _ Hg (a + N.of_nat k) e ltac:(lia) He) as (?&?&_). done.
  - right. apply (seg_last _ _ _ Hg (a + N.of_nat k) e ltac:(lia) He).
Qed.
Instance key_le_total : Total key_le. Proof. intros x y. unfold key_le. lia. Qed.
Instance key_le_trans : Transitive key_le. Proof. intros x y z. unfold key_le. lia. Qed.
Lemma sorted_strict (l : list (N * N)) : StronglySorted key_le l -> NoDup (map fst l) -> StronglySorted N.lt (map fst l).
Proof.
  induction 1 as [|p l Hl IH Hp]; intros Hn; [constructor|]. cbn [map] in *. apply NoDup_cons in Hn as [Hn1 Hn2]. constructor; [by apply IH|].
  apply Forall_forall. intros v Hv. apply elem_of_list_fmap in Hv as (q&->&Hq). rewrite Forall_forall in Hp. specialize (Hp q Hq). unfold key_le in Hp.
  assert (fst q <> fst p); [|lia]. intros Heq. apply Hn1. rewrite <- Heq. by apply elem_of_list_fmap_1.
Qed.
Theorem C66_export_graphviz ord ord' c nr : (forall l, ord l ≡ₚ l) -> (forall l, ord' l ≡ₚ l) -> built c -> csmall c -> nr < nr_bdds c ->
  exists a blocks reps, ix (c_del c) nr = Some a /\
    export_graphviz ord ord' c nr = inr ([GDigraph; GOpen] ++ concat (map cluster_text blocks) ++ chain_text reps ++ concat (imap (arcs_text a) (centries c nr)) ++ [GClose]) /\
    NoDup (map fst blocks) /\
    (forall v k lab, (exists b, (v, b) ∈ blocks /\ (k, lab) ∈ b) <-> exists e, centries c nr !! N.to_nat k = Some e /\ v = g_cluster e /\ lab = g_label e) /\
    (forall v b, (v, b) ∈ blocks -> b <> [] /\ StronglySorted N.lt (map fst b)) /\
    StronglySorted N.lt (map fst reps) /\
    (forall v, v ∈ map fst reps <-> cvar c nr v) /\
    (forall v k, (v, k) ∈ reps -> exists e, centries c nr !! N.to_nat k = Some e /\ g_term e = false /\ i_idx e = v).
Proof.
  intros Ho Ho' HB Hsm Hnr. pose proof (built_CInv HE _ HB) as HI. destruct (cseg_ex _ _ HI Hnr) as (a&b&Hs). pose proof (ci_seg _ HI _ _ _ Hs) as Hg.
  pose proof (sg_ab _ _ _ Hg) as Hab. pose proof (sg_len _ _ _ Hg) as Hlen. unfold csmall in Hsm. assert (H64 : two64 = 2 ^ 62 * 4) by done.
  set (l := centries c nr). pose proof (centries_good _ _ _ _ HI Hs) as Hgood. destruct (gv_pass_spec l Hgood 0 ∅ ∅) as (cl&cn&Hp&Hcl&Hcn).
  set (L := labs l 0) in *. setoid_rewrite lookup_empty in Hcl.
  assert (Hcn' : forall v, cn !! v = last (sel v (poss l 0))) by (intros v; rewrite Hcn; destruct (last _); [done|apply lookup_empty]).
  exists a, (map (fun p => (fst p, sel (fst p) L)) (ord (map_to_list cl))), (merge_sort key_le (ord' (map_to_list cn))).
  assert (Hreps : merge_sort key_le (ord' (map_to_list cn)) ≡ₚ map_to_list cn) by (rewrite merge_sort_Permutation; apply Ho').
  assert (Hin : forall v k, (v, k) ∈ merge_sort key_le (ord' (map_to_list cn)) <-> cn !! v = Some k) by (intros v k; rewrite Hreps; apply elem_of_map_to_list).
  assert (Hvar : forall v, (exists k, cn !! v = Some k) <-> cvar c nr v).
  { intros v. split.
    - intros (k&Hk). rewrite Hcn' in Hk. apply last_Some in Hk as [l' Hk]. assert (Hm : k ∈ sel v (poss l 0)) by (rewrite Hk; set_solver).
      apply sel_poss in Hm as (e&_&He&Ht&<-). rewrite N.sub_0_r in He. apply (centries_lookup _ _ _ _ _ _ HI Hs) in He as [Hlt He]. rewrite N2Nat.id in Hlt, He.
      exists e. split; [|done]. exists a, b, (a + k). split_and!; [done|lia| |done]. destruct (decide (a + k < b - 2)) as [?|Hb]; [done|exfalso].
      destruct (seg_last _ _ _ Hg (a + k) e ltac:(lia) He) as [d [Hd _]]. unfold g_term in Ht. by apply N.eqb_neq in Ht.
    - intros (e&(a'&b'&i&Hs'&Hi&He)&<-). assert (a' = a /\ b' = b) as [-> ->] by (destruct Hs, Hs'; split; congruence).
      destruct (sg_node _ _ _ Hg i e Hi He) as (Hne&_). rewrite Hcn'. destruct (last (sel (i_idx e) (poss l 0))) as [k|] eqn:Hl; [eauto|exfalso].
      apply last_None in Hl. apply (not_elem_of_nil (i - a)). rewrite <- Hl. apply sel_poss. exists e. rewrite N.sub_0_r. split_and!; [lia| |by apply N.eqb_neq|done].
      apply (centries_lookup _ _ _ _ _ _ HI Hs). replace (a + N.of_nat (N.to_nat (i - a))) with i by lia. split; [lia|done]. }
  split_and!.
  - apply Hs.
  - unfold export_graphviz. rewrite assertR_true by (by apply N.ltb_lt). rewrite (del_at_eq _ _ _ (proj1 Hs)), (del_at_eq _ _ _ (proj2 Hs)). cbn [bindR].
    assert (Hsl : slice c a b = inr l).
    { unfold slice, l. rewrite (centries_eq _ _ _ _ Hs), (proj2 (N.leb_gt b a)) by lia. by rewrite (proj2 (N.leb_le _ _)) by lia. }
    rewrite Hsl. cbn [bindR]. rewrite Hp. cbn [bindR fst snd].
    rewrite chain_eq.
    + cbn [bindR]. do 3 f_equal.
      * unfold gv_clusters. rewrite map_map. f_equal. apply map_ext_in. intros [v ls] Hin'. apply elem_of_list_In in Hin'. rewrite Ho in Hin'. apply elem_of_map_to_list in Hin'.
        rewrite Hcl in Hin'. unfold add_opt in Hin'. unfold cluster_text. cbn [fst snd]. change (fun n : N * glabel => GNode n.1 n.2) with gnode.
        destruct (map gnode (sel v L)) as [|g gs] eqn:Hgs; [discriminate Hin'|]. cbn [default app] in Hin'. by injection Hin' as <-.
      * do 2 f_equal. apply (gv_arcs_eq a l ltac:(lia) 0). intros e He Hne. apply elem_of_list_lookup in He as [k Hk]. apply (centries_lookup _ _ _ _ _ _ HI Hs) in Hk as [Hlt Hk].
        assert (a + N.of_nat k < b - 2) as Hb. { destruct (decide (a + N.of_nat k < b - 2)) as [?|Hb]; [done|exfalso]. destruct (seg_last _ _ _ Hg (a + N.of_nat k) e ltac:(lia) Hk) as [d [Hd _]]. done. }
        destruct (sg_node _ _ _ Hg (a + N.of_nat k) e ltac:(lia) Hk) as (_&_&?&?). lia.
    + intros Hnil. destruct (seg_ix _ _ _ Hg a ltac:(lia)) as [e He]. destruct (proj2 (Hvar (i_idx e))) as [k Hk].
      { exists e. split; [|done]. exists a, b, a. split_and!; [done|lia|lia|done]. }
      apply Hin in Hk. rewrite Hnil in Hk. by apply elem_of_nil in Hk.
  - rewrite map_map. cbn [fst]. rewrite (Ho (map_to_list cl)). apply NoDup_fst_map_to_list.
  - intros v k lab. split.
    + intros (b0&Hb&Hk). apply elem_of_list_fmap in Hb as ((v'&ls)&[= -> ->]&_). cbn [fst] in Hk. apply sel_labs in Hk as (e&_&He&->&->). rewrite N.sub_0_r in He. eauto.
    + intros (e&He&->&->). set (v := g_cluster e). exists (sel v L). assert (Hk : (k, g_label e) ∈ sel v L). { apply sel_labs. exists e. rewrite N.sub_0_r. split_and!; [lia|done|done|done]. }
      split; [|done]. apply elem_of_list_fmap. specialize (Hcl v). unfold add_opt in Hcl. destruct (map gnode (sel v L)) as [|g gs] eqn:Hgs.
      { apply map_eq_nil in Hgs. rewrite Hgs in Hk. by apply elem_of_nil in Hk. }
      exists (v, default [] None ++ g :: gs). split; [done|]. rewrite Ho. by apply elem_of_map_to_list.
  - intros v b0 Hb. apply elem_of_list_fmap in Hb as ((v'&ls)&[= -> ->]&Hv). cbn [fst]. split; [|apply sel_labs_sorted].
    intros Hnil. rewrite Ho in Hv. apply elem_of_map_to_list in Hv. rewrite Hcl, Hnil in Hv. discriminate Hv.
  - apply sorted_strict; [apply (StronglySorted_merge_sort _)|]. rewrite Hreps. apply NoDup_fst_map_to_list.
  - intros v. rewrite <- Hvar. rewrite elem_of_list_fmap. split.
    + intros ((v'&k)&->&Hv). exists k. by apply Hin.
    + intros (k&Hk). exists (v, k). split; [done|]. by apply Hin.
  - intros v k Hk. apply Hin in Hk. rewrite Hcn' in Hk. apply last_Some in Hk as [l' Hk]. assert (Hm : k ∈ sel v (poss l 0)) by (rewrite Hk; set_solver).
    apply sel_poss in Hm as (e&_&He&Ht&<-). rewrite N.sub_0_r in He. eauto.
Qed.
(** what the picture says: the nodes and arcs in it are those of the stored BDD *)
Lemma in_out a blocks reps l (g : gline) : (forall i j, g <> GInvis i j) -> (forall v, g <> GCluster v) -> g <> GDigraph -> g <> GOpen -> g <> GClose -> g <> GColor ->
  g ∈ [GDigraph; GOpen] ++ concat (map cluster_text blocks) ++ chain_text reps ++ concat (imap (arcs_text a) l) ++ [GClose] <->
  (exists v b k lab, (v, b) ∈ blocks /\ (k, lab) ∈ b /\ g = GNode k lab) \/ (exists k e, l !! k = Some e /\ g ∈ arcs_text a k e).
Proof.
  intros H1 H2 H3 H4 H5 H6. rewrite !elem_of_app. split.
  - intros [H|[H|[H|[H|H]]]].
    + exfalso. set_solver.
    + left. apply elem_of_list_In, in_concat in H as (t&Ht&Hg). apply in_map_iff in Ht as ([v b]&<-&Hb). apply elem_of_list_In in Hg. apply elem_of_list_In in Hb.
      unfold cluster_text in Hg. cbn [fst snd] in Hg. apply elem_of_cons in Hg as [Hg|Hg]; [by destruct (H2 v)|]. apply elem_of_app in Hg as [Hg|Hg]; [|set_solver].
      apply elem_of_list_fmap in Hg as ([k lab]&->&Hk). by exists v, b, k, lab.
    + exfalso. unfold chain_text in H. apply elem_of_list_fmap in H as (p&->&_). by eapply H1.
    + right. apply elem_of_list_In, in_concat in H as (t&Ht&Hg). apply elem_of_list_In in Ht. apply elem_of_lookup_imap in Ht as (k&e&->&Hk). exists k, e. split; [done|]. by apply elem_of_list_In.
    + exfalso. set_solver.
  - intros [(v&b&k&lab&Hb&Hk&->)|(k&e&He&Hg)].
    + right; left. apply elem_of_list_In, in_concat. exists (cluster_text (v, b)). split; [apply in_map, elem_of_list_In, Hb|]. apply elem_of_list_In. unfold cluster_text. cbn [fst snd].
      right. apply elem_of_app. left. apply elem_of_list_fmap. by exists (k, lab).
    + do 3 right. left. apply elem_of_list_In, in_concat. exists (arcs_text a k e). split; [|by apply elem_of_list_In]. apply elem_of_list_In, elem_of_lookup_imap. by exists k, e.
Qed.
Theorem C66_denotes ord ord' c nr : (forall l, ord l ≡ₚ l) -> (forall l, ord' l ≡ₚ l) -> built c -> csmall c -> nr < nr_bdds c ->
  exists out, export_graphviz ord ord' c nr = inr out /\ forall x d, drawn out x 0 d <-> cval c nr x = Some d.
Proof.
  intros Ho Ho' HB Hsm Hnr. destruct (C66_export_graphviz ord ord' c nr Ho Ho' HB Hsm Hnr) as (a&blocks&reps&Ha&He&_&Hnodes&_).
  pose proof (built_CInv HE _ HB) as HI. destruct (cseg_ex _ _ HI Hnr) as (a'&b&Hs). assert (a' = a) as -> by (destruct Hs; congruence).
  pose proof (ci_seg _ HI _ _ _ Hs) as Hg. pose proof (sg_ab _ _ _ Hg) as Hab.
  eexists. split; [exact He|]. clear He. set (out := _ ++ _).
  assert (Hn : forall k lab, GNode k lab ∈ out <-> exists e, a + k < b /\ ix (c_ins c) (a + k) = Some e /\ lab = g_label e).
  { intros k lab. unfold out. rewrite in_out by done. split.
    - intros [(v&b0&k'&lab'&Hb&Hk&[= <- <-])|(k'&e&He&Hin)].
      + destruct (proj1 (Hnodes v k lab)) as (e&He&_&->); [eauto|]. apply (centries_lookup _ _ _ _ _ _ HI Hs) in He as [Hl He]. rewrite N2Nat.id in Hl, He. eauto.
      + exfalso. unfold arcs_text in Hin. destruct (g_term e); set_solver.
    - intros (e&Hl&He&->). left. destruct (proj2 (Hnodes (g_cluster e) k (g_label e))) as (b0&Hb&Hk); [|by exists (g_cluster e), b0, k, (g_label e)].
      exists e. split_and!; [|done|done]. apply (centries_lookup _ _ _ _ _ _ HI Hs). by rewrite N2Nat.id. }
  assert (Harc : forall (z : bool) k j, (if z then GSolid k j else GDashed k j) ∈ out <->
    exists e, a + k < b /\ ix (c_ins c) (a + k) = Some e /\ i_lo e <> i_hi e /\ j = (if z then i_hi e else i_lo e) - a).
  { intros z k j. unfold out. rewrite in_out by (by destruct z). split.
    - intros [(v&b0&k'&lab'&_&_&Heq)|(k'&e&He&Hin)]; [by destruct z|]. apply (centries_lookup _ _ _ _ _ _ HI Hs) in He as [Hl He].
      unfold arcs_text, g_term in Hin. destruct (N.eqb_spec (i_lo e) (i_hi e)) as [|Hne]; [by apply elem_of_nil in Hin|].
      assert (k = N.of_nat k' /\ j = (if z then i_hi e else i_lo e) - a) as [-> ->].
      { apply elem_of_cons in Hin as [Hin|Hin]; [|apply elem_of_list_singleton in Hin]; destruct z; try discriminate Hin; injection Hin as -> ->; done. }
      by exists e.
    - intros (e&Hl&He&Hne&->). right. exists (N.to_nat k), e. split; [apply (centries_lookup _ _ _ _ _ _ HI Hs); by rewrite N2Nat.id|].
      unfold arcs_text, g_term. rewrite (proj2 (N.eqb_neq _ _) Hne), N2Nat.id. destruct z; set_solver. }
  assert (Hshape : forall i e, a <= i < b -> ix (c_ins c) i = Some e -> (i < b - 2 /\ i_lo e <> i_hi e /\ i_idx e < cbot /\ i < i_lo e < b /\ i < i_hi e < b) \/ exists d, cterm d e).
  { intros i e Hi He. destruct (decide (i < b - 2)) as [Hb|Hb]; [left|right; apply (seg_last _ _ _ Hg i e ltac:(lia) He)].
    destruct (sg_node _ _ _ Hg i e ltac:(lia) He) as (?&?&?&?). done. }
  intros x d. rewrite <- (cval_cev c nr a b x d HI Hs). 
  assert (Hgen : forall k, a + k < b -> drawn out x k d <-> cev (c_ins c) x (a + k) d); [|rewrite (Hgen 0) by lia; by rewrite N.add_0_r].
  intros k Hkb. split.
  - intros H. clear Hkb. induction H as [k Hk|k Hk|k v j z d Hk Hz Hj _ IH].
    + apply Hn in Hk as (e&Hl&He&Hlab). destruct (Hshape (a + k) e ltac:(lia) He) as [(_&Hne&_)|[d [Hd Hi]]]; unfold g_label, g_term in Hlab.
      * by rewrite (proj2 (N.eqb_neq _ _) Hne) in Hlab.
      * rewrite (proj2 (N.eqb_eq _ _) Hd), Hi in Hlab. eapply cev_t; [done|]. rewrite Hi. by destruct d.
    + apply Hn in Hk as (e&Hl&He&Hlab). destruct (Hshape (a + k) e ltac:(lia) He) as [(_&Hne&_)|[d [Hd Hi]]]; unfold g_label, g_term in Hlab.
      * by rewrite (proj2 (N.eqb_neq _ _) Hne) in Hlab.
      * rewrite (proj2 (N.eqb_eq _ _) Hd), Hi in Hlab. eapply cev_t; [done|]. rewrite Hi. by destruct d.
    + apply Hn in Hk as (e&Hl&He&Hlab). apply Harc in Hj as (e'&_&He'&Hne&->). rewrite He in He'. injection He' as <-.
      unfold g_label, g_term in Hlab. rewrite (proj2 (N.eqb_neq _ _) Hne) in Hlab. injection Hlab as ->.
      destruct (Hshape (a + k) e ltac:(lia) He) as [(_&_&Hv&Hlo&Hhi)|[d' [Hd' _]]]; [|done]. eapply cev_n; [done|done|done|].
      replace (if z then i_hi e else i_lo e) with (a + ((if z then i_hi e else i_lo e) - a)) by (destruct z; lia). done.
  - intros H. remember (a + k) as i eqn:Hi. revert k Hi Hkb. induction H as [i e d He Hd|i e z d He Hv Hz H IH]; intros k -> Hr.
    + assert (Hlab : GNode k (if d then LTop else LBot) ∈ out).
      { apply Hn. exists e. split_and!; [lia|done|]. destruct (Hshape (a + k) e ltac:(lia) He) as [(_&_&Hv&_)|[d' [Hd' Hi']]].
        - rewrite Hd in Hv. destruct d; unfold ctop, cbot in Hv; lia.
        - unfold g_label, g_term. rewrite (proj2 (N.eqb_eq _ _) Hd'), Hd. by destruct d. }
      destruct d; by constructor.
    + destruct (Hshape (a + k) e ltac:(lia) He) as [(_&Hne&_&Hlo&Hhi)|[d' [_ Hi']]]; [|rewrite Hi' in Hv; destruct d'; unfold ctop, cbot in Hv; lia].
      eapply (dr_node _ _ k (i_idx e) ((if z then i_hi e else i_lo e) - a) z).
      * apply Hn. exists e. split_and!; [lia|done|]. unfold g_label, g_term. by rewrite (proj2 (N.eqb_neq _ _) Hne).
      * done.
      * apply Harc. exists e. split_and!; [lia|done|done|done].
      * apply IH; destruct z; lia.
Qed.
(** under NDEBUG the BDD stored for a contradiction has no inner node: the chain loop runs past the end *)
Theorem C66_contradiction_refuted ord ord' c bs L : e_ndebug = true -> (forall l, ord' l ≡ₚ l) ->
  obuilt c -> csmall c -> Forall (fun b => b < nr_bdds c) bs -> (2 <= length bs <= 49)%nat -> 2 < L -> ~ csatisfiable c bs ->
  exists k c', bdd_and_range c bs L = inr (k, c') /\ k < nr_bdds c' /\ export_graphviz ord ord' c' k = inl EUB.
Proof.
  intros Hnd Ho' HB Hsm HF Hlen HL Hun. pose proof (built_CInv HE _ (obuilt_built _ HB)) as HI. destruct (roots_ex _ _ HI HF) as [ts Hr].
  assert (Ho : Forall (ordt 0) ts). { pose proof (obuilt_ordall HE _ HB) as Ho. clear -Ho Hr. induction Hr; constructor; eauto. }
  pose proof (and_range_unsat c bs ts L HI Hsm HF Hlen Hr HL Ho (unsat_conjf _ _ _ HI Hr Hun)) as H. rewrite Hnd in H. destruct H as (x&y&He&Hx&Hy).
  pose proof (nr_bdds_len _ HI) as Hnl. pose proof (ci_last _ HI) as Hl. rewrite last_lookup in Hl. set (n := N.of_nat (length (c_ins c))) in *.
  eexists _, _. split; [exact He|]. set (c' := Coll _ _).
  assert (Hk : nr_bdds c < nr_bdds c') by (unfold c', nr_bdds at 2; simpl; rewrite app_length; simpl; lia). split; [done|].
  assert (Ha : ix (c_del c') (nr_bdds c) = Some n) by (simpl; apply lookup_app_l_Some; rewrite <- Hl; f_equal; lia).
  assert (Hb : ix (c_del c') (nr_bdds c + 1) = Some (n + 2)).
  { simpl. rewrite lookup_app_r by lia. replace (N.to_nat (nr_bdds c + 1) - length (c_del c))%nat with 0%nat by lia. simpl. f_equal. unfold n. lia. }
  unfold export_graphviz. rewrite assertR_true by (by apply N.ltb_lt). rewrite (del_at_eq _ _ _ Ha), (del_at_eq _ _ _ Hb). cbn [bindR].
  assert (Hsl : slice c' n (n + 2) = inr [x; y]).
  { unfold slice. rewrite (proj2 (N.leb_gt _ _)) by lia. rewrite (proj2 (N.leb_le _ _)) by (unfold c'; simpl; rewrite app_length; simpl; unfold n; lia).
    f_equal. unfold c'. cbn [c_ins]. rewrite drop_app_alt by (unfold n; lia). by replace (N.to_nat (n + 2 - n)) with 2%nat by lia. }
  rewrite Hsl. cbn [bindR gv_pass]. 
  destruct (cterm_instr _ _ Hx) as (Hx1&Hx2&_). destruct (cterm_instr _ _ Hy) as (Hy1&Hy2&Hy3). rewrite Hx1, Hx2, Hy1, Hy2, Hy3. cbn [bindR snd negb].
  assert (Hm : ord' (map_to_list (∅ : gmap N N)) = []). { apply Permutation_nil. symmetry. rewrite Ho'. by rewrite map_to_list_empty. }
  by rewrite Hm.
Qed.

(** ** C67: the entry and node objects *)
Theorem C67_entry_and c i j : built c -> csmall c -> i < nr_bdds c -> j < nr_bdds c -> csatisfiable c [i; j] ->
  (exists c', entry_and c i j = inr (nr_bdds c, c') /\ cand_done c [i; j] c' /\ (csmall c' -> built c')) \/
  (forall L, 2 < L < 2 ^ 62 -> bdd_and2 c i j L = inr (size_max, c)).
Proof.
  intros HB Hsm Hi Hj Hsat. pose proof (built_CInv HE _ HB) as HI. assert (HF : Forall (fun b => b < nr_bdds c) [i; j]) by auto.
  destruct (roots_ex _ _ HI HF) as [ts Hr]. pose proof (sat_conjf _ _ _ HI Hr Hsat) as Hst.
  assert (Hsame : forall L l, bdd_and_range c [i; j] L = inr (size_max, c) -> bdd_and_range c [i; j] L = inr (nr_bdds c, l) -> False).
  { intros L l H1 H2. rewrite H1 in H2. injection H2 as H2 _. pose proof (del_len _ HI). pose proof (nr_bdds_len _ HI). unfold size_max in H2. unfold csmall in Hsm. lia. }
  destruct (cand_range_spec c [i; j] ts (2 ^ 62 - 1) HI Hsm HF ltac:(simpl; lia) Hr ltac:(lia) Hst) as [Hm|(l&He&Ho&Hll&Hst')].
  - right. intros L' HL'. destruct (cand_range_spec c [i; j] ts L' HI Hsm HF ltac:(simpl; lia) Hr ltac:(lia) Hst) as [?|(l&He&Ho&Hll&Hst')]; [done|exfalso].
    rewrite <- (Hst' (2 ^ 62 - 1) ltac:(lia) ltac:(lia)) in He. by eapply Hsame.
  - left. rewrite <- (Hst' size_max ltac:(unfold size_max; lia) ltac:(unfold size_max; lia)) in He. change (bdd_and_range c [i; j] size_max) with (bdd_and2 c i j size_max) in He.
    destruct (AndOut_done _ _ _ _ HI Hr Ho) as [HI' Hd]. eexists. split.
    + unfold entry_and. rewrite He. cbn [bindR fst snd]. unfold mk_entry. rewrite assertR_true; [done|]. apply N.ltb_lt. destruct Hd as ((_&Hk&_)&_). rewrite Hk. lia.
    + split; [exact Hd|]. intros Hsm'. eapply built_and; [exact HB|exact HF|exact (eq_refl : 2 < size_max)|done|exact He|done].
Qed.
Theorem C67_contradiction_refuted c i j : obuilt c -> csmall c -> i < nr_bdds c -> j < nr_bdds c -> ~ csatisfiable c [i; j] ->
  if e_ndebug then exists c', entry_and c i j = inr (nr_bdds c, c') /\ forall x, cval c' (nr_bdds c) x = Some true
  else entry_and c i j = inl EAssert.
Proof.
  intros HB Hsm Hi Hj Hun. pose proof (C44_contradiction_refuted HE c [i; j] size_max HB Hsm ltac:(auto) ltac:(simpl; lia) eq_refl Hun) as H.
  change (bdd_and_range c [i; j] size_max) with (bdd_and2 c i j size_max) in H. unfold entry_and. destruct e_ndebug eqn:Hnd.
  - destruct H as (c'&He&Hx). exists c'. split; [|done]. rewrite He. cbn [bindR fst snd]. unfold mk_entry, assertR. rewrite Hnd, orb_true_r. done.
  - by rewrite H.
Qed.
(** collection[nr] and entry[k]: the nodes are numbered 0 (the root) to nr_nodes()-1, pairwise different *)
Theorem C67_nodes c nr : built c -> csmall c -> nr < nr_bdds c ->
  c_index c nr = inr nr /\
  exists n, nr_bdd_nodes c nr = inr n /\
    (forall k, k < n -> exists m, entry_nth c nr k = inr m /\ (k = 0 -> root_node c nr = inr m) /\ cn_is_terminal c m = inr (n - 2 <=? k)) /\
    (forall k, n <= k -> k < 2 ^ 62 -> e_ndebug = false -> entry_nth c nr k = inl EAssert) /\
    (forall nr' k k' m m', nr' < nr_bdds c -> node_nr c nr k m -> node_nr c nr' k' m' -> cn_eqb m m' = true <-> nr = nr' /\ k = k').
Proof.
  intros HB Hsm Hnr. pose proof (built_CInv HE _ HB) as HI. destruct (cseg_ex _ _ HI Hnr) as (a&b&Hs). pose proof (ci_seg _ HI _ _ _ Hs) as Hg.
  pose proof (sg_ab _ _ _ Hg) as Hab. pose proof (sg_len _ _ _ Hg) as Hlen. unfold csmall in Hsm. assert (H64 : two64 = 2 ^ 62 * 4) by done.
  split; [unfold c_index, mk_entry; by rewrite assertR_true by (by apply N.ltb_lt)|].
  exists (b - a). assert (Hnth : forall k, k < 2 ^ 62 -> entry_nth c nr k = mk_cnode c (a + k) nr).
  { intros k Hk. unfold entry_nth. rewrite (del_at_eq _ _ _ (proj1 Hs)). cbn [bindR]. unfold add64. by rewrite N.mod_small by lia. }
  split_and!.
  - apply (nr_bdd_nodes_eq _ _ _ _ HI Hs). lia.
  - intros k Hk. exists (a + k, nr). rewrite Hnth by lia. rewrite (mk_cnode_ok c nr a b) by (done || lia). split_and!; [done| |].
    + intros ->. rewrite (root_node_ok _ _ _ _ HI Hs). by rewrite N.add_0_r.
    + destruct (seg_ix _ _ _ Hg (a + k) ltac:(lia)) as [e He]. unfold cn_is_terminal, cn_instr. cbn [fst]. rewrite (vecR_eq _ _ _ He). cbn [bindR]. f_equal.
      destruct (N.leb_spec (b - a - 2) k) as [Hb|Hb].
      * destruct (seg_last _ _ _ Hg (a + k) e ltac:(lia) He) as [d Hd]. apply (cterm_instr _ _ Hd).
      * destruct (sg_node _ _ _ Hg (a + k) e ltac:(lia) He) as (Hne&Hv&_). apply (cnode_instr _ Hne Hv).
  - intros k Hk Hk' Hnd. rewrite Hnth by lia. unfold mk_cnode. rewrite (del_at_eq _ _ _ (proj2 Hs)). cbn [bindR]. unfold assertRR. rewrite Hnd.
    rewrite (proj2 (N.ltb_ge (a + k) b)) by lia. cbn [bindR]. unfold assertR. by rewrite Hnd.
  - intros nr' k k' m m' Hnr' Hm Hm'. destruct (cseg_ex _ _ HI Hnr') as (a'&b'&Hs').
    destruct (node_nr_ix _ _ _ _ _ _ HI Hsm Hs Hm) as [-> Hk]. destruct (node_nr_ix _ _ _ _ _ _ HI Hsm Hs' Hm') as [-> Hk'].
    unfold cn_eqb. cbn [fst]. rewrite N.eqb_eq. split.
    + intros Heq. destruct (decide (nr = nr')) as [->|Hne].
      * assert (a' = a) as -> by (destruct Hs, Hs'; congruence). split; [done|lia].
      * exfalso. apply (cseg_disj _ _ _ _ _ _ _ (a + k) HI Hs Hs' Hne); lia.
    + intros [<- <-]. assert (a' = a) as -> by (destruct Hs, Hs'; congruence). done.
Qed.

(** ** C68: the iterator pairs *)
Lemma instructions_eq c nr : built c -> nr < nr_bdds c -> get_bdd_instructions c nr = inr (centries c nr).
Proof.
  intros HB Hnr. pose proof (built_CInv HE _ HB) as HI. destruct (cseg_ex _ _ HI Hnr) as (a&b&Hs). pose proof (ci_seg _ HI _ _ _ Hs) as Hg.
  pose proof (sg_ab _ _ _ Hg) as Hab. pose proof (sg_len _ _ _ Hg) as Hlen.
  unfold get_bdd_instructions. rewrite (del_at_eq _ _ _ (proj1 Hs)), (del_at_eq _ _ _ (proj2 Hs)). cbn [bindR].
  unfold slice. rewrite (centries_eq _ _ _ _ Hs), (proj2 (N.leb_gt b a)) by lia. by rewrite (proj2 (N.leb_le _ _)) by lia.
Qed.
Theorem C68_instructions c nr : built c -> csmall c -> nr < nr_bdds c ->
  exists l, get_bdd_instructions c nr = inr l /\ nr_bdd_nodes c nr = inr (N.of_nat (length l)) /\
    forall k m, node_nr c nr k m -> exists e, l !! N.to_nat k = Some e /\ cn_instr c m = inr e.
Proof.
  intros HB Hsm Hnr. pose proof (built_CInv HE _ HB) as HI. destruct (cseg_ex _ _ HI Hnr) as (a&b&Hs). pose proof (ci_seg _ HI _ _ _ Hs) as Hg.
  pose proof (sg_ab _ _ _ Hg) as Hab. pose proof (sg_len _ _ _ Hg) as Hlen. unfold csmall in Hsm. assert (H64 : two64 = 2 ^ 62 * 4) by done.
  exists (centries c nr). split_and!; [by apply instructions_eq| |].
  - rewrite (nr_bdd_nodes_eq _ _ _ _ HI Hs) by lia. f_equal. rewrite (centries_eq _ _ _ _ Hs), take_length, drop_length. lia.
  - intros k m Hm. destruct (node_nr_ix _ _ _ _ _ _ HI Hsm Hs Hm) as [-> Hk]. destruct (seg_ix _ _ _ Hg (a + k) ltac:(lia)) as [e He]. exists e. split.
    + apply (centries_lookup _ _ _ _ _ _ HI Hs). rewrite N2Nat.id. done.
    + unfold cn_instr. cbn [fst]. by rewrite (vecR_eq _ _ _ He).
Qed.
Theorem C68_reverse_refuted c nr : built c -> nr < nr_bdds c ->
  exists l, get_bdd_instructions c nr = inr l /\ get_reverse_bdd_instructions c nr = inr l /\ rev l <> l.
Proof.
  intros HB Hnr. pose proof (built_CInv HE _ HB) as HI. destruct (cseg_ex _ _ HI Hnr) as (a&b&Hs). pose proof (ci_seg _ HI _ _ _ Hs) as Hg.
  pose proof (sg_ab _ _ _ Hg) as Hab. pose proof (sg_len _ _ _ Hg) as Hlen.
  exists (centries c nr). split_and!; [by apply instructions_eq|by apply instructions_eq|]. intros Hrev.
  assert (Hl : length (centries c nr) = N.to_nat (b - a)) by (rewrite (centries_eq _ _ _ _ Hs), take_length, drop_length; lia).
  destruct (seg_ix _ _ _ Hg a ltac:(lia)) as [e He]. destruct (seg_ix _ _ _ Hg (b - 1) ltac:(lia)) as [e' He'].
  assert (H0 : centries c nr !! 0%nat = Some e). { apply (centries_lookup _ _ _ _ _ _ HI Hs). rewrite N.add_0_r. split; [lia|done]. }
  assert (H1 : centries c nr !! N.to_nat (b - 1 - a) = Some e'). { apply (centries_lookup _ _ _ _ _ _ HI Hs). rewrite N2Nat.id. replace (a + (b - 1 - a)) with (b - 1) by lia. split; [lia|done]. }
  rewrite <- Hrev, rev_alt in H1. fold (reverse (centries c nr)) in H1. rewrite reverse_lookup in H1 by lia. rewrite Hl in H1. replace (N.to_nat (b - a) - S (N.to_nat (b - 1 - a)))%nat with 0%nat in H1 by lia.
  rewrite H0 in H1. injection H1 as <-. destruct (sg_node _ _ _ Hg a e ltac:(lia) He) as (Hne&_). destruct (seg_last _ _ _ Hg (b - 1) e ltac:(lia) He') as [d [Hd _]]. done.
Qed.
End gv.
