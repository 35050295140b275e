(** * PropsColl2.v -- theorems about bdd_collection, continued (C40, C44-C49, C52-C55) *)
From Verif Require Export PropsColl.
Open Scope N_scope.

Section props_coll2.
Context {E : Env} (HE : env_ok E).

(** ** C40: add_bdd of a constant is undefined behaviour *)
Theorem C40_constant_refuted md w c i : reach md w -> built c -> isconst w i -> sinks_unmarked ->
  step (QCollAdd c i) w = WFail EUB w.
Proof.
  intros HR HB Hc Hm. pose proof (reach_inv HE _ _ HR) as HW. pose proof (built_CInv HE _ HB) as HI.
  assert (Hl : live w i).
  { pose proof (proj1 HE 0%nat) as H4. destruct Hc as [H|H]; eexists; (split; [exact H|]); unfold botsink, topsink, node_size; lia. }
  destruct (live_hrep _ _ _ HW Hl) as (p&t&Hr). simpl. rewrite (with1_hrep _ _ _ _ _ Hr).
  assert (Hs : sink p) by (by eapply isconst_hrep).
  assert (He : c_add_bdd c p (w_s w) = Fail EUB (w_s w)).
  { unfold c_add_bdd. rewrite (back_del_len _ HI), N.eqb_refl. rewrite (bind_eq _ _ _ _ _ (assert_eq true (w_s w) eq_refl)).
    assert (Hpo : nodes_postorder p (w_s w) = Ok [] (w_s w)) by (by eapply postorder_sink; [apply HW|apply Hr|..]).
    by rewrite (bind_eq _ _ _ _ _ Hpo). }
  unfold query. rewrite He. by destruct w.
Qed.

(** ** order *)
Lemma croot_seg c nr t : CInv c -> croot c nr t -> exists a b, cseg c nr a b /\ seg (c_ins c) a b /\ crep (c_ins c) a t.
Proof.
  intros HI Hr. pose proof (croot_lt _ _ _ HI Hr) as Hn. destruct Hr as (a&Ha&Ht). destruct (cseg_ex _ _ HI Hn) as (a'&b&Hs).
  assert (a' = a) as -> by (destruct Hs; congruence). exists a, b. split_and!; auto. by eapply ci_seg.
Qed.
Lemma cord_ordt c nr t : CInv c -> croot c nr t -> cordered c nr -> ordt 0 t.
Proof.
  intros HI Hr Ho. destruct (croot_seg _ _ _ HI Hr) as (a&b&Hs&Hg&Ht). pose proof (sg_ab _ _ _ Hg).
  destruct (seg_ix _ _ _ Hg a) as [x Hx]; [lia|]. eapply (ordt_weaken _ (i_idx x)); [lia|].
  eapply (seg_ordt _ _ _ Hg); [by eapply cordered_at|exact Ht|lia|done].
Qed.
Lemma ordt_cord c nr t : CInv c -> csup c nr -> croot c nr t -> ordt 0 t -> cordered c nr.
Proof.
  intros HI Hup Hr Ho. destruct (croot_seg _ _ _ HI Hr) as (a&b&Hs&Hg&Ht). eapply at_cordered; [exact Hs|]. eapply seg_ordered; [exact Hg|by apply Hup|exact Ht|exact Ho].
Qed.
Lemma croot_fun c nr t t' : croot c nr t -> croot c nr t' -> t = t'.
Proof. intros (a&Ha&Ht) (a'&Ha'&Ht'). simplify_eq. by eapply crep_fun. Qed.
Lemma croot_redt c nr t : CInv c -> croot c nr t -> redt t.
Proof. intros HI Hr. destruct (croot_seg _ _ _ HI Hr) as (a&b&Hs&Hg&Ht). pose proof (sg_ab _ _ _ Hg). eapply seg_redt; [exact Hg| |exact Ht]. lia. Qed.
Lemma rent_ordt vm t : forall lb lb', ordt lb t ->
  (forall v v' u u', occurs v t -> occurs v' t -> v < v' -> vm v = Some u -> vm v' = Some u' -> u < u') ->
  (forall v, occurs v t -> exists u, vm v = Some u /\ lb' <= u) -> ordt lb' (rent vm t).
Proof.
  induction t as [b|v l IHl h IHh]; intros lb lb' Ho Hm Hlb; [done|]. simpl in Ho |- *. destruct Ho as (Hv&Hol&Hoh).
  destruct (Hlb v) as (u&Hu&Hle); [by left|]. rewrite Hu. simpl. split_and!; [done|..].
  - apply (IHl (v + 1)); [done| |].
    + intros a a' c c' Ha Ha'. apply Hm; simpl; auto.
    + intros a Ha. destruct (Hlb a) as (c&Hc&_); [simpl; auto|]. exists c. split; [done|].
      pose proof (ordt_occurs _ _ _ Hol Ha). assert (u < c); [|lia]. eapply (Hm v a); simpl; auto. lia.
  - apply (IHh (v + 1)); [done| |].
    + intros a a' c c' Ha Ha'. apply Hm; simpl; auto.
    + intros a Ha. destruct (Hlb a) as (c&Hc&_); [simpl; auto|]. exists c. split; [done|].
      pose proof (ordt_occurs _ _ _ Hoh Ha). assert (u < c); [|lia]. eapply (Hm v a); simpl; auto. lia.
Qed.

(** what rebase does, with trees *)
Lemma rebase_trees c nr vm : CInv c -> nr < nr_bdds c -> (forall v, cvar c nr v -> exists u, vm v = Some u /\ u < cbot) ->
  exists c', c_rebase c nr vm = inr c' /\ c_del c' = c_del c /\ length (c_ins c') = length (c_ins c) /\
    (forall t, croot c nr t -> croot c' nr (rent vm t)) /\ (forall nr' t, nr' <> nr -> croot c nr' t -> croot c' nr' t).
Proof.
  intros HI Hn Hv. destruct (rebase_facts c nr vm HI Hn Hv) as (a&b&ins'&Hs&He&Hl&Ho&Hi). eexists. split; [exact He|]. simpl. split_and!; [done|done|..].
  - intros t Hr. destruct (croot_seg _ _ _ HI Hr) as (a'&b'&Hs'&Hg&Ht). assert (a' = a /\ b' = b) as [-> ->] by (destruct Hs, Hs'; split; congruence).
    exists a. split; [apply Hs|]. simpl. eapply rebase_crep; eauto; [|pose proof (sg_ab _ _ _ Hg); lia]. intros x Hx. apply Hv. by exists x.
  - intros nr' t Hne Hr. destruct (croot_seg _ _ _ HI Hr) as (a'&b'&Hs'&Hg&Ht). exists a'. split; [apply Hs'|]. simpl.
    eapply crep_same; [exact Hg| |pose proof (sg_ab _ _ _ Hg); lia|exact Ht]. intros i Hi'. apply Ho. by eapply (cseg_disj c nr nr').
Qed.

(** every BDD of a collection built from ordered managers is ordered *)
Lemma oby_built ed c : obuilt_by ed c -> built_by ed c.
Proof.
  induction 1; [apply built_init|by eapply built_add|by eapply built_and| |by eapply built_remove|eapply built_or; eauto|eapply (built_arc c nr k k' m n z); eauto].
  eapply built_rebase; eauto. intros v v' Hv Hv' Heq. destruct (N.lt_total v v') as [Hlt|[?|Hlt]]; [|done|].
  - destruct (H1 v Hv) as (u&Hu&_). destruct (H1 v' Hv') as (u'&Hu'&_). pose proof (H2 _ _ _ _ Hv Hv' Hlt Hu Hu'). rewrite Hu, Hu' in Heq. injection Heq as ->. lia.
  - destruct (H1 v Hv) as (u&Hu&_). destruct (H1 v' Hv') as (u'&Hu'&_). pose proof (H2 _ _ _ _ Hv' Hv Hlt Hu' Hu). rewrite Hu, Hu' in Heq. injection Heq as ->. lia.
Qed.
Lemma fbuilt_built c : fbuilt c -> built c.
Proof.
  unfold fbuilt, built. induction 1; [apply built_init|by eapply built_add|by eapply built_and|by eapply built_rebase|by eapply built_remove|done|done].
Qed.
Lemma ofbuilt_obuilt c : ofbuilt c -> obuilt c.
Proof.
  unfold ofbuilt, obuilt. induction 1; [apply obuilt_init|by eapply obuilt_add|by eapply obuilt_and|by eapply obuilt_rebase|by eapply obuilt_remove|done|done].
Qed.
Lemma obuilt_built c : obuilt c -> built c.
Proof. apply oby_built. Qed.
Lemma ofbuilt_built c : ofbuilt c -> built c.
Proof. intros H. by apply fbuilt_built, oby_built. Qed.
Lemma oby_CInv ed c : obuilt_by ed c -> CInv c.
Proof. intros H. by apply (by_CInv HE ed), oby_built. Qed.
Lemma ofbuilt_full c nr : ofbuilt c -> csup c nr.
Proof. intros HB a b. by apply (by_cfull HE c (oby_built _ _ HB)). Qed.
Lemma cordall_new c l t : CInv c -> let c' := Coll (c_ins c ++ l) (c_del c ++ [N.of_nat (length (c_ins c ++ l))]) in
  CInv c' -> cordall c -> csup c' (nr_bdds c) -> croot c' (nr_bdds c) t -> ordt 0 t -> cordall c'.
Proof.
  intros HI c' HI' Ho Hup (a&Ha&Hr) Hot. apply cordall_app; [done|done|].
  assert (Hs : cseg c' (nr_bdds c) (N.of_nat (length (c_ins c))) (N.of_nat (length (c_ins c) + length l))) by by apply new_cseg.
  assert (a = N.of_nat (length (c_ins c))) as -> by (destruct Hs; congruence).
  eapply seg_ordered; [by eapply (ci_seg _ HI')|by apply Hup|exact Hr|exact Hot].
Qed.
Lemma or_var_cordall c nr pos neg k c' n n' : CInv c -> csmall c -> nr < nr_bdds c -> bdd_or_var c nr pos neg = inr (k, c') ->
  nr_bdd_nodes c nr = inr n -> nr_bdd_nodes c' k = inr n' -> n < n' + 128 -> cordall c -> cordall c'.
Proof.
  intros HI Hsm Hn Hrun Hn1 Hn2 H128 Ho.
  destruct (or_var_result c nr pos neg k c' HI Hsm Hn Hrun) as (a&b&T&eT&l&ins&rem&m&r&x&y&Hs&Hl&Hll&Hlk&HT&HeT&HTt&HI2&Hx&Hy&Htk&Hr3&Hlr&->&Hc').
  pose proof (ci_seg _ HI _ _ _ Hs) as Hg. pose proof (sg_ab _ _ _ Hg) as Hab. pose proof (sg_len _ _ _ Hg) as Hlen. pose proof (nr_bdds_len _ HI) as Hdl.
  pose proof Hsm as Hsm'. unfold csmall in Hsm'. rewrite (nr_bdd_nodes_eq _ _ _ _ HI Hs) in Hn1 by (unfold two64; lia). injection Hn1 as <-.
  assert (Hn' : n' = N.of_nat (length r + 2)).
  { assert (Hs' : cseg c' (nr_bdds c) (N.of_nat (length (c_ins c))) (N.of_nat (length (c_ins c) + length (r ++ [x; y])))) by (rewrite Hc'; by apply new_cseg).
    assert (Hnb : nr_bdds c' = nr_bdds c + 1) by (rewrite Hc'; unfold nr_bdds; cbn [c_del]; rewrite app_length; simpl; lia).
    unfold nr_bdd_nodes in Hn2. rewrite assertR_true in Hn2 by (apply N.ltb_lt; lia). cbn [bindR] in Hn2. rewrite (del_at_eq _ _ _ (proj1 Hs')) in Hn2. cbn [bindR] in Hn2.
    rewrite (del_at_eq _ _ _ (proj2 Hs')) in Hn2. cbn [bindR] in Hn2. rewrite app_length in Hn2. cbn [length] in Hn2. rewrite sub64_small in Hn2 by (unfold two64; lia). injection Hn2 as <-. lia. }
  subst n'. set (a' := N.of_nat (length (c_ins c))) in *. set (b' := a' + (b - a)) in *. set (G := c_ins c ++ copied c a pos neg (a' + (T - a)) l) in *.
  assert (HG : gseg G a' b') by (eapply copied_gseg; eauto). assert (Hb2 : b' < two64) by (unfold two64; lia).
  assert (Hcn : (cntn rem (N.to_nat (b' - a')) < 128)%nat) by lia.
  assert (HoG : ordered_at G a' b').
  { intros i u w Hi Hu Hw. destruct (copied_in c HI nr a b Hs Hsm Hn pos neg l Hll Hlk T HT eT HTt i u ltac:(lia) Hu) as (u0&Hi0&Hu0&->). cbn [i_lo i_hi i_idx] in *.
    destruct (sg_node _ _ _ Hg _ u0 Hi0 Hu0) as (_&Hv&Hlo&Hhi).
    assert (Hti : forall w, ix G (a' + (T - a)) = Some w -> i_idx u0 < i_idx w).
    { intros w' Hw'. unfold G, a' in Hw'. rewrite (copied_term c HI nr a b Hs pos neg l Hll Hlk T HT eT HTt T eT HT HeT) in Hw'. injection Hw' as <-. rewrite HTt. unfold cbot, ctop in *. lia. }
    assert (Hch : forall j w, i - a' + a < j < b -> (i_lo u0 = j \/ i_hi u0 = j) -> ix G (a' + (j - a)) = Some w -> i_idx u0 < i_idx w).
    { intros j w' Hj Hor Hw'. destruct (seg_ix _ _ _ Hg j) as [v Hv']; [lia|]. assert (Hlt : i_idx u0 < i_idx v).
      { eapply (Ho _ _ _ Hs _ u0 v Hi0 Hu0). destruct Hor as [->| ->]; auto. }
      destruct (decide (j < b - 2)) as [Hjb|Hjb].
      - destruct (copied_in c HI nr a b Hs Hsm Hn pos neg l Hll Hlk T HT eT HTt (a' + (j - a)) w' ltac:(lia) Hw') as (v0&_&Hv0&->). cbn [i_idx].
        replace (a' + (j - a) - N.of_nat (length (c_ins c)) + a) with j in Hv0 by lia. by simplify_eq.
      - unfold G, a' in Hw'. rewrite (copied_term c HI nr a b Hs pos neg l Hll Hlk T HT eT HTt j v ltac:(lia) Hv') in Hw'. by injection Hw' as <-. }
    destruct Hw as [Hw|Hw].
    - destruct (neg (i_idx u0)); [by apply Hti|]. eapply (Hch (i_lo u0)); [lia|by left|done].
    - destruct (pos (i_idx u0)); [by apply Hti|]. eapply (Hch (i_hi u0)); [lia|by right|done]. }
  pose proof (compact_ord G a' b' HG Hb2 ins rem m r x y HI2 Hr3 Hx Hy Hcn HoG) as Hco. rewrite Htk in Hco.
  rewrite Hc'. apply cordall_app; [done|done|]. rewrite !app_length in Hco. rewrite app_length. cbn [length] in *. apply Hco.
  intros q e Hq. rewrite (down_to_seq a' b' Hb2) in Hr3. destruct (reduce3_inv G a' b' HG Hb2 ins rem m HI2 Hcn (N.to_nat (b' - 2 - a')) 0%nat r (Nat.le_refl _) Hr3 q e Hq) as (i&l1&h1&v&Hi&Hri&_&H1&H2).
  exists i, l1, h1, v. split; [lia|done].
Qed.
Lemma set_arc_cordall c nr k k' m n z c' v v' : CInv c -> csmall c -> nr < nr_bdds c -> node_nr c nr k m -> cn_is_terminal c m = inr false -> node_nr c nr k' n ->
  cn_variable c m = inr v -> cn_variable c n = inr v' -> v < v' -> set_arc z c m n = inr c' -> cordall c -> cordall c'.
Proof.
  intros HI Hsm Hn Hm Hmt Hn' Hv Hv' Hlt Hset Ho. destruct (cseg_ex _ _ HI Hn) as (a&b&Hs). pose proof (ci_seg _ HI _ _ _ Hs) as Hg.
  destruct (node_nr_ix _ _ _ _ _ _ HI Hsm Hs Hm) as [-> Hk]. assert (Hk0 : a <= a + k < b) by lia. pose proof (inner_ix _ _ _ _ _ HI Hs Hk0 Hmt) as Hk2.
  destruct (node_nr_ix _ _ _ _ _ _ HI Hsm Hs Hn') as [-> Hk'].
  pose proof (sg_ab _ _ _ Hg) as Hab. pose proof (sg_len _ _ _ Hg) as Hlen.
  destruct (seg_ix _ _ _ Hg (a + k)) as [e He]; [lia|]. rewrite (set_arc_eq _ _ _ _ _ _ He) in Hset. injection Hset as <-.
  destruct (seg_ix _ _ _ Hg (a + k')) as [e' He']; [lia|]. unfold cn_variable, cn_instr in Hv, Hv'. cbn [fst] in *.
  rewrite (vecR_eq _ _ _ He) in Hv. rewrite (vecR_eq _ _ _ He') in Hv'. cbn [bindR] in Hv, Hv'. injection Hv as <-. injection Hv' as <-.
  set (i0 := a + k) in *. set (ins' := <[N.to_nat i0 := rerouted z (a + k') e]> (c_ins c)) in *.
  assert (Hoth : forall i, i <> i0 -> ix ins' i = ix (c_ins c) i) by (intros i Hi; apply list_lookup_insert_ne; lia).
  assert (Hhere : ix ins' i0 = Some (rerouted z (a + k') e)) by (apply list_lookup_insert; lia).
  assert (Hlab : forall i x, ix ins' i = Some x -> exists y, ix (c_ins c) i = Some y /\ i_idx x = i_idx y).
  { intros i x Hx. destruct (decide (i = i0)) as [->|Hne]; [|rewrite Hoth in Hx by done; eauto]. rewrite Hhere in Hx. injection Hx as <-. exists e. split; [done|]. unfold rerouted. by destruct z. }
  intros nr' a2 b2 Hs2. change (cseg c nr' a2 b2) in Hs2. cbn [c_ins]. intros i x y Hi Hx Hy. destruct (decide (i = i0)) as [->|Hne].
  - assert (a2 = a /\ b2 = b) as [-> ->].
    { destruct (decide (nr' = nr)) as [->|Hne]; [destruct Hs, Hs2; split; congruence|]. exfalso. eapply (cseg_disj _ _ _ _ _ _ _ _ HI Hs Hs2 (not_eq_sym Hne)); [|exact Hk0]. lia. }
    rewrite Hhere in Hx. injection Hx as <-. assert (Hix : i_idx (rerouted z (a + k') e) = i_idx e) by (unfold rerouted; by destruct z). rewrite Hix.
    assert (Hnew : forall y, ix ins' (a + k') = Some y -> i_idx e < i_idx y). { intros u Hu. destruct (Hlab _ _ Hu) as (w&Hw&->). by simplify_eq. }
    assert (Hold : forall j u, i_lo e = j \/ i_hi e = j -> ix ins' j = Some u -> i_idx e < i_idx u).
    { intros j u Hj Hu. destruct (Hlab _ _ Hu) as (w&Hw&->). eapply (Ho _ _ _ Hs i0 e w Hk2 He). destruct Hj as [->| ->]; auto. }
    unfold rerouted in Hy. destruct z; cbn [i_lo i_hi] in Hy; destruct Hy as [Hy|Hy]; eauto.
  - rewrite Hoth in Hx by done. assert (Hold : forall j u, i_lo x = j \/ i_hi x = j -> ix ins' j = Some u -> i_idx x < i_idx u).
    { intros j u Hj Hu. destruct (Hlab _ _ Hu) as (w&Hw&->). eapply (Ho _ _ _ Hs2 i x w Hi Hx). destruct Hj as [->| ->]; auto. }
    destruct Hy as [Hy|Hy]; eauto.
Qed.
Lemma remove_trees c c' js : RInv c c' (nr_bdds c) js -> forall j m t, js !! j = Some m -> croot c m t -> croot c' (N.of_nat j) t.
Proof.
  intros HR j m t Hj (a0&Ha0&Ht). destruct (ri_rep _ _ _ _ HR j m Hj) as (_&a&a'&Ha&Ha'&Hrep). simplify_eq. exists a'. split; [done|]. by apply Hrep.
Qed.
Lemma oby_cordall ed c : obuilt_by ed c -> cordall c.
Proof.
  induction 1 as [|md w c i k c' w' HB IH Hmo HR Hl Hc Hsz Hst|c bs L k c' HB IH HF HL Hsat Heq Hsm|c nr vm c' HB IH Hn Hv Hinj Heq|c rs c' HB IH Hsm Hs HF Heq
    |c nr pos neg k c' n n' _ HB IH Hsm Hn Hrun _ _ Hn1 Hn2 Hlt|c nr k k' m n z c' v v' _ HB IH Hsm Hn Hm Hmt Hn' Hv Hv' Hlt Hset _]; [|pose proof (oby_CInv _ _ HB) as HI..].
  - intros nr a b [Ha Hb]. simpl in Hb. apply lookup_lt_Some in Hb. simpl in Hb. lia.
  - pose proof (reach_inv HE _ _ HR) as HW. destruct (live_hrep _ _ _ HW Hl) as (p&t&Hr).
    destruct (add_facts _ _ _ _ _ _ HW HI Hr Hc Hsz) as (po&l&_&H1&H2&H3&H4&_&_&_&Hs). cbv zeta in *. rewrite Hst in H1. injection H1 as -> -> ->.
    eapply cordall_new; [exact HI|exact H2|exact IH|exact Hs|exact H4|]. eapply ho_ord; [apply HW|done|apply Hr].
  - destruct (roots_ex _ _ HI HF) as [ts Hr]. destruct (decide (length bs = 1%nat)) as [H1|H1].
    { destruct bs as [|b [|]]; [done| |done]. simpl in Heq. by injection Heq as <- <-. }
    assert (Hlen : (2 <= length bs <= 49)%nat).
    { destruct bs as [|b1 [|b2 [|b3 bs]]]; [done|done|simpl; lia|]. simpl in Heq.
      destruct (length bs <=? 46)%nat eqn:Hle; [|done]. apply Nat.leb_le in Hle. simpl. lia. }
    destruct (and_range_any c bs ts L k c' HI Hsm HF Hlen Hr HL (sat_conjf _ _ _ HI Hr Hsat) Heq) as [[_ ->]|(l&_&->&[HI' (t&Ht&_&Ho&_&_&_&_&_&_&_&Hsup)]&_)]; [done|].
    eapply cordall_new; [exact HI|exact HI'|exact IH|by apply new_csup|by apply new_croot|]. apply Ho.
    assert (Hoa : forall nr u, croot c nr u -> ordt 0 u).
    { intros nr u Hu. eapply cord_ordt; [exact HI|exact Hu|]. destruct (croot_seg _ _ _ HI Hu) as (a&b&Hs&_). eapply at_cordered; [exact Hs|by eapply IH]. }
    clear -Hoa Hr. induction Hr; constructor; eauto.
  - destruct (rebase_facts c nr vm HI Hn Hv) as (a&b&ins'&Hs&He&Hl&Ho&Hi). rewrite He in Heq. injection Heq as <-. pose proof (ci_seg _ HI _ _ _ Hs) as Hg.
    intros nr' a' b' Hs'. change (cseg c nr' a' b') in Hs'. cbn [c_ins]. pose proof (ci_seg _ HI _ _ _ Hs') as Hg'. destruct (decide (nr' = nr)) as [->|Hne].
    2:{ eapply ordered_same; [exact Hg'| |by eapply IH]. intros i Hi'. apply Ho. by eapply (cseg_disj c nr nr'). }
    assert (a' = a /\ b' = b) as [-> ->] by (destruct Hs, Hs'; split; congruence). intros i x y Hir Hx Hy.
    destruct (seg_ix _ _ _ Hg i) as [x0 Hx0]; [lia|]. rewrite (Hi i x0 ltac:(lia) Hx0) in Hx. injection Hx as <-. destruct (sg_node _ _ _ Hg i x0 Hir Hx0) as (Hne&Hv0&Hlo&Hhi).
    assert (Hcv : cvar c nr (i_idx x0)) by (exists x0; split; [by exists a, b, i|done]). destruct (Hv _ Hcv) as (u&Hu&Hub).
    assert (Hreb : reb vm x0 = Instr (i_lo x0) (i_hi x0) u). { unfold reb. destruct (cnode_instr _ Hne Hv0) as (->&_). by rewrite Hu. }
    rewrite Hreb in Hy |- *. cbn [i_lo i_hi i_idx] in *.
    assert (Hch : forall j w, i < j < b -> i_lo x0 = j \/ i_hi x0 = j -> ix ins' j = Some w -> u < i_idx w).
    { intros j w Hj Hor Hw. destruct (seg_ix _ _ _ Hg j) as [w0 Hw0]; [lia|]. rewrite (Hi j w0 ltac:(lia) Hw0) in Hw. injection Hw as <-.
      assert (Hlt : i_idx x0 < i_idx w0) by (eapply (IH _ _ _ Hs i x0 w0 Hir Hx0); destruct Hor as [->| ->]; auto).
      destruct (decide (j < b - 2)) as [Hjb|Hjb].
      - destruct (sg_node _ _ _ Hg j w0 ltac:(lia) Hw0) as (Hne1&Hv1&_). assert (Hcw : cvar c nr (i_idx w0)) by (exists w0; split; [exists a, b, j; split; [done|split; [lia|done]]|done]).
        destruct (Hv _ Hcw) as (u1&Hu1&_). unfold reb. destruct (cnode_instr _ Hne1 Hv1) as (->&_). rewrite Hu1. cbn. exact (Hinj _ _ _ _ Hcv Hcw Hlt Hu Hu1).
      - destruct (seg_last _ _ _ Hg j w0) as [d Hd]; [lia|done|]. unfold reb. destruct (cterm_instr _ _ Hd) as (->&_). destruct Hd as [_ ->]. destruct d; unfold cbot, ctop in *; lia. }
    destruct Hy as [Hy|Hy]; [eapply (Hch (i_lo x0))|eapply (Hch (i_hi x0))]; [lia|by left|done|lia|by right|done].
  - destruct (remove_facts c rs HI Hsm Hs HF) as [[_ He]|[(_&_&c2&He&HR)|(_&_&He)]]; rewrite He in Heq; [by injection Heq as <-| |done]. injection Heq as <-. by apply HR.
  - by eapply or_var_cordall.
  - exact (set_arc_cordall c nr k k' m n z c' v v' HI Hsm Hn Hm Hmt Hn' Hv Hv' Hlt Hset IH).
Qed.
Lemma cordall_cordered c nr : CInv c -> cordall c -> nr < nr_bdds c -> cordered c nr.
Proof. intros HI Ho Hn. destruct (cseg_ex _ _ HI Hn) as (a&b&Hs). eapply at_cordered; [exact Hs|by eapply Ho]. Qed.
Lemma obuilt_ordall c : obuilt c -> forall nr t, croot c nr t -> ordt 0 t.
Proof.
  intros HB nr t Ht. pose proof (oby_CInv _ _ HB) as HI. eapply cord_ordt; [exact HI|exact Ht|]. apply cordall_cordered; [done|by eapply oby_cordall|by eapply croot_lt].
Qed.
(** ** C45: stored BDDs are reduced, and ordered *)
Theorem C45_wellformed c nr : built c -> nr < nr_bdds c -> exists a b,
  ix (c_del c) nr = Some a /\ ix (c_del c) (nr + 1) = Some b /\ a + 3 <= b /\ b <= N.of_nat (length (c_ins c)) /\
  (exists z x y, ix (c_ins c) (b - 2) = Some x /\ ix (c_ins c) (b - 1) = Some y /\ cterm z x /\ cterm (negb z) y) /\
  (forall i, a <= i < b - 2 -> exists x, ix (c_ins c) i = Some x /\
     i_lo x <> i_hi x /\ i < i_lo x < b /\ i < i_hi x < b /\ i_idx x < cbot /\
     (forall j, a <= j < b - 2 -> ix (c_ins c) j = Some x -> j = i)).
Proof.
  intros HB Hn. pose proof (built_CInv HE _ HB) as HI. destruct (cseg_ex _ _ HI Hn) as (a&b&Hs). pose proof (ci_seg _ HI _ _ _ Hs) as Hg.
  exists a, b. split_and!; try apply Hs; try apply Hg. intros i Hi. destruct (seg_ix _ _ _ Hg i) as [x Hx]; [lia|].
  destruct (sg_node _ _ _ Hg i x Hi Hx) as (H1&H2&H3&H4). exists x. split_and!; try done; try lia.
  intros j Hj Hjx. by eapply (sg_dist _ _ _ Hg).
Qed.
(** without bdd_or_var and rerouting, every entry is reachable from the root *)
Theorem C45_reachable c nr a b i : fbuilt c -> ix (c_del c) nr = Some a -> ix (c_del c) (nr + 1) = Some b -> a <= i < b - 2 -> rtc (carc c) a i.
Proof.
  intros HB Ha Hb. assert (Hs : cseg c nr a b) by done. pose proof (by_CInv HE _ _ HB) as HI. pose proof (ci_seg _ HI _ _ _ Hs) as Hg. pose proof (by_cfull HE _ HB _ _ _ Hs) as Hup.
  intros Hi. remember (N.to_nat i) as n eqn:Hni. revert i Hi Hni. induction (lt_wf n) as [n _ IH]; intros i Hi ->.
  destruct (decide (i = a)) as [->|Hne]; [apply rtc_refl|]. destruct (Hup i) as (j&y&Hj&Hy&Hor); [lia|].
  eapply (rtc_r _ j); [apply (IH (N.to_nat j)); lia|]. exists y. split_and!; auto. eapply (sg_node _ _ _ Hg j y); [lia|done].
Qed.
Theorem C45_ordered c nr : obuilt c -> nr < nr_bdds c -> cordered c nr.
Proof. intros HB Hn. apply cordall_cordered; [by eapply oby_CInv|by eapply oby_cordall|done]. Qed.

(** ** C44: contradictory operands *)
Definition tabl (n : nat) (r : asgn) : list bool := map (fun k => r (N.of_nat k)) (seq 0 n).
Lemma tabl_eval n r t : (forall v, occurs v t -> v < N.of_nat n) -> evp t (tabl n r) = Some (evalt t r).
Proof.
  intros Hv. rewrite evp_covers.
  - f_equal. apply evalt_ext. intros v Ho. unfold asg, tabl. rewrite list_lookup_fmap, lookup_seq_lt by (specialize (Hv v Ho); lia). simpl. f_equal. lia.
  - unfold tabl. by rewrite map_length, seq_length.
Qed.
Lemma occurs_bound t : exists n, forall v, occurs v t -> v < N.of_nat n.
Proof.
  induction t as [b|v l [n1 H1] h [n2 H2]]; [by exists 0%nat|]. exists (S (N.to_nat v) + n1 + n2)%nat. intros u [->|[Hu|Hu]]; [lia|specialize (H1 _ Hu); lia|specialize (H2 _ Hu); lia].
Qed.
Lemma unsat_conjf c bs ts : CInv c -> roots c bs ts -> ~ csatisfiable c bs -> forall r, conjf ts r = false.
Proof.
  intros HI Hr Hun r. apply not_true_iff_false. intros Ht. apply Hun.
  assert (exists n, Forall (fun t => forall v, occurs v t -> v < N.of_nat n) ts) as [n Hn].
  { clear. induction ts as [|t ts [n IH]]; [exists 0%nat; constructor|]. destruct (occurs_bound t) as [m Hm]. exists (n + m)%nat. constructor.
    - intros v Hv. specialize (Hm v Hv). lia.
    - eapply Forall_impl; [exact IH|]. intros u Hu v Hv. specialize (Hu v Hv). lia. }
  exists (tabl n r). clear Hun. induction Hr as [|b t bs ts Hb Hr IH]; [constructor|]. inversion Hn; subst. unfold conjf in *. simpl in Ht. apply andb_prop in Ht as [Ht1 Ht2].
  constructor; [|by apply IH]. rewrite (cval_croot _ _ _ _ HI Hb), tabl_eval by done. by rewrite Ht1.
Qed.
Theorem C44_contradiction_refuted c bs L : obuilt c -> csmall c -> Forall (fun b => b < nr_bdds c) bs -> (2 <= length bs <= 49)%nat -> 2 < L -> ~ csatisfiable c bs ->
  if e_ndebug then exists c', bdd_and_range c bs L = inr (nr_bdds c, c') /\ forall x, cval c' (nr_bdds c) x = Some true
  else bdd_and_range c bs L = inl EAssert.
Proof.
  intros HB Hsm HF Hlen HL Hun. pose proof (built_CInv HE _ (obuilt_built _ HB)) as HI. destruct (roots_ex _ _ HI HF) as [ts Hr].
  assert (Ho : Forall (ordt 0) ts). { pose proof (obuilt_ordall _ HB) as Ho. clear -Ho Hr. induction Hr; constructor; eauto. }
  pose proof (and_range_unsat c bs ts L HI Hsm HF Hlen Hr HL Ho (unsat_conjf _ _ _ HI Hr Hun)) as H. destruct e_ndebug eqn:Hnd; [|done].
  destruct H as (x&y&He&Hx&Hy). eexists. split; [exact He|]. intros z. unfold cval, c_evaluate.
  pose proof (nr_bdds_len _ HI) as Hnl. pose proof (ci_last _ HI) as Hl. rewrite last_lookup in Hl.
  rewrite assertR_true by (apply N.ltb_lt; unfold nr_bdds at 2; simpl; rewrite app_length; simpl; lia). cbn [bindR].
  rewrite (del_at_eq _ _ (N.of_nat (length (c_ins c)))).
  2:{ simpl. apply lookup_app_l_Some. rewrite <- Hl. f_equal. lia. }
  cbn [bindR c_eval_fuel c_ins]. rewrite (vecR_eq _ _ x).
  2:{ rewrite lookup_app_r by lia. by replace (N.to_nat (N.of_nat (length (c_ins c))) - length (c_ins c))%nat with 0%nat by lia. }
  cbn [bindR]. destruct (cterm_instr _ _ Hx) as (_&->&_). done.
Qed.

(** ** C48: rebase *)
Lemma ceval_inr c nr t x b : CInv c -> croot c nr t -> (c_evaluate c nr x = inr b <-> evp t x = Some b).
Proof. intros HI Hr. rewrite <- (cval_croot _ _ _ _ HI Hr). unfold cval. destruct (c_evaluate c nr x); split; congruence. Qed.
Lemma croot_eval c nr t x : CInv c -> croot c nr t -> forall c' nr', croot c' nr' t -> nr' < nr_bdds c' -> cval c' nr' x = cval c nr x.
Proof.
  intros HI Hr c' nr' (a'&Ha'&Ht') Hn'. rewrite (cval_croot _ _ _ _ HI Hr). unfold cval, c_evaluate.
  rewrite assertR_true by (by apply N.ltb_lt). cbn [bindR]. rewrite (del_at_eq _ _ _ Ha'). cbn [bindR].
  pose proof (c_eval_spec c' x a' t Ht' (S (length (c_ins c')))) as He. pose proof (crep_ht _ _ _ Ht'). destruct (evp t x); [rewrite He by lia; done|].
  by destruct He as [e ->]; [lia|].
Qed.
(** for every map: BDD [nr] is read through the map, the others keep their values *)
Theorem C48_rebase c nr vm : built c -> nr < nr_bdds c -> (forall v, cvar c nr v -> exists u, vm v = Some u /\ u < cbot) ->
  exists c', c_rebase c nr vm = inr c' /\ nr_bdds c' = nr_bdds c /\
    (forall nr' x, nr' < nr_bdds c -> nr' <> nr -> cval c' nr' x = cval c nr' x) /\
    forall x y, (forall v u, cvar c nr v -> vm v = Some u -> x !! N.to_nat u = y !! N.to_nat v) -> cval c' nr x = cval c nr y.
Proof.
  intros HB Hn Hv. pose proof (built_CInv HE _ HB) as HI. destruct (rebase_trees c nr vm HI Hn Hv) as (c'&He&Hd&Hl&H1&H2). exists c'.
  assert (Hnr : nr_bdds c' = nr_bdds c) by (unfold nr_bdds; by rewrite Hd). split_and!; auto.
  - intros nr' x Hn' Hne. destruct (croot_ex c nr' HI Hn') as [t Ht]. eapply croot_eval; [done|done|by apply H2|lia].
  - intros x y Hxy. destruct (croot_ex c nr HI Hn) as [t Ht]. rewrite (cval_croot _ _ _ _ HI Ht).
    rewrite <- (evp_rename vm t x y).
    + destruct (H1 t Ht) as (a'&Ha'&Ht'). unfold cval, c_evaluate. rewrite assertR_true by (apply N.ltb_lt; lia). cbn [bindR]. rewrite (del_at_eq _ _ _ Ha'). cbn [bindR].
      pose proof (c_eval_spec c' x a' (rent vm t) Ht' (S (length (c_ins c')))) as He'. pose proof (crep_ht _ _ _ Ht').
      destruct (evp (rent vm t) x); [rewrite He' by lia; done|]. by destruct He' as [e ->]; [lia|].
    + intros v Ho. destruct (Hv v) as (u&Hu&_); [by eapply croot_occurs|]. exists u. split; [done|]. apply Hxy; [by eapply croot_occurs|done].
Qed.
(** the result can be used further when the map is injective on the variables of the BDD; order is kept when it is increasing *)
Theorem C48_rebase_built c nr vm : built c -> nr < nr_bdds c -> (forall v, cvar c nr v -> exists u, vm v = Some u /\ u < cbot) ->
  (forall v v', cvar c nr v -> cvar c nr v' -> vm v = vm v' -> v = v') -> exists c', c_rebase c nr vm = inr c' /\ built c'.
Proof.
  intros HB Hn Hv Hinj. pose proof (built_CInv HE _ HB) as HI. destruct (rebase_trees c nr vm HI Hn Hv) as (c'&He&_). exists c'. split; [done|]. by eapply built_rebase.
Qed.
(** the two overloads: a range, indexed by the variable, and a map *)
Theorem C48_rebase_range c nr l : built c -> nr < nr_bdds c -> (forall v, cvar c nr v -> v < N.of_nat (length l)) -> Forall (fun u => u < cbot) l ->
  exists c', c_rebase_vec c nr l = inr c' /\ nr_bdds c' = nr_bdds c /\
    (forall nr' x, nr' < nr_bdds c -> nr' <> nr -> cval c' nr' x = cval c nr' x) /\
    forall x y, (forall v u, cvar c nr v -> ix l v = Some u -> ix x u = ix y v) -> cval c' nr x = cval c nr y.
Proof.
  intros HB Hn Hv Hl. apply (C48_rebase c nr (fun v => ix l v)); [done|done|]. intros v Hc. specialize (Hv v Hc).
  destruct (lookup_lt_is_Some_2 l (N.to_nat v)) as [u Hu]; [lia|]. exists u. split; [exact Hu|]. by eapply (Forall_lookup_1 _ _ _ _ Hl).
Qed.
Theorem C48_rebase_varmap c nr (m : gmap N N) : built c -> nr < nr_bdds c -> (forall v, cvar c nr v -> exists u, m !! v = Some u /\ u < cbot) ->
  exists c', c_rebase_map c nr m = inr c' /\ nr_bdds c' = nr_bdds c /\
    (forall nr' x, nr' < nr_bdds c -> nr' <> nr -> cval c' nr' x = cval c nr' x) /\
    forall x y, (forall v u, cvar c nr v -> m !! v = Some u -> ix x u = ix y v) -> cval c' nr x = cval c nr y.
Proof. intros HB Hn Hv. by apply (C48_rebase c nr (fun v => m !! v)). Qed.

(** ** C49: remove *)
(** the numbers below [n] that are not in [rs], in order *)
Definition remaining (rs : list N) (n : N) : list N := filter (fun k => k ∉ rs) (map N.of_nat (seq 0 (N.to_nat n))).
Lemma remaining_kept rs n : remaining rs n = kept rs (nats 0 n).
Proof. unfold remaining, kept, nats. f_equal. rewrite N.sub_0_r. apply map_ext. intros k. lia. Qed.
Theorem C49_remove c rs : built c -> csmall c -> StronglySorted N.lt rs -> Forall (fun r => r < nr_bdds c) rs -> (rs = [] \/ nr_bdds c - 1 ∈ rs) ->
  exists c', c_remove c rs = inr c' /\ built c' /\ nr_bdds c' = N.of_nat (length (remaining rs (nr_bdds c))) /\
    forall j m x, remaining rs (nr_bdds c) !! j = Some m -> cval c' (N.of_nat j) x = cval c m x.
Proof.
  intros HB Hsm Hs HF Hor. pose proof (built_CInv HE _ HB) as HI. rewrite remaining_kept.
  destruct (remove_facts c rs HI Hsm Hs HF) as [[-> He]|[(_&_&c'&He&HR)|(Hne&Hni&He)]].
  - exists c. rewrite (kept_all [] (nats 0 (nr_bdds c))) by (intros n _ Hn; by apply elem_of_nil in Hn). split_and!; [done|done|..].
    + unfold nats. rewrite map_length, seq_length. lia.
    + intros j m x Hj. unfold nats in Hj. rewrite list_lookup_fmap in Hj. destruct (seq 0 (N.to_nat (nr_bdds c - 0)) !! j) as [k|] eqn:Hk; [|done].
      apply lookup_seq in Hk as [-> _]. simpl in Hj. by injection Hj as <-.
  - exists c'. split_and!; [done|by eapply built_remove|apply HR|]. intros j m x Hj. destruct (ri_rep _ _ _ _ HR j m Hj) as (Hm&_).
    destruct (croot_ex c m HI Hm) as [t Ht]. pose proof (remove_trees _ _ _ HR _ _ _ Hj Ht) as Ht'.
    eapply croot_eval; [done|done|done|]. by eapply croot_lt; [apply HR|].
  - destruct Hor as [->|]; done.
Qed.
Theorem C49_remove_refuted c rs : built c -> csmall c -> rs <> [] -> StronglySorted N.lt rs -> Forall (fun r => r < nr_bdds c) rs -> nr_bdds c - 1 ∉ rs ->
  c_remove c rs = inl EUB.
Proof. intros HB Hsm Hne Hs HF Hni. pose proof (built_CInv HE _ HB) as HI. by apply c_remove_ub. Qed.

(** ** C52: queries *)
(** the entries of BDD [nr], inner nodes and terminals *)
Definition centries (c : coll) (nr : N) : list instr :=
  match ix (c_del c) nr, ix (c_del c) (nr + 1) with Some a, Some b => take (N.to_nat (b - a)) (drop (N.to_nat a) (c_ins c)) | _, _ => [] end.
Theorem C52_queries c nr : built c -> csmall c -> nr < nr_bdds c ->
  (exists l, c_variables c nr = inr l /\ StronglySorted N.lt l /\ forall v, v ∈ l <-> cvar c nr v) /\
  nr_bdd_nodes c nr = inr (N.of_nat (length (centries c nr))) /\
  (forall v, nr_bdd_nodes_var c nr v = inr (N.of_nat (length (filter (fun x => i_idx x = v) (centries c nr))))) /\
  forall x, x ∈ centries c nr <-> centry c nr x \/ (exists z, cterm z x /\ x ∈ centries c nr).
Proof.
  intros HB Hsm Hn. pose proof (built_CInv HE _ HB) as HI. destruct (cseg_ex _ _ HI Hn) as (a&b&Hs). pose proof (ci_seg _ HI _ _ _ Hs) as Hg.
  pose proof (sg_ab _ _ _ Hg) as Hab. pose proof (sg_len _ _ _ Hg) as Hlen.
  assert (Hce : centries c nr = take (N.to_nat (b - a)) (drop (N.to_nat a) (c_ins c))) by (unfold centries; destruct Hs as [-> ->]; done).
  split_and!.
  - by eapply c_variables_spec.
  - unfold csmall in Hsm. assert (two64 = 2 ^ 62 * 4) by done. rewrite (nr_bdd_nodes_eq _ _ _ _ HI Hs) by lia. rewrite Hce, take_length, drop_length. f_equal. lia.
  - intros v. rewrite Hce. by apply nr_bdd_nodes_var_spec.
  - intros x. rewrite Hce. split.
    + intros Hx. pose proof Hx as Hx'. apply elem_of_list_lookup in Hx as [k Hk]. apply lookup_take_Some in Hk as [Hk Hlt]. rewrite lookup_drop in Hk.
      destruct (decide (a + N.of_nat k < b - 2)) as [Hin|Hin].
      * left. exists a, b, (a + N.of_nat k). split_and!; [done|lia|lia|]. rewrite <- Hk. f_equal. lia.
      * right. destruct (seg_last _ _ _ Hg (a + N.of_nat k) x) as [z Hz]; [lia|rewrite <- Hk; f_equal; lia|eauto].
    + intros [(a'&b'&i&[Ha' Hb']&Hi&Hx)|(z&_&?)]; [|done]. destruct Hs as [Ha Hb]. simplify_eq.
      apply (elem_of_list_lookup_2 _ (N.to_nat (i - a))). rewrite lookup_take by lia. rewrite lookup_drop. rewrite <- Hx. f_equal. lia.
Qed.

(** ** C53: traversal of an entry *)
(** [l] is the sequence of nodes visited from [x] on by next_postorder, up to the root *)
Inductive visits (c : coll) (nr : N) : cnode -> list cnode -> Prop :=
| visits_root r : root_node c nr = inr r -> visits c nr r [r]
| visits_next x y l r : root_node c nr = inr r -> x <> r -> next_postorder c x = inr y -> visits c nr y l -> visits c nr x (x :: l).
(** evaluation through the node interface *)
Inductive node_eval (c : coll) (x : list bool) : cnode -> bool -> Prop :=
| ne_term n b : cn_is_topsink c n = inr b -> cn_is_botsink c n = inr (negb b) -> node_eval c x n b
| ne_node n v m z b : cn_is_terminal c n = inr false -> cn_variable c n = inr v -> x !! N.to_nat v = Some z ->
    (if z : bool then cn_hi c n else cn_lo c n) = inr m -> node_eval c x m b -> node_eval c x n b.
Theorem C53_traversal c nr : built c -> csmall c -> nr < nr_bdds c -> exists a b x0 r l,
  cseg c nr a b /\ first_node_postorder c nr = inr x0 /\ root_node c nr = inr r /\ visits c nr x0 l /\ last l = Some r /\ NoDup l /\
  (forall n, n ∈ l <-> exists i, n = (i, nr) /\ a <= i < b - 2) /\
  (forall l1 n l2, l = l1 ++ n :: l2 -> exists lo hi, cn_lo c n = inr lo /\ cn_hi c n = inr hi /\
     (forall m, m = lo \/ m = hi -> m ∈ l1 \/ cn_is_terminal c m = inr true)).
Proof.
  intros HB Hsm Hn. pose proof (built_CInv HE _ HB) as HI. destruct (cseg_ex _ _ HI Hn) as (a&b&Hs). pose proof (ci_seg _ HI _ _ _ Hs) as Hg.
  pose proof (sg_ab _ _ _ Hg) as Hab. pose proof (root_node_ok _ _ _ _ HI Hs) as Hroot.
  assert (Hv : forall k, a <= k < b - 2 -> visits c nr (k, nr) (map (fun i => (i, nr)) (down_to a (k + 1)))).
  { intros k. remember (N.to_nat (k - a)) as n eqn:Hk. revert k Hk. induction n as [|n IH]; intros k Hk Hr.
    - assert (k = a) as -> by lia. rewrite down_to_cons, down_to_nil by lia. simpl. replace (a + 1 - 1) with a by lia. by apply visits_root.
    - rewrite down_to_cons by lia. replace (k + 1 - 1) with k by lia. simpl. eapply visits_next; [exact Hroot|intros [=]; lia|apply (next_postorder_ok c nr a b k); [done|done|done|lia]|].
      specialize (IH (k - 1) ltac:(lia) ltac:(lia)). by replace (k - 1 + 1) with k in IH by lia. }
  assert (Hel : forall k i, a <= k -> i ∈ down_to a k <-> a <= i < k).
  { intros k i Hk. unfold down_to. rewrite elem_of_list_fmap. setoid_rewrite elem_of_seq. split.
    - intros (j&->&Hj). lia.
    - intros Hi. exists (N.to_nat (k - 1 - i)). lia. }
  exists a, b, (b - 3, nr), (a, nr), (map (fun i => (i, nr)) (down_to a (b - 2))). split_and!.
  - done.
  - by eapply first_node_ok.
  - done.
  - specialize (Hv (b - 3) ltac:(lia)). by replace (b - 3 + 1) with (b - 2) in Hv by lia.
  - rewrite fmap_last. assert (Hl : forall k, a < k -> last (down_to a k) = Some a); [|by rewrite Hl by lia].
    intros k Hk. unfold down_to. rewrite fmap_last, last_lookup, seq_length, lookup_seq_lt by lia. simpl. f_equal. lia.
  - apply NoDup_fmap_2; [by intros ? ? [= ?]|]. unfold down_to. apply NoDup_fmap_2_strong; [|apply NoDup_seq].
    intros x y Hx%elem_of_seq Hy%elem_of_seq. lia.
  - intros n. rewrite elem_of_list_fmap. split; intros (i&->&Hi); exists i; (split; [done|]); [by apply Hel in Hi; [|lia]|apply Hel; lia].
  - intros l1 n l2 Hl.
    assert (exists i, n = (i, nr) /\ a <= i < b - 2 /\ l1 = map (fun i => (i, nr)) (down_to (i + 1) (b - 2))) as (i&->&Hi&->).
    { assert (Hgen : forall k l1, a <= k -> map (fun i => (i, nr)) (down_to a k) = l1 ++ n :: l2 -> exists i, n = (i, nr) /\ a <= i < k /\ l1 = map (fun i => (i, nr)) (down_to (i + 1) k)).
      { clear l1 Hl. intros k. remember (N.to_nat (k - a)) as m eqn:Hm. revert k Hm. induction m as [|m IH]; intros k Hm l1 Hk Hl.
        - rewrite down_to_nil in Hl by lia. by destruct l1.
        - rewrite down_to_cons in Hl by lia. destruct l1 as [|y l1]; simpl in Hl.
          + injection Hl as <- _. exists (k - 1). split_and!; [done|lia|lia|]. by rewrite down_to_nil by lia.
          + injection Hl as <- Hl. destruct (IH (k - 1) ltac:(lia) l1 ltac:(lia) Hl) as (i&->&Hi&->). exists i. split_and!; [done|lia|lia|].
            rewrite (down_to_cons (i + 1) k) by lia. done. }
      apply (Hgen (b - 2) l1); [lia|done]. }
    destruct (seg_ix _ _ _ Hg i) as [x Hx]; [lia|]. destruct (cn_child_ok c nr a b i x HI Hs Hi Hx) as (H1&H2&_).
    destruct (sg_node _ _ _ Hg i x Hi Hx) as (_&_&Hlo&Hhi). eexists _, _. split_and!; [exact H1|exact H2|].
    assert (Hgo : forall j, i < j < b -> (j, nr) ∈ map (fun i0 : N => (i0, nr)) (down_to (i + 1) (b - 2)) \/ cn_is_terminal c (j, nr) = inr true).
    { intros j Hj. destruct (decide (j < b - 2)) as [Hjb|Hjb].
      - left. apply elem_of_list_fmap. exists j. split; [done|]. unfold down_to. apply elem_of_list_fmap. exists (N.to_nat (b - 2 - 1 - j)).
        split; [lia|]. apply elem_of_seq. lia.
      - right. destruct (seg_ix _ _ _ Hg j) as [y Hy]; [lia|]. destruct (seg_last _ _ _ Hg j y) as [z Hz]; [lia|done|].
        unfold cn_is_terminal, cn_instr. simpl. rewrite (vecR_eq _ _ _ Hy). cbn [bindR]. by destruct (cterm_instr _ _ Hz) as (->&_). }
    intros m [->| ->]; apply Hgo; lia.
Qed.
Theorem C53_node_eval c nr x b : built c -> nr < nr_bdds c -> exists r, root_node c nr = inr r /\ (node_eval c x r b <-> cval c nr x = Some b).
Proof.
  intros HB Hn. pose proof (built_CInv HE _ HB) as HI. destruct (croot_ex c nr HI Hn) as [t Ht]. rewrite (cval_croot _ _ _ _ HI Ht).
  destruct (croot_seg _ _ _ HI Ht) as (a&e&Hs&Hg&Hr). exists (a, nr). split; [by eapply root_node_ok|].
  assert (Ha : a <= a < e) by (pose proof (sg_ab _ _ _ Hg); lia). revert Hr Ha. clear Ht; generalize a at 1 3 4 5 as i. intros i Hr.
  induction Hr as [i y z Hy Hz|i y tl th Hy Hne Hvb Hl Hh Hrl IHl Hrh IHh]; intros Hi.
  - destruct (cterm_instr _ _ Hz) as (H1&H2&H3). simpl. split.
    + intros He. inversion He as [n b' Ht1 Hb1|n v m z' b' Ht1]; subst; unfold cn_is_topsink, cn_is_terminal, cn_instr in Ht1; simpl in Ht1; rewrite (vecR_eq _ _ _ Hy) in Ht1; cbn [bindR] in Ht1; congruence.
    + intros [= ->]. apply ne_term; unfold cn_is_topsink, cn_is_botsink, cn_instr; simpl; rewrite (vecR_eq _ _ _ Hy); cbn [bindR]; congruence.
  - assert (Hi2 : a <= i < e - 2) by (by eapply seg_inner). destruct (sg_node _ _ _ Hg i y Hi2 Hy) as (_&_&?&?).
    destruct (cn_child_ok c nr a e i y HI Hs Hi2 Hy) as (H1&H2&H3&H4). destruct (cnode_instr _ Hne Hvb) as (C1&C2&C3). simpl. split.
    + intros He. inversion He as [n b' Ht1 Hb1|n v m z' b' Ht1 Hv1 Hz1 Hm1 He1]; subst.
      * exfalso. unfold cn_is_topsink, cn_is_botsink, cn_instr in *. simpl in *. rewrite (vecR_eq _ _ _ Hy) in *. cbn [bindR] in *. rewrite C2, C3 in *. by destruct b.
      * rewrite H3 in Hv1. injection Hv1 as <-. rewrite Hz1. destruct z'; rewrite ?H1, ?H2 in Hm1; injection Hm1 as <-; [apply IHh|apply IHl]; auto; lia.
    + destruct (x !! N.to_nat (i_idx y)) as [z|] eqn:Hz; [|done]. intros He. eapply (ne_node _ _ _ _ (if z then (i_hi y, nr) else (i_lo y, nr))); [done|done|done|by destruct z|].
      destruct z; [apply IHh|apply IHl]; auto; lia.
Qed.

(** ** C54: terminals of an entry *)
Theorem C54_add_terminals md w c i : reach md w -> built c -> live w i -> ~ isconst w i -> mgr_nr_nodes (w_s w) < 2 ^ 62 ->
  exists c' b t, step (QCollAdd c i) w = WOk (OutC (nr_bdds c) c') w /\ (csmall c' ->
    entry_botsink c' (nr_bdds c) = inr b /\ cn_is_botsink c' b = inr true /\ entry_topsink c' (nr_bdds c) = inr t /\ cn_is_topsink c' t = inr true).
Proof.
  intros HR HB Hl Hc Hsz. pose proof (reach_inv HE _ _ HR) as HW. pose proof (built_CInv HE _ HB) as HI. destruct (live_hrep _ _ _ HW Hl) as (p&t&Hr).
  destruct (add_facts _ _ _ _ _ _ HW HI Hr Hc Hsz) as (po&l&Hpo&H1&H2&H3&H4&H5&H6&H7&_). cbv zeta in *.
  set (c' := Coll _ _) in *. set (n := N.of_nat (length (c_ins c) + length l)).
  exists c', (n - 2, nr_bdds c), (n - 1, nr_bdds c). split; [done|]. intros Hsm. unfold csmall, c' in Hsm. simpl in Hsm. rewrite app_length in Hsm.
  assert (Hs : cseg c' (nr_bdds c) (N.of_nat (length (c_ins c))) n).
  { pose proof (nr_bdds_len _ HI). pose proof (ci_last _ HI) as Hls. rewrite last_lookup in Hls. split; simpl.
    - apply lookup_app_l_Some. rewrite <- Hls. f_equal. lia.
    - rewrite lookup_app_r by lia. replace (N.to_nat (nr_bdds c + 1) - length (c_del c))%nat with 0%nat by lia. simpl. by rewrite app_length. }
  assert (two64 = 2 ^ 62 * 4) by done.
  assert (Hb : ix (c_ins c') (n - 2) = Some ci_botsink).
  { unfold c', n. simpl. rewrite lookup_app_r by lia. rewrite <- H6. f_equal. lia. }
  assert (Ht : ix (c_ins c') (n - 1) = Some ci_topsink).
  { unfold c', n. simpl. rewrite lookup_app_r by lia. rewrite <- H7. f_equal. lia. }
  unfold entry_botsink, entry_topsink, cn_is_botsink, cn_is_topsink, cn_instr. simpl fst. rewrite !(del_at_eq _ _ _ (proj2 Hs)). cbn [bindR].
  rewrite !sub64_small by lia. rewrite !(mk_cnode_ok _ _ _ _ _ Hs) by lia. cbn [bindR fst]. rewrite (vecR_eq _ _ _ Hb), (vecR_eq _ _ _ Ht). cbn [bindR].
  by rewrite !assertRR_true.
Qed.
(** for every result of bdd_and the two are exchanged *)
Theorem C54_and_terminals_refuted c bs L c' : built c -> csmall c' -> Forall (fun b => b < nr_bdds c) bs -> (2 <= length bs <= 49)%nat -> 2 < L -> csatisfiable c bs ->
  bdd_and_range c bs L = inr (nr_bdds c, c') ->
  if e_ndebug then exists b t, entry_botsink c' (nr_bdds c) = inr b /\ cn_is_topsink c' b = inr true /\ entry_topsink c' (nr_bdds c) = inr t /\ cn_is_botsink c' t = inr true
  else entry_botsink c' (nr_bdds c) = inl EAssert /\ entry_topsink c' (nr_bdds c) = inl EAssert.
Proof.
  intros HB Hsm HF Hlen HL Hsat He. pose proof (built_CInv HE _ HB) as HI. destruct (roots_ex _ _ HI HF) as [ts Hr].
  destruct (and_range_any c bs ts L _ c' HI Hsm HF Hlen Hr HL (sat_conjf _ _ _ HI Hr Hsat) He) as [[Hk ->]|(l&_&Hc'&[HI' (t&Ht&_&_&_&x&y&Hx&Hy&Tx&Ty&_)]&_)].
  { exfalso. pose proof (del_len _ HI). unfold size_max, csmall in *. lia. }
  unfold csmall in Hsm. rewrite Hc' in Hsm. simpl in Hsm. rewrite app_length in Hsm. rewrite <- Hc' in HI'.
  set (n := N.of_nat (length (c_ins c) + length l)). 
  assert (Hs : cseg c' (nr_bdds c) (N.of_nat (length (c_ins c))) n).
  { pose proof (nr_bdds_len _ HI). pose proof (ci_last _ HI) as Hls. rewrite last_lookup in Hls. rewrite Hc'. split; simpl.
    - apply lookup_app_l_Some. rewrite <- Hls. f_equal. lia.
    - rewrite lookup_app_r by lia. replace (N.to_nat (nr_bdds c + 1) - length (c_del c))%nat with 0%nat by lia. simpl. by rewrite app_length. }
  assert (two64 = 2 ^ 62 * 4) by done. pose proof (sg_ab _ _ _ (ci_seg _ HI' _ _ _ Hs)) as Hab.
  assert (Hb : ix (c_ins c') (n - 2) = Some x).
  { rewrite Hc'. unfold n. simpl. rewrite lookup_app_r by lia. rewrite <- Hx. f_equal. lia. }
  assert (Htp : ix (c_ins c') (n - 1) = Some y).
  { rewrite Hc'. unfold n. simpl. rewrite lookup_app_r by lia. rewrite <- Hy. f_equal. lia. }
  destruct (cterm_instr _ _ Tx) as (_&X1&X2). destruct (cterm_instr _ _ Ty) as (_&Y1&Y2). simpl in X2, Y2.
  unfold entry_botsink, entry_topsink, cn_is_botsink, cn_is_topsink, cn_instr. rewrite !(del_at_eq _ _ _ (proj2 Hs)). cbn [bindR].
  rewrite !sub64_small by lia. rewrite !(mk_cnode_ok _ _ _ _ _ Hs) by lia. cbn [bindR fst]. rewrite (vecR_eq _ _ _ Hb), (vecR_eq _ _ _ Htp). cbn [bindR]. unfold assertRR, assertR.
  rewrite X2, Y1. destruct e_ndebug; [|done]. cbn [bindR]. eexists _, _. split_and!; [reflexivity| |reflexivity|]; simpl; [rewrite (vecR_eq _ _ _ Hb)|rewrite (vecR_eq _ _ _ Htp)]; cbn [bindR]; congruence.
Qed.

(** ** C55: evaluation terminates; uncovered variables are reported in debug builds *)
Theorem C55_evaluate c nr x : built c -> nr < nr_bdds c -> ccovers c nr x ->
  exists b, c_evaluate c nr x = inr b /\ forall y, (forall v, cvar c nr v -> y !! N.to_nat v = x !! N.to_nat v) -> c_evaluate c nr y = inr b.
Proof.
  intros HB Hn Hc. pose proof (built_CInv HE _ HB) as HI. destruct (croot_ex c nr HI Hn) as [t Ht].
  assert (Hx : evp t x = Some (evalt t (asg x))) by (apply evp_covers; intros v Hv; apply Hc; by eapply croot_occurs).
  exists (evalt t (asg x)). split; [by apply (ceval_inr _ _ _ _ _ HI Ht)|]. intros y Hy. apply (ceval_inr _ _ _ _ _ HI Ht).
  rewrite <- Hx. clear Hx Hc.
  assert (Hy' : forall v, occurs v t -> y !! N.to_nat v = x !! N.to_nat v) by (intros v Hv; apply Hy; by eapply croot_occurs). clear -Hy'.
  induction t as [b|v l IHl h IHh]; [done|]. simpl. rewrite Hy' by (by left). rewrite IHl, IHh by (intros u Hu; apply Hy'; simpl; auto). done.
Qed.
Theorem C55_never_loops c nr x : built c -> nr < nr_bdds c -> c_evaluate c nr x <> inl ELoop.
Proof.
  intros HB Hn. pose proof (built_CInv HE _ HB) as HI. destruct (croot_ex c nr HI Hn) as [t (a&Ha&Ht)]. unfold c_evaluate.
  rewrite assertR_true by (by apply N.ltb_lt). cbn [bindR]. rewrite (del_at_eq _ _ _ Ha). cbn [bindR]. pose proof (crep_ht _ _ _ Ht) as Hh.
  assert (Hgen : forall fuel i t, crep (c_ins c) i t -> (ht t < fuel)%nat -> c_eval_fuel fuel c i x <> inl ELoop).
  { clear. intros fuel i t Ht. revert fuel. induction Ht as [i y z Hy Hz|i y tl th Hy Hne Hvb Hl Hh Hrl IHl Hrh IHh]; intros [|fuel] Hf; simpl in Hf; try lia; cbn [c_eval_fuel]; rewrite (vecR_eq _ _ _ Hy); cbn [bindR].
    - destruct (cterm_instr _ _ Hz) as (_&->&->). by destruct z.
    - destruct (cnode_instr _ Hne Hvb) as (_&->&->). unfold assertR. destruct ((i_idx y <? N.of_nat (length x)) || e_ndebug); cbn [bindR]; [|done].
      destruct (x !! N.to_nat (i_idx y)) as [[]|]; [apply IHh; lia|apply IHl; lia|done]. }
  eapply Hgen; [exact Ht|lia].
Qed.
End props_coll2.
