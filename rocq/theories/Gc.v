(** * Gc.v -- one garbage collection (collect_garbage) after a history without collections *)
From Verif Require Export Destroy.
Open Scope N_scope.

Lemma next_free_slot_cases {E : Env} k t x : vt_shape k t ->
  next_free_slot t x = inl ELoop \/ exists y, next_free_slot t x = inr (N.land y (N.ones k)).
Proof.
  intros Hs. unfold next_free_slot. generalize (S (N.to_nat (vt_size t))). intros f. revert x.
  pose proof Hs as (Hm&H6&_).
  induction f as [|f IH]; intros x; [by left|]. cbn [next_free_loop]. unfold base_index.
  assert (assertR (63 <=? vt_mask t) = inr tt) as ->.
  { unfold assertR. assert (63 <=? vt_mask t = true) as ->; [|done]. apply N.leb_le. rewrite Hm. by apply ones_ge_63. }
  cbn [bindR]. rewrite Hm. destruct (fetch_node_eq k t x Hs) as (p&_&Hf). rewrite Hf. cbn [bindR].
  destruct (p =? 0); [right; eauto|apply IH].
Qed.

Lemma refs_zero_inv {E : Env} h p q n : refs h p = 0%Z -> h !! q = Some n -> ~ sink q -> n_lo n <> p /\ n_hi n <> p.
Proof.
  intros H0 Hq Hs. rewrite (refs_delete h q n) in H0 by done. rewrite decide_False in H0 by done.
  pose proof (refs_nonneg (delete q h) p). unfold arcs in H0. repeat case_decide; try lia.
Qed.

Section gc.
Context {E : Env} (md : mode) (H : ptr -> Z) (s : mstate) (HI : Inv md H s) (Hord : md_ord md = true).
Notation h := (s_heap s).

(** some variable labels more than 32 nodes: only then has a table ever been enlarged *)
Definition big : Prop := exists v, (32 < size (nodes_of h v))%nat.

(** outcomes: a result with [Q], a loop that does not end, or, in a large table, a failed
    assert or undefined behaviour *)
Definition gsat {A} (m : M A) (s' : mstate) (Q : A -> mstate -> Prop) : Prop :=
  match m s' with Ok a s'' => Q a s'' | Fail ELoop _ => True | Fail EThrow _ => False | Fail _ _ => big end.
Lemma gsat_step {A B} (m : M A) (f : A -> M B) s' a s1 Q : m s' = Ok a s1 -> gsat (f a) s1 Q -> gsat (bind m f) s' Q.
Proof. intros Hm. unfold gsat, bind. by rewrite Hm. Qed.
Lemma gsat_loop {A B} (m : M A) (f : A -> M B) s' s1 Q : m s' = Fail ELoop s1 -> gsat (bind m f) s' Q.
Proof. intros Hm. unfold gsat, bind. by rewrite Hm. Qed.
Lemma gsat_bind {A B} (m : M A) (f : A -> M B) s' P Q : gsat m s' P -> (forall a s1, P a s1 -> gsat (f a) s1 Q) -> gsat (bind m f) s' Q.
Proof. unfold gsat, bind. destruct (m s') as [a s1|[] s1]; auto. intros HP HQ. by apply HQ. Qed.

Lemma child_var' p n q m : h !! p = Some n -> ~ sink p -> n_lo n = q \/ n_hi n = q -> h !! q = Some m -> ~ sink q ->
  n_idx n < n_idx m.
Proof.
  intros Hp Hs Hc Hq Hsq. destruct (ho_node _ _ _ (i_heap _ _ _ HI) p n Hp Hs) as (_&_&_&t&Ht).
  pose proof (ho_ord _ _ _ (i_heap _ _ _ HI) Hord _ _ Ht) as Ho.
  destruct (repr_nonsink _ _ _ Ht Hs) as (n'&tl&th&Hn'&->&Htl&Hth). assert (n' = n) as -> by congruence.
  simpl in Ho. destruct Ho as (_&Hol&Hoh).
  destruct Hc as [<-|<-].
  - destruct (repr_nonsink _ _ _ Htl Hsq) as (m'&?&?&Hm'&->&_). assert (m' = m) as -> by congruence. simpl in Hol. lia.
  - destruct (repr_nonsink _ _ _ Hth Hsq) as (m'&?&?&Hm'&->&_). assert (m' = m) as -> by congruence. simpl in Hoh. lia.
Qed.
Lemma children_in p n q : h !! p = Some n -> ~ sink p -> n_lo n = q \/ n_hi n = q -> exists m, h !! q = Some m.
Proof.
  intros Hp Hs Hc. destruct (ho_node _ _ _ (i_heap _ _ _ HI) p n Hp Hs) as (_&_&_&t&Ht).
  destruct (repr_nonsink _ _ _ Ht Hs) as (n'&tl&th&Hn'&->&Htl&Hth). assert (n' = n) as -> by congruence.
  destruct Hc as [<-|<-]; eapply repr_in; eauto; apply HI.
Qed.

Lemma refs_live_add' F p n q : h !! p = Some n -> p ∉ F -> ~ sink p ->
  refs (liveh s F) q = (refs (liveh s ({[p]} ∪ F)) q + arcs n q)%Z.
Proof.
  intros Hp HF Hs. rewrite (refs_delete (liveh s F) p n) by (by apply live_lookup).
  assert (delete p (liveh s F) = liveh s ({[p]} ∪ F)) as ->.
  { apply map_eq. intros x. destruct (decide (x = p)) as [->|Hne].
    - rewrite lookup_delete. symmetry. unfold liveh. apply map_filter_lookup_None. right. intros y _. simpl. set_solver.
    - rewrite lookup_delete_ne by done. apply option_eq. intros m. rewrite !live_lookup. set_solver. }
  by rewrite decide_False by done.
Qed.

(** the state after the nodes in [F] were returned *)
Definition cnt (F : gset N) (p : ptr) : Z := (H p + refs (liveh s F) p)%Z.
Record GRel (F : gset N) (s' : mstate) : Prop := {
  g_node : forall p n, h !! p = Some n -> p ∉ F -> exists n', s_heap s' !! p = Some n' /\ same_core n n' /\
     n_xref n' = (cnt F p + if decide (sink p) then 1 else 0)%Z;
  g_dom : dom (s_heap s') = dom h;
  g_F : forall q, q ∈ F -> ~ sink q /\ q ∈ dom h /\ H q = 0%Z;
  g_par : forall q m p, h !! q = Some m -> ~ sink q -> n_lo m = p \/ n_hi m = p -> p ∈ F -> q ∈ F;
  g_memo : s_memo s' = s_memo s;
  g_nv : length (s_vars s') = length (s_vars s);
  g_total : nc_total (s_nc s') + N.of_nat (size F) = N.of_nat (size h)
}.
Lemma grel_init : GRel ∅ s.
Proof.
  assert (liveh s ∅ = h) as Hl.
  { apply map_eq. intros q. apply option_eq. intros n. rewrite live_lookup. set_solver. }
  constructor; try done.
  - intros p n Hp _. exists n. split_and!; auto using same_core_refl. unfold cnt. rewrite Hl, (i_xref _ _ _ HI _ _ Hp). lia.
  - rewrite size_empty. destruct (i_nc _ _ _ HI) as (_&_&_&_&->&_). lia.
Qed.

Lemma free_node_grel F s' p n : GRel F s' -> h !! p = Some n -> p ∉ F -> ~ sink p ->
  n_lo n ∉ F -> n_hi n ∉ F -> cnt F p = 0%Z ->
  exists s'', free_node p s' = Ok tt s'' /\ GRel ({[p]} ∪ F) s'' /\ s_vars s'' = s_vars s'.
Proof.
  intros HR Hp HF Hs Hlo Hhi Hc0.
  destruct (ho_node _ _ _ (i_heap _ _ _ HI) p n Hp Hs) as (_&Hne&_&t&Ht).
  destruct (repr_nonsink _ _ _ Ht Hs) as (n'&tl&th&Hn'&->&Htl&Hth). assert (n' = n) as -> by congruence.
  destruct (repr_in _ _ _ _ _ (i_heap _ _ _ HI) Htl) as [a Ha]. destruct (repr_in _ _ _ _ _ (i_heap _ _ _ HI) Hth) as [b Hb].
  assert (Hlop : n_lo n <> p).
  { intros Heq. rewrite Heq in Htl. pose proof (f_equal ht (repr_fun _ _ _ _ Htl Ht)) as Hx. simpl in Hx. lia. }
  assert (Hhip : n_hi n <> p).
  { intros Heq. rewrite Heq in Hth. pose proof (f_equal ht (repr_fun _ _ _ _ Hth Ht)) as Hx. simpl in Hx. lia. }
  destruct (g_node _ _ HR _ _ Hp HF) as (p'&Hp'&(Hc1&Hc2&Hc3&Hc4&Hc5)&Hpx).
  destruct (g_node _ _ HR _ _ Ha Hlo) as (a'&Ha'&Hca&Hax).
  destruct (g_node _ _ HR _ _ Hb Hhi) as (b'&Hb'&Hcb&Hbx).
  assert (Hx0 : n_xref p' = 0%Z) by (rewrite Hpx, decide_False by done; lia).
  pose proof (refs_nonneg (liveh s ({[p]} ∪ F)) (n_lo n)) as Hnn1. pose proof (refs_nonneg (liveh s ({[p]} ∪ F)) (n_hi n)) as Hnn2.
  pose proof (i_H _ _ _ HI) as HH. pose proof (HH (n_lo n)) as HH1. pose proof (HH (n_hi n)) as HH2. pose proof (HH p) as HH3.
  assert (Harc1 : arcs n (n_lo n) = 1%Z) by (unfold arcs; rewrite decide_True, decide_False by congruence; done).
  assert (Harc2 : arcs n (n_hi n) = 1%Z) by (unfold arcs; rewrite decide_False, decide_True by congruence; done).
  assert (Hax' : (0 < n_xref a')%Z).
  { rewrite Hax. unfold cnt. rewrite (refs_live_add' F p n) by done. rewrite Harc1. destruct (decide (sink (n_lo n))); lia. }
  assert (Hbx' : (0 < n_xref b')%Z).
  { rewrite Hbx. unfold cnt. rewrite (refs_live_add' F p n) by done. rewrite Harc2. destruct (decide (sink (n_hi n))); lia. }
  unfold free_node. rewrite (bind_eq _ _ _ _ _ (getN_eq _ _ _ Hp')).
  rewrite (bind_eq _ _ _ _ _ (assert_eq (n_xref p' <=? 0)%Z s' ltac:(apply Z.leb_le; lia))).
  rewrite <- Hc1. rewrite (bind_eq _ _ _ _ _ (getN_eq _ _ _ Ha')).
  rewrite (bind_eq _ _ _ _ _ (assert_eq _ s' (proj2 (Z.ltb_lt _ _) Hax'))).
  rewrite (bind_eq _ _ _ _ _ (xref_dec_eq _ _ _ Ha')).
  set (s1 := set_s_heap (addx (-1) (n_lo n) (s_heap s')) s').
  assert (Hp1 : s_heap s1 !! p = Some p').
  { unfold s1. simpl. rewrite addx_lookup, Hp'. simpl. by rewrite decide_False by done. }
  rewrite (bind_eq _ _ _ _ _ (getN_eq _ _ _ Hp1)). rewrite <- Hc2.
  assert (Hb1 : s_heap s1 !! n_hi n = Some b').
  { unfold s1. simpl. rewrite addx_lookup, Hb'. simpl. by rewrite decide_False by done. }
  rewrite (bind_eq _ _ _ _ _ (getN_eq _ _ _ Hb1)).
  rewrite (bind_eq _ _ _ _ _ (assert_eq _ s1 (proj2 (Z.ltb_lt _ _) Hbx'))).
  rewrite (bind_eq _ _ _ _ _ (xref_dec_eq _ _ _ Hb1)).
  set (s2 := set_s_heap (addx (-1) (n_hi n) (s_heap s1)) s1).
  rewrite (bind_eq get _ s2 s2 s2 eq_refl).
  assert (Hp2 : s_heap s2 !! p = Some p').
  { unfold s2. simpl. rewrite addx_lookup. unfold s1 in Hp1. simpl in Hp1. rewrite Hp1. simpl. by rewrite decide_False by done. }
  unfold modN. unfold bind at 1. rewrite (bind_eq _ _ _ _ _ (getN_eq _ _ _ Hp2)). unfold set_heap, set_nc.
  eexists. split; [reflexivity|]. simpl. split; [|done].
  constructor; simpl.
  - intros q m Hq HqF. assert (q <> p) by set_solver. assert (HqF' : q ∉ F) by set_solver.
    rewrite lookup_insert_ne by done. destruct (g_node _ _ HR _ _ Hq HqF') as (q'&Hq'&Hcq&Hqx).
    rewrite !addx_lookup, Hq'. simpl. eexists. split; [done|]. unfold cnt in *.
    rewrite (refs_live_add' F p n) in Hqx by done. unfold arcs in Hqx.
    repeat case_decide; simpl; split; try done; try (rewrite Hqx; lia); try congruence.
  - rewrite dom_insert_L. assert (dom (addx (-1) (n_hi n) (addx (-1) (n_lo n) (s_heap s'))) = dom h) as ->.
    { rewrite <- (g_dom _ _ HR). apply set_eq. intros q. rewrite !elem_of_dom, !addx_lookup.
      destruct (s_heap s' !! q); simpl; [|done]. split; eauto. }
    apply elem_of_dom_2 in Hp. set_solver.
  - intros q [->%elem_of_singleton|Hq]%elem_of_union; [|by apply (g_F _ _ HR)].
    split_and!; [done|by apply elem_of_dom_2 in Hp|]. pose proof (refs_nonneg (liveh s F) p). unfold cnt in Hc0. lia.
  - intros q m x Hq Hsq Hc [->%elem_of_singleton|Hx]%elem_of_union; [|apply elem_of_union; right; by eapply (g_par _ _ HR)].
    apply elem_of_union. right. destruct (decide (q ∈ F)) as [|HqF]; [done|]. exfalso.
    assert (Hr0 : refs (liveh s F) p = 0%Z) by (pose proof (refs_nonneg (liveh s F) p); unfold cnt in Hc0; lia).
    assert (Hlq : liveh s F !! q = Some m) by (by apply live_lookup).
    pose proof (refs_zero_inv _ _ _ _ Hr0 Hlq Hsq). tauto.
  - apply (g_memo _ _ HR).
  - apply (g_nv _ _ HR).
  - rewrite size_union by set_solver. rewrite size_singleton. pose proof (g_total _ _ HR) as Htot.
    assert (Hle : (size ({[p]} ∪ F) <= size h)%nat).
    { rewrite <- (size_dom (D := gset N)). apply subseteq_size. apply union_subseteq. split.
      - apply singleton_subseteq_l. by apply elem_of_dom_2 in Hp.
      - intros q Hq. by apply (g_F _ _ HR). }
    rewrite size_union, size_singleton in Hle by set_solver. lia.
Qed.

(** ** the table of variable [v] *)
Definition upto' (v : N) (F : gset N) : Prop := forall q, q ∈ F -> exists m, h !! q = Some m /\ n_idx m <= v.
Record TI (k v : N) (F : gset N) (t : vtab) : Prop := {
  ti_shape : vt_shape k t;
  ti_node : forall i p, (i < tsize k)%nat -> pg_slots (vt_page t) !! i = Some p -> p <> 0 -> var_nodes h v p /\ p ∉ F;
  ti_dup : forall i j p, (i < tsize k)%nat -> (j < tsize k)%nat -> i <> j -> p <> 0 ->
    pg_slots (vt_page t) !! i = Some p -> pg_slots (vt_page t) !! j = Some p -> (0 < cnt F p)%Z
}.
Lemma ti_free k v F t n : TI k v F t -> TI k v F (with_free n t).
Proof. intros []. by constructor. Qed.
Lemma ti_store k v F t x p : TI k v F t -> (p <> 0 -> var_nodes h v p /\ p ∉ F /\ (0 < cnt F p)%Z) ->
  TI k v F (with_page (Page (pg_id (vt_page t)) (<[pos k x := p]> (pg_slots (vt_page t)))) t).
Proof.
  intros [(Hm&H6&Hlen) Hn Hd] Hp. pose proof (pos_lt k x) as Hpl.
  assert (Hlk : forall i q, (i < tsize k)%nat -> <[pos k x := p]> (pg_slots (vt_page t)) !! i = Some q ->
     i = pos k x /\ q = p \/ i <> pos k x /\ pg_slots (vt_page t) !! i = Some q).
  { intros i q Hi Hq. destruct (decide (i = pos k x)) as [->|Hne].
    - rewrite list_lookup_insert in Hq by lia. left. split; [done|congruence].
    - rewrite list_lookup_insert_ne in Hq by done. by right. }
  constructor.
  - split_and!; auto. simpl. by rewrite insert_length.
  - cbn [vt_page with_page pg_slots]. intros i q Hi Hq Hq0. destruct (Hlk i q Hi Hq) as [[-> ->]|[_ Hq']]; [by destruct (Hp Hq0) as (?&?&?)|eauto].
  - cbn [vt_page with_page pg_slots]. intros i j q Hi Hj Hij Hq0 Hqi Hqj.
    destruct (Hlk i q Hi Hqi) as [[-> ->]|[_ Hqi']]; [by destruct (Hp Hq0) as (?&?&?)|].
    destruct (Hlk j q Hj Hqj) as [[-> ->]|[_ Hqj']]; [by destruct (Hp Hq0) as (?&?&?)|]. eauto.
Qed.

Lemma dead_eq F s' p n : GRel F s' -> h !! p = Some n -> p ∉ F -> ~ sink p -> dead p s' = Ok (bool_decide (cnt F p = 0%Z)) s'.
Proof.
  intros HR Hp HF Hs. destruct (g_node _ _ HR _ _ Hp HF) as (n'&Hn'&_&Hx). unfold dead.
  rewrite (bind_eq _ _ _ _ _ (getN_eq _ _ _ Hn')). unfold ret. f_equal. rewrite Hx, decide_False by done.
  pose proof (i_H _ _ _ HI p). pose proof (refs_nonneg (liveh s F) p). unfold cnt.
  case_bool_decide; [apply Z.leb_le; lia|apply Z.leb_gt; lia].
Qed.
Lemma cnt_pos F p : cnt F p <> 0%Z -> (0 < cnt F p)%Z.
Proof. intros Hc. pose proof (i_H _ _ _ HI p). pose proof (refs_nonneg (liveh s F) p). unfold cnt in *. lia. Qed.
Lemma hash_grel F s' p n : GRel F s' -> h !! p = Some n -> p ∉ F -> ~ sink p -> exists hc, hash_code (s_heap s') p = inr hc.
Proof.
  intros HR Hp HF Hs. destruct (g_node _ _ HR _ _ Hp HF) as (n'&Hn'&(Hl&Hh&_)&_).
  destruct (children_in p n (n_lo n) Hp Hs) as [a Ha]; [auto|]. destruct (children_in p n (n_hi n) Hp Hs) as [b Hb]; [auto|].
  assert (is_Some (s_heap s' !! n_lo n)) as [a' Ha'] by (apply elem_of_dom; rewrite (g_dom _ _ HR); by apply elem_of_dom_2 in Ha).
  assert (is_Some (s_heap s' !! n_hi n)) as [b' Hb'] by (apply elem_of_dom; rewrite (g_dom _ _ HR); by apply elem_of_dom_2 in Hb).
  unfold hash_code, derefR. rewrite Hn'. cbn [bindR]. unfold hash_code2, derefR. rewrite <- Hl, <- Hh, Ha'. cbn [bindR].
  rewrite Hb'. cbn [bindR]. eauto.
Qed.

Lemma rdn_inner_spec k v F s' : GRel F s' -> forall fuel t j, TI k v F t ->
  gsat (rdn_inner fuel t j) s' (fun r s'' => s'' = s' /\ TI k v F r.1).
Proof.
  intros HR. induction fuel as [|fuel IH]; intros t j HT; [done|]. cbn [rdn_inner]. cbv zeta.
  pose proof (ti_shape _ _ _ _ HT) as Hsh. pose proof Hsh as (Hm&_&_). rewrite Hm.
  destruct (fetch_node_eq k t j Hsh) as (p&Hp&Hf).
  eapply gsat_step; [by apply liftR_eq|]. destruct (N.eqb_spec p 0) as [->|Hp0]; [done|].
  destruct (ti_node _ _ _ _ HT _ _ (pos_lt k j) Hp Hp0) as ((Hs&n&Hn&Hi)&HF).
  eapply gsat_step; [by eapply dead_eq|]. case_bool_decide as Hc.
  - eapply gsat_step; [apply liftR_eq, (store_node_eq k); done|]. apply IH. apply ti_free. by apply ti_store.
  - eapply gsat_step; [reflexivity|]. destruct (hash_grel F s' p n HR Hn HF Hs) as [hc Hhc].
    eapply gsat_step; [by apply liftR_eq|].
    destruct (next_free_slot_cases k t hc Hsh) as [Hl|[y Hy]].
    + eapply gsat_loop. unfold liftR. by rewrite Hl.
    + eapply gsat_step; [by apply liftR_eq|]. eapply gsat_step; [apply liftR_eq, (store_node_eq k); done|].
      apply IH. apply ti_store; [done|]. intros _. split_and!; auto using cnt_pos. split; eauto.
Qed.

Lemma cnt_same v F p n q m : h !! p = Some n -> p ∉ F -> ~ sink p -> n_idx n = v -> h !! q = Some m -> ~ sink q -> n_idx m = v ->
  cnt ({[p]} ∪ F) q = cnt F q.
Proof.
  intros Hp HF Hs Hi Hq Hsq Hi'. unfold cnt. rewrite (refs_live_add' F p n q) by done.
  assert (arcs n q = 0%Z) as ->; [|lia]. unfold arcs. rewrite !decide_False; [done| |].
  - intros Hc. pose proof (child_var' p n q m Hp Hs (or_intror Hc) Hq Hsq). lia.
  - intros Hc. pose proof (child_var' p n q m Hp Hs (or_introl Hc) Hq Hsq). lia.
Qed.

Lemma rdn_outer_spec k v : forall fuel F s' t j, GRel F s' -> TI k v F t -> upto' v F ->
  gsat (rdn_outer fuel t j) s' (fun t' s'' => exists F', GRel F' s'' /\ TI k v F' t' /\ upto' v F' /\ s_vars s'' = s_vars s').
Proof.
  induction fuel as [|fuel IH]; intros F s' t j HR HT Hu; [done|]. cbn [rdn_outer].
  pose proof (ti_shape _ _ _ _ HT) as Hsh. pose proof Hsh as (Hm&_&_).
  destruct (N.ltb_spec j (vt_size t)) as [Hj|Hj]; [|by exists F].
  assert (Hlj : N.land j (N.ones k) = j).
  { rewrite N.land_ones. apply N.mod_small. unfold vt_size in Hj. rewrite Hm in Hj. rewrite N.ones_equiv in Hj.
    pose proof (pow_pos k). lia. }
  destruct (fetch_node_eq k t j Hsh) as (p&Hp&Hf). rewrite Hlj in Hf.
  eapply gsat_step; [by apply liftR_eq|]. destruct (N.eqb_spec p 0) as [->|Hp0].
  { eapply gsat_step; [reflexivity|]. by apply (IH F). }
  destruct (ti_node _ _ _ _ HT _ _ (pos_lt k j) Hp Hp0) as ((Hs&n&Hn&Hi)&HF).
  eapply gsat_step; [by eapply dead_eq|]. case_bool_decide as Hc; [|by apply (IH F)].
  assert (Hch : forall q, n_lo n = q \/ n_hi n = q -> q ∉ F).
  { intros q Hq HqF. destruct (Hu q HqF) as (m&Hm'&Hle). destruct (g_F _ _ HR q HqF) as (Hsq&_).
    pose proof (child_var' p n q m Hn Hs Hq Hm' Hsq). lia. }
  destruct (free_node_grel F s' p n HR Hn HF Hs) as (s1&Hfr&HR1&Hvs); auto.
  eapply gsat_step; [exact Hfr|].
  pose proof (store_node_eq k t j 0 Hsh) as Hst. rewrite Hlj in Hst.
  eapply gsat_step; [apply liftR_eq; exact Hst|]. clear Hst.
  set (t1 := with_page _ t).
  assert (HT1 : TI k v ({[p]} ∪ F) (with_free (vt_free t1 + 1) t1)).
  { apply ti_free. pose proof (ti_store k v F t j 0 HT ltac:(done)) as HT0. fold t1 in HT0.
    assert (Hnp : forall i, (i < tsize k)%nat -> pg_slots (vt_page t1) !! i <> Some p).
    { intros i Hi' Hip. unfold t1 in Hip. cbn [vt_page with_page pg_slots] in Hip. destruct Hsh as (_&_&Hlen).
      pose proof (pos_lt k j) as Hpl. destruct (decide (i = pos k j)) as [->|Hne].
      - rewrite list_lookup_insert in Hip by lia. congruence.
      - rewrite list_lookup_insert_ne in Hip by done.
        pose proof (ti_dup _ _ _ _ HT i (pos k j) p Hi' Hpl Hne Hp0 Hip Hp). lia. }
    destruct HT0 as [Hsh0 Hn0 Hd0]. constructor; [done| |].
    - intros i q Hi' Hq Hq0. destruct (Hn0 i q Hi' Hq Hq0) as [Hv HqF]. split; [done|].
      intros [->%elem_of_singleton|?]%elem_of_union; [|done]. by apply (Hnp i).
    - intros i j' q Hi' Hj' Hij Hq0 Hqi Hqj. destruct (Hn0 i q Hi' Hqi Hq0) as [(Hsq&m&Hm'&Him) HqF].
      rewrite (cnt_same v F p n q m) by done. eauto. }
  eapply gsat_bind; [by apply (rdn_inner_spec k v ({[p]} ∪ F) s1 HR1)|].
  intros [t2 j2] s2 [-> HT2]. cbn [fst] in HT2.
  assert (gsat (rdn_outer fuel t2 (j2 + 1)) s1 (fun t' s'' => exists F', GRel F' s'' /\ TI k v F' t' /\ upto' v F' /\ s_vars s'' = s_vars s1)) as HG.
  { apply (IH ({[p]} ∪ F)); auto. intros q [->%elem_of_singleton|Hq]%elem_of_union; [|by apply Hu]. exists n. split; [done|lia]. }
  rewrite Hvs in HG. exact HG.
Qed.

(** [s''] differs from [s'] only in the tables' pages *)
Definition same_nodes (s' s'' : mstate) : Prop := s_heap s'' = s_heap s' /\ s_memo s'' = s_memo s' /\ s_nc s'' = s_nc s' /\
  length (s_vars s'') = length (s_vars s').
Lemma grel_same F s' s'' : GRel F s' -> same_nodes s' s'' -> GRel F s''.
Proof. intros [] (Hh&Hm&Hn&Hl). constructor; rewrite ?Hh, ?Hm, ?Hn, ?Hl; auto. Qed.

Lemma ti_init v t : s_vars s !! v = Some t -> forall F, (forall q, q ∈ F -> exists m, h !! q = Some m /\ n_idx m < N.of_nat v) ->
  exists k, k <= 19 /\ TI k (N.of_nat v) F t /\ (6 < k -> big).
Proof.
  intros Hv F HF. destruct (i_tab _ _ _ HI _ _ Hv) as (k&Hs&Hk&HT&Hf&Hused&Hcap&Hlow&Hmx). exists k. split_and!; [done| |].
  - constructor; [done| |].
    + intros i p Hi Hp Hp0. pose proof (pt_in _ _ _ _ HT i p Hi Hp Hp0) as Hvn. split; [done|].
      intros HpF. destruct (HF p HpF) as (m&Hm&Hlt). destruct Hvn as (_&m'&Hm'&Hi'). assert (m' = m) as -> by congruence. lia.
    + intros i j p Hi Hj Hij Hp0 Hpi Hpj. exfalso. apply Hij. by apply (pt_inj _ _ _ _ HT i j p).
  - intros Hk6. specialize (Hlow Hk6). exists (N.of_nat v). pose proof (tab_used _ _ _ _ Hs HT) as Hu.
    assert (128 <= tsize k)%nat; [|lia].
    unfold tsize. pose proof (N.pow_le_mono_r 2 7 k ltac:(lia) ltac:(lia)) as Hpw. change (2 ^ 7) with 128 in Hpw. lia.
Qed.

(** the new mask: one below half the table size, or 1 *)
Lemma shrink_mask_cases t n : vt_mask t = N.ones n -> 7 <= n -> n <= 19 -> exists r, shrink_mask 3 t ((vt_mask t + 1) / 2 - 1) = r /\
  (r = inr ((vt_mask t + 1) / 2 - 1) \/ r = inr 1).
Proof.
  intros Hm H7 H19. eexists. split; [done|]. set (a := (vt_mask t + 1) / 2 - 1).
  assert (Ha : 63 <= a).
  { unfold a. rewrite Hm, N.ones_equiv. pose proof (N.pow_le_mono_r 2 7 n ltac:(lia) H7) as Hp. change (2 ^ 7) with 128 in Hp.
    replace (N.pred (2 ^ n) + 1) with (2 ^ n) by lia.
    pose proof (N.div_le_mono 128 (2 ^ n) 2 ltac:(lia) Hp) as Hd. change (128 / 2) with 64 in Hd. lia. }
  cbn [shrink_mask]. assert (63 <=? a = true) as -> by (by apply N.leb_le). cbn [andb].
  destruct (a <=? 8 * sub64 a (vt_free t)); [|by left]. fold a. rewrite N.div_same by lia.
  change (63 <=? 1) with false. cbn [andb]. by right.
Qed.

Lemma new_page_same n s' : n <> 1048575 -> match new_page n s' with Ok _ s'' => same_nodes s' s'' /\ s_vars s'' = s_vars s' | Fail EThrow _ => False | _ => True end.
Proof.
  intros Hn. unfold new_page. apply N.eqb_neq in Hn. rewrite Hn. destruct (new_page_class n) as [c|].
  - unfold reserve_page. unfold bind at 1. cbn [get]. destruct (match avail c (s_pcs s') with [] => _ | l => _ end) as [[|x l] blk]; [done|].
    unfold bind, set_pcs. destruct (pi_cap x <? c); [done|]. done.
  - unfold bind, assert_, liftR, assertR. by destruct (false || e_ndebug).
Qed.

Lemma free_page_same pg m s' : match free_page pg m s' with Ok _ s'' => same_nodes s' s'' /\ s_vars s'' = s_vars s' | Fail EThrow _ => False | _ => True end.
Proof.
  unfold free_page. destruct (free_page_class m); [done|]. unfold assert_, liftR, assertR. by destruct (false || e_ndebug).
Qed.

Lemma shrink_slot_err fuel nb m k l e : shrink_slot fuel nb m k l = inl e -> e <> EThrow.
Proof.
  revert l. induction fuel as [|fuel IH]; intros l; cbn [shrink_slot]; [by intros [= <-]|].
  destruct (nb !! N.to_nat k) as [p|]; [|by intros [= <-]]. destruct (p =? 0); [done|apply IH].
Qed.
Lemma shrink_copy_err old m e : forall k nb, shrink_copy old k m nb = inl e -> e <> EThrow.
Proof.
  induction old as [|p old IH]; intros k nb; cbn [shrink_copy]; [done|]. destruct (p =? 0); [apply IH|].
  destruct (shrink_slot _ _ _ _ _) as [e'|i] eqn:Hs; cbn [bindR]; [intros [= <-]; by eapply shrink_slot_err|].
  destruct (_ <? _)%nat; [apply IH|by intros [= <-]].
Qed.

Lemma remove_dead_nodes_spec fuel v F s' : GRel F s' -> (v < length (s_vars s))%nat -> s_vars s' !! v = s_vars s !! v ->
  (forall q, q ∈ F -> exists m, h !! q = Some m /\ n_idx m < N.of_nat v) ->
  gsat (remove_dead_nodes fuel (N.of_nat v)) s' (fun _ s'' => exists F', GRel F' s'' /\ upto' (N.of_nat v) F' /\
    forall u, u <> v -> s_vars s'' !! u = s_vars s' !! u).
Proof.
  intros HR Hlt Hv HF. destruct (lookup_lt_is_Some_2 (s_vars s) v Hlt) as [t Ht]. rewrite Ht in Hv.
  destruct (ti_init v t Ht F HF) as (k&Hk&HT&Hbig). unfold remove_dead_nodes.
  eapply gsat_step; [apply getV_eq; by rewrite Nat2N.id|].
  eapply gsat_bind; [apply (rdn_outer_spec k (N.of_nat v) fuel F s' t 0 HR HT)|].
  { intros q Hq. destruct (HF q Hq) as (m&?&?). exists m. split; [done|lia]. }
  intros t1 s1 (F1&HR1&HT1&Hu1&Hvs). destruct (ti_shape _ _ _ _ HT1) as (Hm1&H6&Hlen1).
  eapply gsat_step; [reflexivity|]. rewrite Nat2N.id.
  match goal with |- gsat _ ?x _ => set (s2 := x) end.
  assert (HR2 : GRel F1 s2) by (eapply grel_same; [done|]; split_and!; try done; unfold s2; cbn [s_vars]; by rewrite insert_length).
  assert (Hvs2 : forall u, u <> v -> s_vars s2 !! u = s_vars s' !! u).
  { intros u Hu. unfold s2. cbn [s_vars]. rewrite list_lookup_insert_ne by done. by rewrite Hvs. }
  clearbody s2.
  destruct ((63 <? vt_mask t1) && _) eqn:Hc; [|by exists F1].
  apply andb_true_iff in Hc as [H63%N.ltb_lt _].
  assert (Hk7 : 7 <= k).
  { destruct (decide (k = 6)) as [->|]; [|lia]. rewrite Hm1 in H63. change (N.ones 6) with 63 in H63. lia. }
  specialize (Hbig ltac:(lia)).
  assert (Hg : forall m : M unit, match m s2 with Ok _ s'' => same_nodes s2 s'' /\ forall u, u <> v -> s_vars s'' !! u = s_vars s2 !! u | Fail EThrow _ => False | _ => True end ->
    gsat m s2 (fun _ s'' => exists F', GRel F' s'' /\ upto' (N.of_nat v) F' /\ forall u, u <> v -> s_vars s'' !! u = s_vars s' !! u)).
  { intros m. unfold gsat. destruct (m s2) as [[] s3|[] s3]; try done. intros [Hsn Hu3]. exists F1. split_and!; [by eapply grel_same|done|].
    intros u Hu. rewrite Hu3 by done. by apply Hvs2. }
  apply Hg. clear Hg.
  destruct (shrink_mask_cases t1 k Hm1 Hk7 Hk) as (r&Hr&Hrc). rewrite Hr.
  assert (exists n, r = inr n /\ n <> 1048575) as (n&->&Hn).
  { destruct Hrc as [-> | ->]; [|by exists 1]. eexists. split; [done|]. rewrite Hm1, N.ones_equiv.
    pose proof (N.pow_le_mono_r 2 k 19 ltac:(lia) Hk) as Hp. change (2 ^ 19) with 524288 in Hp. pose proof (pow_pos k).
    pose proof (N.div_le_upper_bound (N.pred (2 ^ k) + 1) 2 524288 ltac:(lia)). lia. }
  rewrite (bind_eq (liftR (inr n)) _ s2 n s2 eq_refl).
  unfold bind at 1. pose proof (new_page_same n s2 Hn) as Hnp. destruct (new_page n s2) as [pg s3|[] s3]; try done.
  destruct Hnp as [Hsn3 Hvs3]. unfold bind at 1. unfold cells.
  destruct (N.to_nat (vt_size t1) <=? length (pg_slots (vt_page t1)))%nat; [|done]. cbn [liftR].
  unfold bind at 1. destruct (shrink_copy _ _ _ _) as [e|nb] eqn:Hsc; cbn [liftR].
  { apply shrink_copy_err in Hsc. by destruct e. }
  unfold bind at 1. pose proof (free_page_same (vt_page t1) (vt_mask t1) s3) as Hfp.
  destruct (free_page _ _ s3) as [[] s4|[] s4]; try done. destruct Hfp as [Hsn4 Hvs4].
  unfold setV, set_vars. split.
  - destruct Hsn3 as (?&?&?&?), Hsn4 as (?&?&?&?). unfold same_nodes. cbn [s_heap s_memo s_nc s_vars]. rewrite insert_length. split_and!; congruence.
  - intros u Hu. cbn [s_vars]. rewrite Nat2N.id, list_lookup_insert_ne by done. congruence.
Qed.

Lemma gc_vars_spec fuel : forall vs v F s', vs = seq v (length (s_vars s) - v) -> (v <= length (s_vars s))%nat -> GRel F s' ->
  (forall q, q ∈ F -> exists m, h !! q = Some m /\ n_idx m < N.of_nat v) ->
  (forall u, (v <= u)%nat -> s_vars s' !! u = s_vars s !! u) ->
  gsat (gc_vars fuel vs) s' (fun _ s'' => exists F', GRel F' s'').
Proof.
  induction vs as [|v0 vs IH]; intros v F s' Hvs Hle HR HF Hvars; [by exists F|].
  destruct (length (s_vars s) - v)%nat as [|d] eqn:Hd; [done|]. rewrite <- cons_seq in Hvs. injection Hvs as -> Hvs.
  cbn [gc_vars]. eapply gsat_bind; [apply (remove_dead_nodes_spec fuel v F s' HR); [lia|by apply Hvars|done]|].
  intros [] s1 (F1&HR1&Hu1&Hvs1). apply (IH (S v) F1 s1); auto.
  - rewrite Hvs. f_equal. lia.
  - lia.
  - intros q Hq. destruct (Hu1 q Hq) as (m&?&?). exists m. split; [done|lia].
  - intros u Hu. rewrite Hvs1 by lia. apply Hvars. lia.
Qed.

Lemma purge_tab_eq F s' l : GRel F s' -> (forall m, m ∈ l -> m_r m <> 0 -> entry_ok md (length (s_vars s)) h m) -> purge_tab (s_heap s') l = inr l \/
  exists l', purge_tab (s_heap s') l = inr l'.
Proof.
  intros HR. induction l as [|m l IH]; intros Hl; [by left|]. right. cbn [purge_tab].
  assert (exists b, can_be_purged (s_heap s') m = inr b) as [b ->].
  { unfold can_be_purged. destruct (N.eqb_spec (m_r m) 0) as [|Hr0]; [eauto|].
    destruct (Hl m) as (tf&tg&tr&Hf&Hg&Hr&_); [by left|done|].
    assert (Hd : forall p t, repr h p t -> exists n, derefR (s_heap s') p = inr n).
    { intros p t Hp. destruct (repr_in _ _ _ _ _ (i_heap _ _ _ HI) Hp) as [n Hn].
      assert (is_Some (s_heap s' !! p)) as [n' Hn'] by (apply elem_of_dom; rewrite (g_dom _ _ HR); by apply elem_of_dom_2 in Hn).
      exists n'. unfold derefR. by rewrite Hn'. }
    destruct (Hd _ _ Hr) as [nr ->]. cbn [bindR]. destruct (n_xref nr <? 0)%Z; [eauto|].
    destruct (Hd _ _ Hf) as [nf ->]. cbn [bindR]. destruct (n_xref nf <? 0)%Z; [eauto|].
    destruct (m_h m =? 0); [eauto|]. destruct (Hd _ _ Hg) as [ng ->]. cbn [bindR]. eauto. }
  cbn [bindR]. destruct IH as [-> | [l' ->]]; cbn [bindR]; eauto. intros m' Hm'. apply Hl. by right.
Qed.

(** what one collection does *)
Lemma collect_garbage_spec fuel : gsat (collect_garbage fuel) s (fun _ s' => exists F s1, GRel F s1 /\ s_heap s' = s_heap s1 /\ s_nc s' = s_nc s1 /\ s_vars s' = s_vars s1).
Proof.
  unfold collect_garbage. eapply gsat_step; [reflexivity|].
  eapply gsat_bind; [apply (gc_vars_spec fuel _ 0 ∅ s)|].
  - f_equal. lia.
  - lia.
  - apply grel_init.
  - set_solver.
  - done.
  - intros [] s1 (F&HR). unfold purge. eapply gsat_step; [reflexivity|].
    rewrite (g_memo _ _ HR). destruct (i_memo _ _ _ HI) as [_ Hm].
    assert (exists l', purge_tab (s_heap s1) (mc_tab (s_memo s)) = inr l') as [l' Hl'].
    { destruct (purge_tab_eq F s1 _ HR Hm) as [?|?]; eauto. }
    eapply gsat_step; [by apply liftR_eq|]. exists F, s1. split_and!; done.
Qed.
End gc.
