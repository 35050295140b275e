(** * Destroy.v -- destroying the manager when no handles are left *)
From Verif Require Export Limited.
Open Scope N_scope.

Section destroy.
Context {E : Env}.
Context (md : mode) (s : mstate) (HI : Inv md (fun _ => 0%Z) s) (Hord : md_ord md = true).
Notation h := (s_heap s).

(** the heap without the nodes in [F] *)
Definition liveh (F : gset N) : heap := filter (fun x => x.1 ∉ F) h.

Record Rel (F : gset N) (s' : mstate) : Prop := {
  r_node : forall p n, h !! p = Some n -> p ∉ F -> exists n', s_heap s' !! p = Some n' /\ same_core n n' /\
     n_xref n' = (refs (liveh F) p + if decide (sink p) then 1 else 0)%Z;
  r_total : nc_total (s_nc s') + N.of_nat (size F) = N.of_nat (size h);
  r_dom : F ⊆ dom h
}.

Lemma live_lookup F p n : liveh F !! p = Some n <-> h !! p = Some n /\ p ∉ F.
Proof. unfold liveh. by rewrite map_filter_lookup_Some. Qed.
Lemma live_add F p n : h !! p = Some n -> p ∉ F -> delete p (liveh F) = liveh ({[p]} ∪ F).
Proof.
  intros Hp HF. apply map_eq. intros q. destruct (decide (q = p)) as [->|Hne].
  - rewrite lookup_delete. symmetry. unfold liveh. apply map_filter_lookup_None. right. intros x _. simpl. set_solver.
  - rewrite lookup_delete_ne by done. apply option_eq. intros m. rewrite !live_lookup. set_solver.
Qed.
Lemma refs_live_add F p n q : h !! p = Some n -> p ∉ F -> ~ sink p ->
  refs (liveh F) q = (refs (liveh ({[p]} ∪ F)) q + arcs n q)%Z.
Proof.
  intros Hp HF Hs. rewrite (refs_delete (liveh F) p n) by (by apply live_lookup).
  rewrite (live_add F p n) by done. by rewrite decide_False by done.
Qed.

Lemma rel_init : Rel ∅ s.
Proof.
  assert (liveh ∅ = h) as Hl.
  { apply map_eq. intros q. apply option_eq. intros n. rewrite live_lookup. set_solver. }
  constructor.
  - intros p n Hp _. exists n. split_and!; auto using same_core_refl. rewrite Hl, (i_xref _ _ _ HI _ _ Hp). lia.
  - rewrite size_empty. destruct (i_nc _ _ _ HI) as (_&_&_&_&->&_). lia.
  - set_solver.
Qed.

Lemma xref_dec_eq p s0 n : s_heap s0 !! p = Some n -> xref_dec p s0 = Ok tt (set_s_heap (addx (-1) p (s_heap s0)) s0).
Proof. intros Hn. apply (modx_eq (-1) p s0 n Hn). Qed.

Lemma free_node_rel F s' p n : Rel F s' -> h !! p = Some n -> p ∉ F -> ~ sink p ->
  n_lo n ∉ F -> n_hi n ∉ F ->
  (forall q m, h !! q = Some m -> ~ sink q -> n_lo m = p \/ n_hi m = p -> q ∈ F) ->
  exists s'', free_node p s' = Ok tt s'' /\ Rel ({[p]} ∪ F) s'' /\ s_vars s'' = s_vars s'.
Proof.
  intros HR Hp HF Hs Hlo Hhi Hpar.
  destruct (ho_node _ _ _ (i_heap _ _ _ HI) p n Hp Hs) as (_&Hne&_&t&Ht).
  destruct (repr_nonsink _ _ _ Ht Hs) as (n'&tl&th&Hn'&->&Htl&Hth). assert (n' = n) as -> by congruence.
  destruct (repr_in _ _ _ _ _ (i_heap _ _ _ HI) Htl) as [a Ha]. destruct (repr_in _ _ _ _ _ (i_heap _ _ _ HI) Hth) as [b Hb].
  assert (Hlop : n_lo n <> p).
  { intros Heq. rewrite Heq in Htl. pose proof (f_equal ht (repr_fun _ _ _ _ Htl Ht)) as Hx. simpl in Hx. lia. }
  assert (Hhip : n_hi n <> p).
  { intros Heq. rewrite Heq in Hth. pose proof (f_equal ht (repr_fun _ _ _ _ Hth Ht)) as Hx. simpl in Hx. lia. }
  destruct (r_node _ _ HR _ _ Hp HF) as (p'&Hp'&(Hc1&Hc2&Hc3&Hc4&Hc5)&Hpx).
  destruct (r_node _ _ HR _ _ Ha Hlo) as (a'&Ha'&Hca&Hax).
  destruct (r_node _ _ HR _ _ Hb Hhi) as (b'&Hb'&Hcb&Hbx).
  assert (Hx0 : n_xref p' = 0%Z).
  { rewrite Hpx, decide_False by done. rewrite refs_zero; [done|]. intros q m Hq%live_lookup Hsq. destruct Hq as [Hq HqF].
    split; intros Heq; apply HqF, (Hpar q m); auto. }
  pose proof (refs_nonneg (liveh ({[p]} ∪ F)) (n_lo n)) as Hnn1. pose proof (refs_nonneg (liveh ({[p]} ∪ F)) (n_hi n)) as Hnn2.
  assert (Harc1 : arcs n (n_lo n) = 1%Z) by (unfold arcs; rewrite decide_True, decide_False by congruence; done).
  assert (Harc2 : arcs n (n_hi n) = 1%Z) by (unfold arcs; rewrite decide_False, decide_True by congruence; done).
  assert (Hax' : (0 < n_xref a')%Z).
  { rewrite Hax, (refs_live_add F p n) by done. rewrite Harc1. destruct (decide (sink (n_lo n))); lia. }
  assert (Hbx' : (0 < n_xref b')%Z).
  { rewrite Hbx, (refs_live_add F p n) by done. rewrite Harc2. destruct (decide (sink (n_hi n))); lia. }
  unfold free_node. rewrite (bind_eq _ _ _ _ _ (getN_eq _ _ _ Hp')).
  rewrite (bind_eq _ _ _ _ _ (assert_eq (n_xref p' <=? 0)%Z s' ltac:(apply Z.leb_le; lia))).
  rewrite <- Hc1. rewrite (bind_eq _ _ _ _ _ (getN_eq _ _ _ Ha')).
  rewrite (bind_eq _ _ _ _ _ (assert_eq _ s' (proj2 (Z.ltb_lt _ _) Hax'))).
  rewrite (bind_eq _ _ _ _ _ (xref_dec_eq _ _ _ Ha')).
  set (s1 := set_s_heap (addx (-1) (n_lo n) (s_heap s')) s').
  assert (Hp1 : s_heap s1 !! p = Some p').
  { unfold s1. simpl. rewrite addx_lookup, Hp'. simpl. by rewrite decide_False by done. }
  rewrite (bind_eq _ _ _ _ _ (getN_eq _ _ _ Hp1)). rewrite <- Hc2.
  assert (Hb1 : s_heap s1 !! n_hi n = Some b').
  { unfold s1. simpl. rewrite addx_lookup, Hb'. simpl. by rewrite decide_False by done. }
  rewrite (bind_eq _ _ _ _ _ (getN_eq _ _ _ Hb1)).
  rewrite (bind_eq _ _ _ _ _ (assert_eq _ s1 (proj2 (Z.ltb_lt _ _) Hbx'))).
  rewrite (bind_eq _ _ _ _ _ (xref_dec_eq _ _ _ Hb1)).
  set (s2 := set_s_heap (addx (-1) (n_hi n) (s_heap s1)) s1).
  rewrite (bind_eq get _ s2 s2 s2 eq_refl).
  assert (Hp2 : s_heap s2 !! p = Some p').
  { unfold s2. simpl. rewrite addx_lookup. unfold s1 in Hp1. simpl in Hp1. rewrite Hp1. simpl. by rewrite decide_False by done. }
  unfold modN. unfold bind at 1. rewrite (bind_eq _ _ _ _ _ (getN_eq _ _ _ Hp2)). unfold set_heap, set_nc.
  eexists. split; [reflexivity|]. simpl. split; [|done].
  constructor; simpl.
  - intros q m Hq HqF. assert (q <> p) by set_solver. assert (HqF' : q ∉ F) by set_solver.
    rewrite lookup_insert_ne by done. destruct (r_node _ _ HR _ _ Hq HqF') as (q'&Hq'&Hcq&Hqx).
    rewrite !addx_lookup, Hq'. simpl. eexists. split; [done|].
    rewrite (refs_live_add F p n) in Hqx by done. unfold arcs in Hqx.
    repeat case_decide; simpl; split; try done; try (rewrite Hqx; lia); try congruence.
  - rewrite size_union by set_solver. rewrite size_singleton. pose proof (r_total _ _ HR) as Htot.
    assert (Hle : (size ({[p]} ∪ F) <= size h)%nat).
    { rewrite <- (size_dom (D := gset N)). apply subseteq_size. apply union_subseteq. split; [|apply HR].
      apply singleton_subseteq_l. by apply elem_of_dom_2 in Hp. }
    rewrite size_union, size_singleton in Hle by set_solver. lia.
  - apply union_subseteq. split; [|apply HR]. apply singleton_subseteq_l. by apply elem_of_dom_2 in Hp.
Qed.

(** in an ordered heap, children have larger variables *)
Lemma child_var p n q m : h !! p = Some n -> ~ sink p -> n_lo n = q \/ n_hi n = q -> h !! q = Some m -> ~ sink q ->
  n_idx n < n_idx m.
Proof.
  intros Hp Hs Hc Hq Hsq. destruct (ho_node _ _ _ (i_heap _ _ _ HI) p n Hp Hs) as (_&_&_&t&Ht).
  pose proof (ho_ord _ _ _ (i_heap _ _ _ HI) Hord _ _ Ht) as Ho.
  destruct (repr_nonsink _ _ _ Ht Hs) as (n'&tl&th&Hn'&->&Htl&Hth). assert (n' = n) as -> by congruence.
  simpl in Ho. destruct Ho as (_&Hol&Hoh).
  destruct Hc as [<-|<-].
  - destruct (repr_nonsink _ _ _ Htl Hsq) as (m'&?&?&Hm'&->&_). assert (m' = m) as -> by congruence. simpl in Hol. lia.
  - destruct (repr_nonsink _ _ _ Hth Hsq) as (m'&?&?&Hm'&->&_). assert (m' = m) as -> by congruence. simpl in Hoh. lia.
Qed.

(** inner nodes with a variable below [v] *)
Definition below (v : N) (F : gset N) : Prop := forall q m, h !! q = Some m -> ~ sink q -> n_idx m < v -> q ∈ F.
Definition upto (v : N) (F : gset N) : Prop := forall q, q ∈ F -> ~ sink q /\ exists m, h !! q = Some m /\ n_idx m <= v.

Lemma release_loop_rel v l : forall F s', Rel F s' -> below v F -> upto v F ->
  (forall p, p ∈ l -> p <> 0 -> var_nodes h v p /\ p ∉ F) -> NoDup (filter (fun p => p <> 0) l) ->
  exists F' s'', release_loop l s' = Ok tt s'' /\ Rel F' s'' /\ s_vars s'' = s_vars s' /\ F ⊆ F' /\ upto v F' /\
    forall p, p ∈ l -> p <> 0 -> p ∈ F'.
Proof.
  induction l as [|p l IH]; intros F s' HR Hb Hu Hl Hnd.
  - exists F, s'. split_and!; auto. intros p Hp. by apply elem_of_nil in Hp.
  - cbn [release_loop]. destruct (N.eqb_spec p 0) as [->|Hp0].
    + rewrite (bind_eq (ret tt) _ s' tt s' eq_refl).
      rewrite filter_cons_False in Hnd by auto.
      destruct (IH F s' HR Hb Hu) as (F'&s''&Hr&HR'&Hv&Hsub&Hu'&Hin); auto.
      { intros q Hq. apply Hl. by right. }
      exists F', s''. split_and!; auto. intros q [->|Hq]%elem_of_cons Hq0; [done|auto].
    + rewrite filter_cons_True in Hnd by auto. apply NoDup_cons in Hnd as [Hpn Hnd].
      destruct (Hl p) as [[Hsp (n&Hn&Hi)] HpF]; [by left|done|].
      assert (Hchild : forall q, n_lo n = q \/ n_hi n = q -> q ∉ F).
      { intros q Hq HqF. destruct (Hu q HqF) as (Hsq&m&Hm&Hmv).
        pose proof (child_var p n q m Hn Hsp Hq Hm Hsq). lia. }
      destruct (free_node_rel F s' p n HR Hn HpF Hsp) as (s1&Hf&HR1&Hv1); auto.
      { intros q m Hm Hsq Hc. apply (Hb q m Hm Hsq). pose proof (child_var q m p n Hm Hsq Hc Hn Hsp). lia. }
      rewrite (bind_eq _ _ _ _ _ Hf).
      destruct (IH ({[p]} ∪ F) s1 HR1) as (F'&s''&Hr&HR'&Hv&Hsub&Hu'&Hin); auto.
      { intros q m Hm Hsq Hlt. apply elem_of_union. right. by eapply Hb. }
      { intros q [->%elem_of_singleton|Hq]%elem_of_union; [|by apply Hu]. split; [done|]. exists n. split; [done|lia]. }
      { intros q Hq Hq0. destruct (Hl q) as [Hvn HqF]; [by right|done|]. split; [done|].
        intros [->%elem_of_singleton|?]%elem_of_union; [|done]. apply Hpn. by apply elem_of_list_filter. }
      exists F', s''. split_and!; auto; [congruence|set_solver|].
      intros q [->|Hq]%elem_of_cons Hq0; [|by apply Hin]. apply Hsub. set_solver.
Qed.

Lemma NoDup_filter_inj (l : list N) : (forall i j p, p <> 0 -> l !! i = Some p -> l !! j = Some p -> i = j) -> NoDup (filter (fun p => p <> 0) l).
Proof.
  induction l as [|x l IH]; intros Hinj; [constructor|].
  assert (IH' : NoDup (filter (fun p => p <> 0) l)).
  { apply IH. intros i j p Hp Hi Hj. assert (S i = S j) as Hs; [|by injection Hs]. by apply (Hinj _ _ p). }
  destruct (decide (x <> 0)) as [Hx|Hx].
  - rewrite filter_cons_True by done. apply NoDup_cons. split; [|done]. intros Hin%elem_of_list_filter.
    destruct Hin as [_ Hin]. apply elem_of_list_lookup in Hin as [j Hj]. by assert (0%nat = S j) by (by apply (Hinj _ _ x)).
  - by rewrite filter_cons_False by done.
Qed.

(** an emptied table *)
Definition tclean (t : vtab) : Prop := exists k l, vt_mask t = N.ones k /\ 6 <= k <= 19 /\ cells t = inr l /\ Forall (fun p => p = 0) l.
Lemma release_nodes_rel v F s' : Rel F s' -> below (N.of_nat v) F -> (forall q, q ∈ F -> ~ sink q /\ exists m, h !! q = Some m /\ n_idx m < N.of_nat v) ->
  s_vars s' !! v = s_vars s !! v -> (v < length (s_vars s))%nat ->
  exists F' s'', release_nodes (N.of_nat v) s' = Ok tt s'' /\ Rel F' s'' /\ upto (N.of_nat v) F' /\ below (N.of_nat (S v)) F' /\
   length (s_vars s'') = length (s_vars s') /\ (exists t, s_vars s'' !! v = Some t /\ tclean t) /\
   forall w, (w <> v)%nat -> s_vars s'' !! w = s_vars s' !! w.
Proof.
  intros HR Hb Hu Hv Hlt. destruct (lookup_lt_is_Some_2 (s_vars s) v Hlt) as [t Ht]. rewrite Ht in Hv.
  destruct (i_tab _ _ _ HI _ _ Ht) as (k&Hs&Hk&HT&Hf&Hused&Hcap&Hlow&Hmx).
  unfold release_nodes. assert (Hv' : s_vars s' !! N.to_nat (N.of_nat v) = Some t) by (by rewrite Nat2N.id).
  rewrite (bind_eq _ _ _ _ _ (getV_eq _ _ _ Hv')). cbv zeta.
  rewrite (bind_eq _ _ _ _ _ (liftR_eq _ _ s' (cells_shape k t Hs))).
  set (l := take (tsize k) (pg_slots (vt_page t))).
  destruct (release_loop_rel (N.of_nat v) l F s' HR Hb) as (F'&s''&Hr&HR'&Hvs&Hsub&Hu'&Hin).
  - intros q Hq. destruct (Hu q Hq) as (?&m&?&?). split; [done|]. exists m. split; [done|lia].
  - intros p Hp Hp0. apply elem_of_list_lookup in Hp as [i Hi]. apply lookup_take_Some in Hi as [Hi Hil].
    pose proof (pt_in _ _ _ _ HT i p Hil Hi Hp0) as Hvn. split; [done|]. intros HF.
    destruct (Hu p HF) as (_&m&Hm&Hlt'). destruct Hvn as (_&m'&Hm'&Hi'). assert (m' = m) as -> by congruence. lia.
  - apply NoDup_filter_inj. intros i j p Hp0 Hi Hj. apply lookup_take_Some in Hi as [Hi Hil]. apply lookup_take_Some in Hj as [Hj Hjl].
    by apply (pt_inj _ _ _ _ HT i j p).
  - rewrite (bind_eq _ _ _ _ _ Hr). eexists F', _. split; [reflexivity|]. simpl. rewrite insert_length, Hvs, Nat2N.id.
    split_and!; auto.
    + destruct HR'. by constructor.
    + intros q m Hq Hsq Hlt'. destruct (decide (n_idx m < N.of_nat v)) as [Hl|Hge]; [by apply Hsub, (Hb q m)|].
      assert (Hvn : var_nodes h (N.of_nat v) q) by (split; [done|]; exists m; split; [done|lia]).
      destruct (pt_all _ _ _ _ HT q Hvn) as [Hq0 (i&Hil&Hi)]. apply Hin; [|done].
      apply elem_of_list_lookup. exists i. by apply lookup_take_Some.
    + eexists. split; [apply list_lookup_insert; by eapply lookup_lt_Some|].
      destruct Hs as (Hm&Hk6&Hlen). exists k, (repeat 0 (tsize k)). split_and!; [done|lia|lia| |].
      * unfold cells, vt_size. cbn [with_page vt_mask vt_page pg_slots]. fold (vt_size t). rewrite (vt_size_shape k) by done.
        rewrite app_length, repeat_length. destruct (Nat.leb_spec (tsize k) (tsize k + length (drop (tsize k) (pg_slots (vt_page t))))) as [_|]; [|lia].
        rewrite take_app_le by (rewrite repeat_length; lia). by rewrite take_ge by (rewrite repeat_length; lia).
      * apply Forall_forall. intros x [i Hi]%elem_of_list_lookup. by apply repeat_lookup_0 in Hi.
    + intros w Hw. by rewrite list_lookup_insert_ne.
Qed.

Lemma release_all_rel vs : forall v F s', vs = seq v (length (s_vars s) - v) -> (v <= length (s_vars s))%nat -> Rel F s' ->
  below (N.of_nat v) F -> (forall q, q ∈ F -> ~ sink q /\ exists m, h !! q = Some m /\ n_idx m < N.of_nat v) ->
  (forall w, (v <= w)%nat -> s_vars s' !! w = s_vars s !! w) ->
  (forall w, (w < v)%nat -> exists t, s_vars s' !! w = Some t /\ tclean t) ->
  exists F' s'', release_all vs s' = Ok tt s'' /\ Rel F' s'' /\ (forall q, q ∈ F' <-> q ∈ dom h /\ ~ sink q) /\
    forall w, (w < length (s_vars s))%nat -> exists t, s_vars s'' !! w = Some t /\ tclean t.
Proof.
  induction vs as [|v0 vs IH]; intros v F s' Hvs Hle HR Hb Hu Hvars Hcl.
  - exists F, s'. split_and!; auto.
    2:{ intros w Hw. apply Hcl. destruct (length (s_vars s) - v)%nat eqn:Hd; [lia|]. by rewrite <- cons_seq in Hvs. }
    intros q. split.
    + intros HF. destruct (Hu q HF) as (?&m&?&_). split; [apply elem_of_dom; eauto|done].
    + intros [[m Hm]%elem_of_dom Hs]. apply (Hb q m); auto. destruct (ho_node _ _ _ (i_heap _ _ _ HI) q m Hm Hs) as (Hlt&_).
      assert (length (s_vars s) = v) as <-; [|done].
      destruct (length (s_vars s) - v)%nat eqn:Hd; [lia|]. by rewrite <- cons_seq in Hvs.
  - destruct (length (s_vars s) - v)%nat as [|d] eqn:Hd; [done|]. rewrite <- cons_seq in Hvs. injection Hvs as -> Hvs.
    destruct (release_nodes_rel v F s' HR Hb Hu) as (F1&s1&Hr&HR1&Hu1&Hb1&Hlen&Hclv&Hoth); [by apply Hvars|lia|].
    cbn [release_all]. rewrite (bind_eq _ _ _ _ _ Hr).
    apply (IH (S v) F1 s1); auto.
    + rewrite Hvs. f_equal. lia.
    + lia.
    + intros q Hq. destruct (Hu1 q Hq) as (?&m&?&?). split; [done|]. exists m. split; [done|lia].
    + intros w Hw. rewrite Hoth by lia. apply Hvars. lia.
    + intros w Hw. destruct (decide (w = v)) as [->|Hne]; [done|]. rewrite Hoth by done. apply Hcl. lia.
Qed.

Lemma destroy_vars_spec vs : forall s', (forall w, w ∈ vs -> exists t, s_vars s' !! w = Some t /\ tclean t) ->
  exists s'', destroy_vars vs s' = Ok tt s'' /\ s_heap s'' = s_heap s' /\ s_nc s'' = s_nc s'.
Proof.
  induction vs as [|v vs IH]; intros s' Hcl; [by exists s'|].
  destruct (Hcl v) as (t&Ht&k&l&Hm&Hk&Hl&Hz); [by left|]. cbn [destroy_vars].
  assert (Hd : exists pcs', var_destroy (N.of_nat v) s' = Ok tt (set_s_pcs pcs' s')).
  { unfold var_destroy. rewrite (bind_eq _ _ _ _ _ (getV_eq s' (N.of_nat v) t ltac:(by rewrite Nat2N.id))).
    assert (Ha : (if 63 <=? vt_mask t then assertM (let* l := liftR (cells t) in ret (forallb (fun p => p =? 0) l)) else ret tt) s' = Ok tt s').
    { destruct (63 <=? vt_mask t); [|done]. unfold assertM. destruct e_ndebug eqn:Hnd; [done|]. unfold bind at 1.
      rewrite (bind_eq _ _ _ _ _ (liftR_eq _ _ s' Hl)). unfold ret. apply assert_eq. apply forallb_forall.
      intros x Hx. apply N.eqb_eq. rewrite Forall_forall in Hz. by apply Hz, elem_of_list_In. }
    rewrite (bind_eq _ _ _ _ _ Ha), Hm. unfold free_page.
    assert (free_page_class (N.ones k) = Some (2 ^ k)) as ->; [|by eexists].
    assert (Hcs := k_cases k Hk). rewrite !elem_of_cons in Hcs.
    repeat destruct Hcs as [-> |Hcs]; try lia; try (vm_compute; reflexivity). by apply elem_of_nil in Hcs. }
  destruct Hd as [pcs' Hd]. rewrite (bind_eq _ _ _ _ _ Hd).
  destruct (IH (set_s_pcs pcs' s')) as (s''&Hs&Hh&Hn); [|by exists s''].
  intros w Hw. apply Hcl. by right.
Qed.

(** all inner nodes are returned, exactly once, and no assert fails *)
Lemma mgr_destroy_spec : exists s', mgr_destroy s = Ok tt s' /\ mgr_nr_nodes s' = 2.
Proof.
  unfold mgr_destroy. rewrite (bind_eq get _ s s s eq_refl).
  destruct (release_all_rel (seq 0 (length (s_vars s))) 0 ∅ s) as (F&s'&Hr&HR&HF&Hcl).
  - f_equal. lia.
  - lia.
  - apply rel_init.
  - intros q m _ _ Hlt. lia.
  - intros q Hq. set_solver.
  - done.
  - intros w Hw. lia.
  - rewrite (bind_eq _ _ _ _ _ Hr). destruct (destroy_vars_spec (seq 0 (length (s_vars s))) s') as (s''&Hdv&_&Hnc).
    { intros w Hw%elem_of_seq. apply Hcl. lia. }
    exists s''. split; [done|]. unfold mgr_nr_nodes. rewrite Hnc. fold (mgr_nr_nodes s'). unfold mgr_nr_nodes. pose proof (r_total _ _ HR) as Htot.
    assert (Hd : dom h = {[botsink; topsink]} ∪ F).
    { apply set_eq. intros q. rewrite elem_of_union, HF, elem_of_union, !elem_of_singleton.
      destruct (inv_sinks _ _ _ HI) as (a&b&Ha&Hb&_). split.
      - intros Hq. destruct (decide (sink q)) as [Hs|Hs]; [left; exact Hs|auto].
      - intros [[-> | ->]|[? _]]; auto; apply elem_of_dom; eauto. }
    assert (Hsz : size h = (2 + size F)%nat).
    { rewrite <- (size_dom (D := gset N)), Hd. rewrite size_union.
      - f_equal. rewrite size_union, !size_singleton; [done|]. intros x ->%elem_of_singleton. rewrite elem_of_singleton. apply bot_neq_top.
      - intros x Hx HxF. apply HF in HxF as [_ Hs]. apply Hs. rewrite elem_of_union, !elem_of_singleton in Hx. exact Hx. }
    lia.
Qed.
End destroy.
