(** * PropsGc.v -- garbage collection (C28).  One collection after a history without
    collections; what goes wrong afterwards is in Refute.v (C29-C32). *)
From Verif Require Export PropsState2 Gc.
Open Scope N_scope.

Section gcprops.
Context {E : Env} (HE : env_ok E).

Definition same_res {A} (r r' : res A) : Prop :=
  match r, r' with Ok a _, Ok b _ => a = b | Fail e _, Fail e' _ => e = e' | _, _ => False end.

Section one.
Context (md : mode) (H : ptr -> Z) (s : mstate) (HI : Inv md H s) (F : gset N) (s' : mstate) (HR : GRel H s F s').

Lemma grel_getN p : p ∉ F -> s_heap s !! p = None /\ s_heap s' !! p = None \/
  exists n n', s_heap s !! p = Some n /\ s_heap s' !! p = Some n' /\ same_core n n'.
Proof.
  intros HF. destruct (s_heap s !! p) as [n|] eqn:Hp.
  - right. destruct (g_node _ _ _ _ HR p n Hp HF) as (n'&?&?&?). eauto.
  - left. split; [done|]. apply not_elem_of_dom. rewrite (g_dom _ _ _ _ HR). by apply not_elem_of_dom.
Qed.
Lemma grel_child p n : s_heap s !! p = Some n -> ~ sink p -> p ∉ F -> n_lo n ∉ F /\ n_hi n ∉ F.
Proof. intros Hp Hs HF. split; intros Hc; apply HF; [apply (g_par _ _ _ _ HR p n (n_lo n))|apply (g_par _ _ _ _ HR p n (n_hi n))]; auto. Qed.

Lemma evaluate_grel fuel x : forall p, p ∉ F -> same_res (evaluate_fuel fuel p x s) (evaluate_fuel fuel p x s').
Proof.
  induction fuel as [|fuel IH]; intros p HF; [done|]. cbn [evaluate_fuel].
  unfold is_botsink, is_topsink, assert_, getN, bind, liftR, ret.
  destruct (grel_getN p HF) as [[Hp Hp']|(n&n'&Hp&Hp'&Hl&Hh&Hi&_&_)]; rewrite Hp, Hp'; [done|].
  rewrite <- Hl, <- Hh, <- Hi. destruct (assertR _) as [e|]; [done|].
  destruct (N.eqb_spec (n_idx n) botsink_index) as [|Hnb]; [done|]. rewrite Hp, Hp', <- Hl, <- Hh, <- Hi. destruct (assertR _) as [e|]; [done|].
  destruct (N.eqb_spec (n_idx n) topsink_index) as [|Hnt]; [done|]. rewrite Hp, Hp', <- Hi. destruct (assertR _) as [e|]; [done|].
  assert (Hs : ~ sink p).
  { intros Hs. apply (sink_not_node _ _ _ p n (i_heap _ _ _ HI) (i_nv _ _ _ HI) Hp) in Hs. tauto. }
  destruct (grel_child p n Hp Hs HF) as [Hcl Hch].
  rewrite <- Hl, <- Hh. destruct (x !! N.to_nat (n_idx n)) as [[]|]; [by apply IH|by apply IH|done].
Qed.
End one.

Lemma hcount_F md w i p F s' : WInv md w -> GRel (hcount (w_h w)) (w_s w) F s' -> hnd w i = Some p -> p ∉ F.
Proof.
  intros HW HR Hp HF. destruct (g_F _ _ _ _ HR p HF) as (_&[n Hn]%elem_of_dom&H0).
  pose proof (inv_addr HE _ _ _ _ _ HW Hn). apply hnd_lookup in Hp. pose proof (hcount_pos _ _ _ Hp ltac:(lia)). lia.
Qed.

(** what collect_garbage does to a client: if it returns, every handle keeps its address and
    its values, and nr_nodes() has not grown.  If it does not return, it loops forever, or
    some variable labels more than 32 nodes (so that its table may be shrunk) *)
Theorem C28_gc_keeps md w fuel : md_ord md = true -> reach md w ->
  match step (OGc fuel) w with
  | WOk _ w' => keeps w w' /\ w_h w' = w_h w /\ nr_variables (w_s w') = nr_variables (w_s w) /\ mgr_nr_nodes (w_s w') <= mgr_nr_nodes (w_s w)
  | WFail ELoop _ => True
  | WFail EThrow _ => False
  | WFail _ _ => exists v, (32 < size (nodes_of (s_heap (w_s w)) v))%nat
  end.
Proof.
  intros Ho HR. pose proof (reach_inv HE _ _ HR) as HW.
  pose proof (collect_garbage_spec md _ _ HW Ho fuel) as Hg. unfold gsat in Hg. cbn [step]. unfold query.
  destruct (collect_garbage fuel (w_s w)) as [[] s'|[] s']; try done.
  destruct Hg as (F&s1&HG&Hh&Hn&Hv). split_and!; [|done|unfold nr_variables; cbn [w_s]; by rewrite Hv, (g_nv _ _ _ _ HG)|].
  - intros k p Hp. split; [done|]. intros x. pose proof (hcount_F _ _ _ _ _ _ HW HG Hp) as HF.
    unfold val. cbn [step]. unfold with1. assert (hnd (W s' (w_h w)) k = Some p) as -> by done. rewrite Hp. unfold query. cbn [w_s w_h].
    unfold evaluate, with_fuel.
    assert (Hhe : forall fu p, match evaluate_fuel fu p x s' with Ok a _ => Some a | Fail _ _ => None end =
                               match evaluate_fuel fu p x s1 with Ok a _ => Some a | Fail _ _ => None end).
    { intros fu. induction fu as [|fu IH]; intros q; [done|]. cbn [evaluate_fuel].
      unfold is_botsink, is_topsink, assert_, getN, bind, liftR, ret. rewrite Hh.
      destruct (s_heap s1 !! q) as [n|] eqn:Hq; [|done]. destruct (assertR _) as [e|]; [done|].
      destruct (n_idx n =? botsink_index); [done|]. rewrite Hh, Hq. destruct (assertR _) as [e|]; [done|].
      destruct (n_idx n =? topsink_index); [done|]. rewrite Hh, Hq. destruct (assertR _) as [e|]; [done|].
      destruct (x !! N.to_nat (n_idx n)) as [[]|]; auto. }
    assert (fuel_of s' = fuel_of (w_s w)) as ->.
    { unfold fuel_of. rewrite Hh. rewrite <- !(size_dom (D := gset N)). by rewrite (g_dom _ _ _ _ HG). }
    pose proof (evaluate_grel md _ _ HW F s1 HG (fuel_of (w_s w)) x p HF) as Hs. specialize (Hhe (fuel_of (w_s w)) p).
    unfold same_res in Hs.
    destruct (evaluate_fuel _ _ _ s') as [a ?|? ?], (evaluate_fuel _ _ _ s1) as [b ?|? ?], (evaluate_fuel _ _ _ (w_s w)) as [c ?|? ?]; try done; congruence.
  - unfold mgr_nr_nodes. cbn [w_s]. rewrite Hn. pose proof (g_total _ _ _ _ HG). destruct (i_nc _ _ _ HW) as (_&_&_&_&->&_). lia.
Qed.

(** every node of a handle's diagram keeps its variable and its children *)
Theorem C28_gc_structure md w fuel out w' i p q n : md_ord md = true -> reach md w -> step (OGc fuel) w = WOk out w' ->
  hnd w i = Some p -> subnode (w_s w) p q -> s_heap (w_s w) !! q = Some n ->
  exists n', s_heap (w_s w') !! q = Some n' /\ n_idx n' = n_idx n /\ n_lo n' = n_lo n /\ n_hi n' = n_hi n.
Proof.
  intros Ho HR Hs Hp Hq Hn. pose proof (reach_inv HE _ _ HR) as HW.
  pose proof (collect_garbage_spec md _ _ HW Ho fuel) as Hg. unfold gsat in Hg. cbn [step] in Hs. unfold query in Hs.
  destruct (collect_garbage fuel (w_s w)) as [[] s'|[] s']; try done. injection Hs as _ <-. cbn [w_s].
  destruct Hg as (F&s1&HG&Hh&_&_). rewrite Hh. pose proof (hcount_F _ _ _ _ _ _ HW HG Hp) as HF. clear Hp i.
  assert (Hqf : q ∉ F).
  { induction Hq as [|p m q Hb Ht Hm Hq IH|p m q Hb Ht Hm Hq IH]; [done| |].
    - apply IH; [done|]. apply (grel_child _ _ F s1 HG p m Hm); [|done]. by intros [? | ?].
    - apply IH; [done|]. apply (grel_child _ _ F s1 HG p m Hm); [|done]. by intros [? | ?]. }
  destruct (g_node _ _ _ _ HG q n Hn Hqf) as (n'&Hn'&(?&?&?&_)&_). by exists n'.
Qed.

(** ** no garbage: collect_garbage changes nothing *)
Lemma rdn_outer_id s t k : vt_shape k t -> (forall i p, (i < tsize k)%nat -> pg_slots (vt_page t) !! i = Some p -> p <> 0 ->
    exists n, s_heap s !! p = Some n /\ (0 < n_xref n)%Z) ->
  forall d j fuel, (N.to_nat j + d)%nat = tsize k -> (d < fuel)%nat -> rdn_outer fuel t j s = Ok t s.
Proof.
  intros Hsh Hl. pose proof Hsh as (Hm&H6&Hlen). induction d as [|d IH]; intros j [|fuel] Hj Hf; try lia; cbn [rdn_outer].
  - assert (j <? vt_size t = false) as ->; [|done]. apply N.ltb_ge. pose proof (vt_size_shape k t Hm). lia.
  - assert (j <? vt_size t = true) as ->. { apply N.ltb_lt. pose proof (vt_size_shape k t Hm). lia. }
    assert (Hlj : N.land j (N.ones k) = j).
    { rewrite N.land_ones. apply N.mod_small. unfold tsize in *. lia. }
    destruct (fetch_node_eq k t j Hsh) as (p&Hp&Hfe). rewrite Hlj in Hfe.
    rewrite (bind_eq _ _ _ _ _ (liftR_eq _ _ s Hfe)). destruct (N.eqb_spec p 0) as [->|Hp0].
    + rewrite (bind_eq (ret false) _ s false s eq_refl). apply IH; lia.
    + destruct (Hl _ _ (pos_lt k j) Hp Hp0) as (n&Hn&Hx).
      assert (Hd : dead p s = Ok false s).
      { unfold dead. rewrite (bind_eq _ _ _ _ _ (getN_eq _ _ _ Hn)). unfold ret. f_equal. apply Z.leb_gt. lia. }
      rewrite (bind_eq _ _ _ _ _ Hd). apply IH; lia.
Qed.

Theorem C28_no_garbage md w : reach md w ->
  (forall p n, inner p -> s_heap (w_s w) !! p = Some n -> (0 < hcount (w_h w) p + Z.of_nat (arcs_into (s_heap (w_s w)) p))%Z) ->
  exists fuel0, forall fuel, (fuel0 <= fuel)%nat -> step (OGc fuel) w = WOk OutU w.
Proof.
  intros HR Hlive. pose proof (reach_inv HE _ _ HR) as HW.
  exists (S (N.to_nat (2 ^ 19))). intros fuel Hfuel. cbn [step]. unfold query, collect_garbage.
  set (s := w_s w) in *. rewrite (bind_eq get _ s s s eq_refl).
  assert (Hx : forall p n, ~ sink p -> s_heap s !! p = Some n -> (0 < n_xref n)%Z).
  { intros p n Hs Hn. rewrite (i_xref _ _ _ HW p n Hn), decide_False, refs_arcs by done.
    specialize (Hlive p n). rewrite Z.add_0_r. apply Hlive; [|done]. split; intros ->; apply Hs; [by left|by right]. }
  assert (Hgv : forall vs, (forall v, v ∈ vs -> (v < length (s_vars s))%nat) -> gc_vars fuel vs s = Ok tt s).
  { induction vs as [|v vs IH]; intros Hvs; [done|]. cbn [gc_vars].
    assert (Hr : remove_dead_nodes fuel (N.of_nat v) s = Ok tt s).
    { destruct (lookup_lt_is_Some_2 (s_vars s) v) as [t Ht]; [apply Hvs; by left|].
      destruct (i_tab _ _ _ HW _ _ Ht) as (k&Hsh&Hk&HT&Hf&Hused&Hcap&Hlow&Hmx). pose proof Hsh as (Hm&H6&Hlen).
      unfold remove_dead_nodes. assert (Ht' : s_vars s !! N.to_nat (N.of_nat v) = Some t) by (by rewrite Nat2N.id).
      rewrite (bind_eq _ _ _ _ _ (getV_eq _ _ _ Ht')).
      assert (Hts : (tsize k <= N.to_nat (2 ^ 19))%nat).
      { unfold tsize. pose proof (N.pow_le_mono_r 2 k 19 ltac:(lia) Hk). lia. }
      assert (Ho : rdn_outer fuel t 0 s = Ok t s).
      { apply (rdn_outer_id s t k Hsh) with (d := tsize k); [|done|lia].
        intros i p Hi Hp Hp0. destruct (pt_in _ _ _ _ HT i p Hi Hp Hp0) as (Hsp&n&Hn&_). eauto. }
      rewrite (bind_eq _ _ _ _ _ Ho). unfold setV, set_vars at 1.
      assert (Heq : MState (s_heap s) (s_nc s) (s_pcs s) (s_memo s) (<[N.to_nat (N.of_nat v) := t]> (s_vars s)) (s_rnd s) = s).
      { rewrite list_insert_id by done. by destruct s. }
      unfold bind at 1. rewrite Heq.
      assert ((63 <? vt_mask t) && (8 * sub64 (vt_size t) (vt_free t) <=? vt_size t) = false) as ->; [|done].
      destruct (decide (k = 6)) as [->|Hk6]; [by rewrite Hm|]. apply andb_false_iff. right. apply N.leb_gt.
      specialize (Hlow ltac:(lia)). pose proof (vt_size_shape k t Hm) as Hvz. pose proof (zeros_le k (pg_slots (vt_page t))) as Hz.
      rewrite sub64_sub; [rewrite Hf; lia|rewrite Hf; lia|].
      change (2 ^ 19) with 524288 in Hts. unfold two64. lia. }
    rewrite (bind_eq _ _ _ _ _ Hr). apply IH. intros u Hu. apply Hvs. by right. }
  assert (Hall : forall v, v ∈ seq 0 (length (s_vars s)) -> (v < length (s_vars s))%nat) by (intros v Hv%elem_of_seq; lia).
  rewrite (bind_eq _ _ _ _ _ (Hgv _ Hall)).
  unfold purge. rewrite (bind_eq get _ s s s eq_refl).
  assert (Hp : forall l, (forall m, m ∈ l -> m_r m <> 0 -> entry_ok md (length (s_vars s)) (s_heap s) m) -> purge_tab (s_heap s) l = inr l).
  { induction l as [|m l IH]; intros Hl; [done|]. cbn [purge_tab].
    assert (can_be_purged (s_heap s) m = inr (m_r m =? 0)) as ->.
    { unfold can_be_purged. destruct (N.eqb_spec (m_r m) 0) as [|Hr0]; [done|].
      destruct (Hl m) as (tf&tg&tr&Hf&Hg&Hr&_); [by left|done|].
      assert (Hd : forall p t, repr (s_heap s) p t -> exists n, derefR (s_heap s) p = inr n /\ (n_xref n <? 0)%Z = false).
      { intros p t Ht. destruct (repr_in _ _ _ _ _ (i_heap _ _ _ HW) Ht) as [n Hn]. fold s in Hn. exists n. unfold derefR. rewrite Hn. split; [done|].
        apply Z.ltb_ge. by eapply inv_xref_nonneg. }
      destruct (Hd _ _ Hr) as (nr&->&Hxr). cbn [bindR]. rewrite Hxr.
      destruct (Hd _ _ Hf) as (nf&->&Hxf). cbn [bindR]. rewrite Hxf.
      destruct (m_h m =? 0); [done|]. destruct (Hd _ _ Hg) as (ng&->&Hxg). cbn [bindR]. by rewrite Hxg. }
    cbn [bindR]. rewrite IH by (intros m' Hm'; apply Hl; by right). cbn [bindR]. f_equal. f_equal.
    destruct (N.eqb_spec (m_r m) 0) as [Hm0|]; [|done]. destruct m. simpl in *. by rewrite Hm0. }
  rewrite (bind_eq _ _ _ _ _ (liftR_eq _ _ s (Hp _ (proj2 (i_memo _ _ _ HW))))). unfold set_memo.
  unfold s. by destruct w as [[? ? ? [] ? ?] ?].
Qed.
End gcprops.
