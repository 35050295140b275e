(** * PropsColl5.v -- rerouting arcs of stored BDDs (C65) *)
From Verif Require Export CollModel2 PropsColl4.
Open Scope N_scope.

(** ** Specification *)
(** following lo()/hi() by variable() from node [n] along [x] comes to node [m] *)
Inductive node_path {E : Env} (c : coll) (x : list bool) : cnode -> cnode -> Prop :=
| np_here n : node_path c x n n
| np_step n v z m k : cn_is_terminal c n = inr false -> cn_variable c n = inr v -> x !! N.to_nat v = Some z ->
    (if z : bool then cn_hi c n else cn_lo c n) = inr m -> node_path c x m k -> node_path c x n k.
(** the other BDDs of [c] keep their values *)
Definition others_keep {E : Env} (c c' : coll) (nr : N) : Prop :=
  nr_bdds c' = nr_bdds c /\ forall nr' x, nr' < nr_bdds c -> nr' <> nr -> cval c' nr' x = cval c nr' x.
(** set_{lo,hi}_to_{0,1}_terminal; botsink / topsink of an entry *)
Definition set_to {E : Env} (z d : bool) := if z then if d then cn_set_hi_to_1 else cn_set_hi_to_0 else if d then cn_set_lo_to_1 else cn_set_lo_to_0.
Definition entry_sink {E : Env} (d : bool) := if d then entry_topsink else entry_botsink.
Definition cn_is_sink {E : Env} (d : bool) := if d then cn_is_topsink else cn_is_botsink.

Section reroute.
Context {E : Env} (HE : env_ok E).

(** ** Rerouting one arc *)
Lemma cwalk_ge c a b x i j : fwd (c_ins c) a b -> (forall k e, a <= k < b -> ix (c_ins c) k = Some e -> i_lo e <> i_hi e -> i_idx e < cbot) ->
  cwalk c x i j -> a <= i < b -> i <= j < b.
Proof.
  intros HF Ht H. induction H as [i|i j e z Hi Hne Hz H IH]; intros Hr; [lia|].
  destruct (proj2 HF i e Hr Hi (Ht _ _ Hr Hi Hne)). destruct z; lia.
Qed.
Section one.
Context (c : coll) (a b k j : N) (e : instr) (z : bool).
Hypothesis (Hg : seg (c_ins c) a b) (Hk : a <= k < b - 2) (He : ix (c_ins c) k = Some e) (Hj : k < j < b).
Let ins' := <[N.to_nat k := rerouted z j e]> (c_ins c).
Lemma rr_other i : i <> k -> ix ins' i = ix (c_ins c) i.
Proof. intros Hi. apply (list_lookup_insert_ne (c_ins c)). lia. Qed.
Lemma rr_here : ix ins' k = Some (rerouted z j e).
Proof. apply (list_lookup_insert (c_ins c)). by apply lookup_lt_Some in He. Qed.
Lemma rr_fwd : fwd ins' a b.
Proof.
  destruct (seg_fwd _ _ _ Hg) as [Hl HF]. split; [unfold ins'; by rewrite insert_length|]. intros i y Hi Hy Hv.
  destruct (decide (i = k)) as [->|Hne].
  - rewrite rr_here in Hy. injection Hy as <-. destruct (HF k e ltac:(lia) He) as [? ?]; [unfold rerouted in Hv; by destruct z|].
    unfold rerouted. destruct z; simpl; lia.
  - rewrite rr_other in Hy by done. by apply (HF i y).
Qed.
Lemma rr_keep x i v : cev (c_ins c) x i v -> a <= i < b -> ~ (cwalk c x i k /\ x !! N.to_nat (i_idx e) = Some z) -> cev ins' x i v.
Proof.
  intros H. induction H as [i y v Hi Hy|i y u v Hi Hlt Hu H IH]; intros Hr Hn.
  - assert (i <> k). { intros ->. rewrite He in Hi. injection Hi as <-. destruct (sg_node _ _ _ Hg k e Hk He) as (_&Hv&_). rewrite Hy in Hv. destruct v; unfold ctop, cbot in *; lia. }
    eapply cev_t; [by rewrite rr_other|done].
  - destruct (proj2 (seg_fwd _ _ _ Hg) i y Hr Hi Hlt) as [Hl Hh].
    assert (Hne : i_lo y <> i_hi y).
    { intros Heq. destruct (decide (i < b - 2)) as [Hb|Hb]; [by destruct (sg_node _ _ _ Hg i y ltac:(lia) Hi)|].
      destruct (seg_last _ _ _ Hg i y ltac:(lia) Hi) as [d [_ Hd]]. rewrite Hd in Hlt. destruct d; unfold ctop, cbot in *; lia. }
    destruct (decide (i = k)) as [->|Hik].
    + rewrite He in Hi. injection Hi as <-. assert (Huz : u <> z). { intros ->. apply Hn. split; [apply cw_here|done]. }
      eapply cev_n; [apply rr_here| | |].
      * unfold rerouted. by destruct z.
      * instantiate (1 := u). unfold rerouted. by destruct z.
      * assert ((if u then i_hi (rerouted z j e) else i_lo (rerouted z j e)) = (if u then i_hi e else i_lo e)) as -> by (unfold rerouted; destruct u, z; done).
        apply IH; [destruct u; lia|]. intros [Hw _]. apply (cwalk_ge c a b) in Hw; [|by apply seg_fwd| |destruct u; lia].
        { destruct u; lia. }
        intros m y Hm Hy Hy'. destruct (decide (m < b - 2)) as [Hb|Hb]; [destruct (sg_node _ _ _ Hg m y ltac:(lia) Hy) as (_&?&_); done|].
        destruct (seg_last _ _ _ Hg m y ltac:(lia) Hy) as [d [Hd _]]. done.
    + eapply cev_n; [by rewrite rr_other|done|done|]. apply IH; [destruct u; lia|]. intros [Hw Hz]. apply Hn. split; [|done]. by eapply cw_step.
Qed.
Lemma rr_above x i v : k < i < b -> cev (c_ins c) x i v -> cev ins' x i v.
Proof.
  intros Hi H. apply rr_keep; [done|lia|]. intros [Hw _]. apply (cwalk_ge c a b) in Hw; [lia|by apply seg_fwd| |lia].
  intros m y Hm Hy Hy'. destruct (decide (m < b - 2)) as [Hb|Hb]; [destruct (sg_node _ _ _ Hg m y ltac:(lia) Hy) as (_&?&_); done|].
  destruct (seg_last _ _ _ Hg m y ltac:(lia) Hy) as [d [Hd _]]. done.
Qed.
Lemma rr_hit x i v : cwalk c x i k -> a <= i < b -> x !! N.to_nat (i_idx e) = Some z -> cev (c_ins c) x j v -> cev ins' x i v.
Proof.
  intros Hw. remember k as k0 eqn:Hk0 in Hw. induction Hw as [i|i k0 y u Hi Hne Hu H IH]; intros Hr Hz Hv; subst.
  - destruct (sg_node _ _ _ Hg k e Hk He) as (_&Hve&_). eapply cev_n; [apply rr_here| | |].
    + unfold rerouted. by destruct z.
    + instantiate (1 := z). unfold rerouted. by destruct z.
    + assert ((if z then i_hi (rerouted z j e) else i_lo (rerouted z j e)) = j) as -> by (unfold rerouted; destruct z; done). by apply rr_above.
  - assert (i < b - 2 /\ i_idx y < cbot) as [Hib Hlt].
    { destruct (decide (i < b - 2)) as [Hb|Hb]; [destruct (sg_node _ _ _ Hg i y (conj (proj1 Hr) Hb) Hi) as (_&?&_); done|].
      destruct (seg_last _ _ _ Hg i y ltac:(clear -Hr Hb; lia) Hi) as [d [Hd _]]. done. }
    destruct (proj2 (seg_fwd _ _ _ Hg) i y Hr Hi Hlt) as [Hl Hh].
    destruct (decide (i = k)) as [->|Hik].
    { rewrite He in Hi. injection Hi as <-. eapply cev_n; [apply rr_here| | |].
      + unfold rerouted. by destruct z.
      + instantiate (1 := z). unfold rerouted. by destruct z.
      + assert ((if z then i_hi (rerouted z j e) else i_lo (rerouted z j e)) = j) as -> by (unfold rerouted; destruct z; done). by apply rr_above. }
    eapply cev_n; [by rewrite rr_other|done|done|]. apply IH; [done|destruct u; lia|done|done].
Qed.
End one.

(** ** From the node interface to indices *)
Lemma path_cwalk c nr a b x i m : CInv c -> cseg c nr a b -> node_path c x (i, nr) m -> a <= i < b -> cwalk c x i (fst m).
Proof.
  intros HI Hs H. remember (i, nr) as n eqn:Hn. revert i Hn. induction H as [n|n v z m k Ht Hv Hz Hc H IH]; intros i ->; intros Hi; [apply cw_here|].
  pose proof (inner_ix _ _ _ _ _ HI Hs Hi Ht) as Hib. pose proof (ci_seg _ HI _ _ _ Hs) as Hg. destruct (seg_ix _ _ _ Hg i) as [y Hy]; [lia|].
  destruct (cn_child_ok c nr a b i y HI Hs Hib Hy) as (H1&H2&H3&_). rewrite H1, H2 in Hc. rewrite H3 in Hv. injection Hv as <-.
  destruct (sg_node _ _ _ Hg i y Hib Hy) as (Hne&_&?&?).
  eapply cw_step; [exact Hy|done|exact Hz|]. destruct z; injection Hc as <-; apply (IH _ eq_refl); lia.
Qed.
Lemma cwalk_path c nr a b x i j : CInv c -> cseg c nr a b -> cwalk c x i j -> a <= i < b -> node_path c x (i, nr) (j, nr).
Proof.
  intros HI Hs H. induction H as [i|i j y z Hy Hne Hz H IH]; intros Hi; [apply np_here|]. pose proof (ci_seg _ HI _ _ _ Hs) as Hg.
  assert (Hib : a <= i < b - 2). { destruct (decide (i < b - 2)) as [?|Hb]; [lia|exfalso]. destruct (seg_last _ _ _ Hg i y) as [d [Hd _]]; [lia|done|done]. }
  destruct (cn_child_ok c nr a b i y HI Hs Hib Hy) as (H1&H2&H3&H4). destruct (sg_node _ _ _ Hg i y Hib Hy) as (_&_&?&?).
  eapply np_step; [exact H4|exact H3|exact Hz| |apply IH; destruct z; lia]. destruct z; done.
Qed.
Lemma node_eval_cev c nr a b x i d : CInv c -> cseg c nr a b -> cev (c_ins c) x i d -> a <= i < b -> node_eval c x (i, nr) d.
Proof.
  intros HI Hs H. pose proof (ci_seg _ HI _ _ _ Hs) as Hg. induction H as [i y d Hy Hd|i y z d Hy Hlt Hz H IH]; intros Hi.
  - apply ne_term; unfold cn_is_topsink, cn_is_botsink, cn_instr; simpl; rewrite (vecR_eq _ _ _ Hy); cbn [bindR]; unfold ci_is_top, ci_is_bot; rewrite Hd; by destruct d.
  - assert (Hib : a <= i < b - 2).
    { destruct (decide (i < b - 2)) as [?|Hb]; [lia|exfalso]. destruct (seg_last _ _ _ Hg i y) as [u [_ Hu]]; [lia|done|]. rewrite Hu in Hlt. destruct u; unfold ctop, cbot in Hlt; lia. }
    destruct (cn_child_ok c nr a b i y HI Hs Hib Hy) as (H1&H2&H3&H4). destruct (sg_node _ _ _ Hg i y Hib Hy) as (_&_&?&?).
    eapply ne_node; [exact H4|exact H3|exact Hz| |apply IH; destruct z; lia]. destruct z; done.
Qed.
Lemma cev_ex c nr a b x i : CInv c -> cseg c nr a b -> ccovers c nr x -> a <= i < b -> exists d, cev (c_ins c) x i d.
Proof.
  intros HI Hs Hx Hi. pose proof (ci_seg _ HI _ _ _ Hs) as Hg. destruct (seg_crep _ _ _ Hg i Hi) as [t Ht].
  assert (Hev : exists d, evp t x = Some d); [|destruct Hev as [d Hd]; exists d; by apply (crep_cev _ _ _ _ Ht)].
  clear -HI Hs Hx Hi Ht Hg. induction Ht as [i y d Hy Hd|i y tl th Hy Hne Hv Hl Hh Hrl IHl Hrh IHh]; [by eexists|]. cbn [evp].
  assert (Hib : a <= i < b - 2). { destruct (decide (i < b - 2)) as [?|Hb]; [lia|exfalso]. destruct (seg_last _ _ _ Hg i y) as [u [Hu _]]; [lia|done|done]. }
  destruct (sg_node _ _ _ Hg i y Hib Hy) as (_&_&?&?).
  destruct (lookup_lt_is_Some_2 x (N.to_nat (i_idx y))) as [z Hz].
  { assert (i_idx y < N.of_nat (length x)); [|lia]. apply Hx. exists y. split; [|done]. exists a, b, i. done. }
  rewrite Hz. destruct z; [apply IHh|apply IHl]; lia.
Qed.
Lemma cval_cev c nr a b x d : CInv c -> cseg c nr a b -> cev (c_ins c) x a d <-> cval c nr x = Some d.
Proof.
  intros HI Hs. pose proof (ci_seg _ HI _ _ _ Hs) as Hg. pose proof (sg_ab _ _ _ Hg). destruct (seg_crep _ _ _ Hg a ltac:(lia)) as [t Ht].
  rewrite (cval_croot c nr t x HI) by (exists a; split; [apply Hs|done]). symmetry. by apply crep_cev.
Qed.
Lemma reroute c nr a b k j e z : CInv c -> cseg c nr a b -> a <= k < b - 2 -> k < j < b -> ix (c_ins c) k = Some e ->
  let c' := Coll (<[N.to_nat k := rerouted z j e]> (c_ins c)) (c_del c) in
  others_keep c c' nr /\ forall x, ccovers c nr x ->
    (cwalk c x a k -> x !! N.to_nat (i_idx e) = Some z -> forall d, cev (c_ins c) x j d -> cval c' nr x = Some d) /\
    (~ (cwalk c x a k /\ x !! N.to_nat (i_idx e) = Some z) -> cval c' nr x = cval c nr x).
Proof.
  intros HI Hs Hk Hj He c'. pose proof (ci_seg _ HI _ _ _ Hs) as Hg. pose proof (sg_ab _ _ _ Hg) as Hab. pose proof (sg_len _ _ _ Hg) as Hlen.
  assert (Hc' : forall x d, cev (c_ins c') x a d -> cval c' nr x = Some d).
  { intros x d Hd. unfold cval, c_evaluate. assert (nr_bdds c' = nr_bdds c) as -> by done. rewrite assertR_true by (apply N.ltb_lt; by eapply cseg_lt).
    unfold del_at. assert (c_del c' = c_del c) as -> by done. rewrite (vecR_eq _ _ _ (proj1 Hs)). cbn [bindR].
    rewrite (cev_eval c' a b x a d); [done|by apply rr_fwd|done|lia|].
    unfold c'. cbn [c_ins]. rewrite insert_length. lia. }
  split.
  - split; [done|]. intros nr' x Hnr Hne. destruct (cseg_ex _ _ HI Hnr) as (a'&b'&Hs'). pose proof (ci_seg _ HI _ _ _ Hs') as Hg'. pose proof (sg_ab _ _ _ Hg').
    unfold cval, c_evaluate. assert (nr_bdds c' = nr_bdds c) as -> by done. rewrite assertR_true by (apply N.ltb_lt; done). unfold del_at.
    assert (c_del c' = c_del c) as -> by done. rewrite (vecR_eq _ _ _ (proj1 Hs')). cbn [bindR]. unfold c' at 1. cbn [c_ins]. rewrite insert_length.
    assert (Hev : forall fuel i, a' <= i < b' -> c_eval_fuel fuel c' i x = c_eval_fuel fuel c i x); [|by rewrite Hev by lia].
    induction fuel as [|fuel IH]; intros i Hi; [done|]. cbn [c_eval_fuel].
    assert (Hii : ix (c_ins c') i = ix (c_ins c) i).
    { apply (list_lookup_insert_ne (c_ins c)). intros Hik. assert (i = k) as -> by lia. eapply (cseg_disj c nr nr' a b a' b' k); eauto. lia. }
    destruct (seg_ix _ _ _ Hg' i) as [y Hy]; [lia|]. rewrite (vecR_eq _ _ y) by (by rewrite Hii). rewrite (vecR_eq _ _ _ Hy). cbn [bindR].
    unfold ci_is_top, ci_is_bot. destruct (N.eqb_spec (i_idx y) ctop); [done|]. destruct (N.eqb_spec (i_idx y) cbot); [done|]. f_equal. destruct (x !! N.to_nat (i_idx y)) as [u|]; [|done].
    assert (i < b' - 2).
    { destruct (decide (i < b' - 2)) as [?|Hb]; [lia|exfalso]. destruct (seg_last _ _ _ Hg' i y) as [d [_ Hd]]; [lia|done|]. destruct d; done. }
    destruct (sg_node _ _ _ Hg' i y ltac:(lia) Hy) as (_&_&?&?). destruct u; rewrite IH by lia; done.
  - intros x Hx. split.
    + intros Hw Hz d Hd. apply Hc'. eapply (rr_hit c a b k j e z); eauto. lia.
    + intros Hn. destruct (cev_ex c nr a b x a HI Hs Hx ltac:(lia)) as [d Hd]. rewrite (proj1 (cval_cev c nr a b x d HI Hs) Hd). apply Hc'.
      eapply (rr_keep c a b k j e z); eauto. lia.
Qed.

(** ** C65 *)
Lemma reroute_api z c nr k k' m n : built c -> csmall c -> nr < nr_bdds c -> node_nr c nr k m -> node_nr c nr k' n -> k < k' -> cn_is_terminal c m = inr false ->
  exists r v c', root_node c nr = inr r /\ cn_variable c m = inr v /\ set_arc z c m n = inr c' /\ others_keep c c' nr /\
    forall x, ccovers c nr x ->
      (node_path c x r m -> x !! N.to_nat v = Some z -> exists d, node_eval c x n d /\ cval c' nr x = Some d) /\
      (~ (node_path c x r m /\ x !! N.to_nat v = Some z) -> cval c' nr x = cval c nr x).
Proof.
  intros HB Hsm Hnr Hm Hn Hk Ht. pose proof (built_CInv HE _ HB) as HI. destruct (cseg_ex _ _ HI Hnr) as (a&b&Hs).
  destruct (node_nr_ix _ _ _ _ _ _ HI Hsm Hs Hm) as [-> Hkb]. destruct (node_nr_ix _ _ _ _ _ _ HI Hsm Hs Hn) as [-> Hkb'].
  pose proof (inner_ix c nr a b (a + k) HI Hs ltac:(lia) Ht) as Hib. pose proof (ci_seg _ HI _ _ _ Hs) as Hg.
  destruct (seg_ix _ _ _ Hg (a + k)) as [e He]; [lia|]. destruct (cn_child_ok c nr a b _ e HI Hs Hib He) as (_&_&Hv&_).
  destruct (reroute c nr a b (a + k) (a + k') e z HI Hs Hib ltac:(lia) He) as [Ho Hx].
  eexists _, _, _. split_and!; [by eapply root_node_ok|exact Hv|by apply set_arc_eq|exact Ho|]. intros x Hc. destruct (Hx x Hc) as [H1 H2]. split.
  - intros Hp Hz. destruct (cev_ex c nr a b x (a + k') HI Hs Hc ltac:(lia)) as [d Hd]. exists d. split; [eapply node_eval_cev; eauto; lia|].
    apply H1; [|done|done]. by apply (path_cwalk c nr a b x a (a + k, nr) HI Hs Hp); lia.
  - intros Hno. apply H2. intros [Hw Hz]. apply Hno. split; [|done]. eapply cwalk_path; eauto. lia.
Qed.
Theorem C65_set_lo_arc c nr k k' m n : built c -> csmall c -> nr < nr_bdds c -> node_nr c nr k m -> node_nr c nr k' n -> k < k' -> cn_is_terminal c m = inr false ->
  exists r v c', root_node c nr = inr r /\ cn_variable c m = inr v /\ cn_set_lo_arc c m n = inr c' /\ others_keep c c' nr /\
    forall x, ccovers c nr x ->
      (node_path c x r m -> x !! N.to_nat v = Some false -> exists d, node_eval c x n d /\ cval c' nr x = Some d) /\
      (~ (node_path c x r m /\ x !! N.to_nat v = Some false) -> cval c' nr x = cval c nr x).
Proof. apply (reroute_api false). Qed.
Theorem C65_set_hi_arc c nr k k' m n : built c -> csmall c -> nr < nr_bdds c -> node_nr c nr k m -> node_nr c nr k' n -> k < k' -> cn_is_terminal c m = inr false ->
  exists r v c', root_node c nr = inr r /\ cn_variable c m = inr v /\ cn_set_hi_arc c m n = inr c' /\ others_keep c c' nr /\
    forall x, ccovers c nr x ->
      (node_path c x r m -> x !! N.to_nat v = Some true -> exists d, node_eval c x n d /\ cval c' nr x = Some d) /\
      (~ (node_path c x r m /\ x !! N.to_nat v = Some true) -> cval c' nr x = cval c nr x).
Proof. apply (reroute_api true). Qed.
(** the four calls on terminals *)
Lemma sink_node c nr a b d t : CInv c -> csmall c -> cseg c nr a b -> entry_sink d c nr = inr t -> t = (if d then b - 1 else b - 2, nr).
Proof.
  intros HI Hsm Hs Ht. pose proof (ci_seg _ HI _ _ _ Hs) as Hg. pose proof (sg_ab _ _ _ Hg). pose proof (sg_len _ _ _ Hg).
  unfold csmall in Hsm. assert (two64 = 2 ^ 62 * 4) by done.
  assert (Hsub : forall q, 1 <= q <= 2 -> sub64 b q = b - q).
  { intros q Hq. unfold sub64. rewrite (N.mod_small q) by lia. replace (b + (two64 - q)) with (b - q + 1 * two64) by lia. rewrite N.mod_add by done. apply N.mod_small. lia. }
  unfold entry_sink, entry_topsink, entry_botsink in Ht.
  destruct d; rewrite (del_at_eq _ _ _ (proj2 Hs)) in Ht; cbn [bindR] in Ht; rewrite Hsub, (mk_cnode_ok c nr a b) in Ht by (done || lia); cbn [bindR] in Ht;
    destruct (assertRR _) as [?|?]; cbn [bindR] in Ht; by inversion Ht.
Qed.
Lemma set_to_eq z d c m t : entry_sink d c (snd m) = inr t -> set_to z d c m = set_arc z c m t.
Proof. unfold set_to, entry_sink, set_arc, cn_set_hi_to_1, cn_set_hi_to_0, cn_set_lo_to_1, cn_set_lo_to_0. intros H. destruct z, d; by rewrite H. Qed.
Lemma sink_cev c nr i d x : cn_is_sink d c (i, nr) = inr true -> cev (c_ins c) x i d.
Proof.
  intros H. assert (exists y, ix (c_ins c) i = Some y /\ i_idx y = if d then ctop else cbot) as (y&Hy&Hi); [|by eapply cev_t].
  unfold cn_is_sink, cn_is_topsink, cn_is_botsink, cn_instr, vecR in H.
  destruct d; cbn [fst] in H; destruct (ix (c_ins c) i) as [y|]; cbn [bindR] in H; try discriminate H; injection H as H; unfold ci_is_top, ci_is_bot in H;
    apply N.eqb_eq in H; eauto.
Qed.
Lemma to_terminal z d d' c nr k m t : CInv c -> csmall c -> nr < nr_bdds c -> node_nr c nr k m -> cn_is_terminal c m = inr false ->
  entry_sink d c nr = inr t -> cn_is_sink d' c t = inr true ->
  exists r v c', root_node c nr = inr r /\ cn_variable c m = inr v /\ set_to z d c m = inr c' /\ others_keep c c' nr /\
    forall x, ccovers c nr x ->
      (node_path c x r m -> x !! N.to_nat v = Some z -> cval c' nr x = Some d') /\
      (~ (node_path c x r m /\ x !! N.to_nat v = Some z) -> cval c' nr x = cval c nr x).
Proof.
  intros HI Hsm Hnr Hm Ht Hes Hsk. destruct (cseg_ex _ _ HI Hnr) as (a&b&Hs).
  destruct (node_nr_ix _ _ _ _ _ _ HI Hsm Hs Hm) as [-> Hkb].
  pose proof (inner_ix c nr a b (a + k) HI Hs ltac:(lia) Ht) as Hib. pose proof (ci_seg _ HI _ _ _ Hs) as Hg.
  destruct (seg_ix _ _ _ Hg (a + k)) as [e He]; [lia|]. destruct (cn_child_ok c nr a b _ e HI Hs Hib He) as (_&_&Hv&_).
  pose proof (sink_node _ _ _ _ _ _ HI Hsm Hs Hes) as ->. set (j := if d then b - 1 else b - 2) in *.
  assert (Hj : a + k < j < b) by (unfold j; destruct d; lia).
  destruct (reroute c nr a b (a + k) j e z HI Hs Hib Hj He) as [Ho Hx].
  eexists _, _, _. split_and!; [by eapply root_node_ok|exact Hv|rewrite (set_to_eq z d c (a + k, nr) _ Hes); by apply set_arc_eq|exact Ho|].
  intros x Hc. destruct (Hx x Hc) as [H1 H2]. split.
  - intros Hp Hz. apply H1; [|done|by eapply sink_cev]. apply (path_cwalk c nr a b x a (a + k, nr) HI Hs Hp); lia.
  - intros Hno. apply H2. intros [Hw Hz]. apply Hno. split; [|done]. eapply cwalk_path; eauto. lia.
Qed.
(** [entry_sink] gives the right terminal for every BDD stored by add_bdd (C54) *)
Theorem C65_to_terminal z d c nr k m t : built c -> csmall c -> nr < nr_bdds c -> node_nr c nr k m -> cn_is_terminal c m = inr false ->
  entry_sink d c nr = inr t -> cn_is_sink d c t = inr true ->
  exists r v c', root_node c nr = inr r /\ cn_variable c m = inr v /\ set_to z d c m = inr c' /\ others_keep c c' nr /\
    forall x, ccovers c nr x ->
      (node_path c x r m -> x !! N.to_nat v = Some z -> cval c' nr x = Some d) /\
      (~ (node_path c x r m /\ x !! N.to_nat v = Some z) -> cval c' nr x = cval c nr x).
Proof. intros HB. apply to_terminal. by apply (built_CInv HE). Qed.
(** results of bdd_and: the calls fail, or set the other terminal *)
Theorem C65_and_terminal_refuted z d c bs L c' k m : built c -> csmall c' -> Forall (fun b => b < nr_bdds c) bs -> (2 <= length bs <= 49)%nat -> 2 < L -> csatisfiable c bs ->
  bdd_and_range c bs L = inr (nr_bdds c, c') -> node_nr c' (nr_bdds c) k m -> cn_is_terminal c' m = inr false ->
  if e_ndebug then exists r v c'', root_node c' (nr_bdds c) = inr r /\ cn_variable c' m = inr v /\ set_to z d c' m = inr c'' /\
    forall x, ccovers c' (nr_bdds c) x -> node_path c' x r m -> x !! N.to_nat v = Some z -> cval c'' (nr_bdds c) x = Some (negb d)
  else set_to z d c' m = inl EAssert.
Proof.
  intros HB Hsm HF Hlen HL Hsat He Hm Ht. pose proof (C54_and_terminals_refuted HE c bs L c' HB Hsm HF Hlen HL Hsat He) as Hx.
  assert (HB' : built c') by (eapply built_and; eauto). pose proof (built_CInv HE _ HB') as HI'. pose proof (built_CInv HE _ HB) as HI.
  assert (Hnr : nr_bdds c < nr_bdds c').
  { destruct (roots_ex _ _ HI HF) as [ts Hr].
    destruct (and_range_any c bs ts L _ c' HI Hsm HF Hlen Hr HL (sat_conjf _ _ _ HI Hr Hsat) He) as [[Hk ->]|(l&_&Hc'&_)].
    - exfalso. pose proof (del_len _ HI). unfold size_max, csmall in *. lia.
    - rewrite Hc'. destruct (cappends_intro c l HI) as (_&->&_). lia. }
  destruct e_ndebug eqn:Hnd.
  - destruct Hx as (t0&t1&H1&H2&H3&H4).
    assert (exists t, entry_sink d c' (nr_bdds c) = inr t /\ cn_is_sink (negb d) c' t = inr true) as (t&Hes&Hsk) by (destruct d; simpl; eauto).
    destruct (to_terminal z d (negb d) c' (nr_bdds c) k m t HI' Hsm Hnr Hm Ht Hes Hsk) as (r&v&c''&Hr&Hv&Hst&_&Hx). exists r, v, c''. split_and!; auto.
    intros x Hc. by destruct (Hx x Hc).
  - destruct Hx as [H1 H2]. destruct (cseg_ex _ _ HI' Hnr) as (a&b&Hs). destruct (node_nr_ix _ _ _ _ _ _ HI' Hsm Hs Hm) as [-> _].
    unfold set_to, cn_set_hi_to_1, cn_set_hi_to_0, cn_set_lo_to_1, cn_set_lo_to_0. destruct z, d; cbn [snd]; by rewrite ?H1, ?H2.
Qed.
(** an arc back to a node from which evaluation comes to [m] again: evaluate does not return *)
Theorem C65_cycle_refuted z c nr k k' m n x r v : built c -> csmall c -> nr < nr_bdds c -> node_nr c nr k m -> node_nr c nr k' n -> cn_is_terminal c m = inr false ->
  cn_variable c m = inr v -> x !! N.to_nat v = Some z -> root_node c nr = inr r -> node_path c x r m -> node_path c x n m ->
  exists c', set_arc z c m n = inr c' /\ forall steps, c_eval_fuel steps c' (fst r) x = inl ELoop.
Proof.
  intros HB Hsm Hnr Hm Hn Ht Hv Hz Hr Hp Hp'. pose proof (built_CInv HE _ HB) as HI. destruct (cseg_ex _ _ HI Hnr) as (a&b&Hs).
  destruct (node_nr_ix _ _ _ _ _ _ HI Hsm Hs Hm) as [-> Hkb]. destruct (node_nr_ix _ _ _ _ _ _ HI Hsm Hs Hn) as [-> Hkb'].
  pose proof (inner_ix c nr a b (a + k) HI Hs ltac:(lia) Ht) as Hib. pose proof (ci_seg _ HI _ _ _ Hs) as Hg.
  destruct (seg_ix _ _ _ Hg (a + k)) as [e He]; [lia|]. destruct (cn_child_ok c nr a b _ e HI Hs Hib He) as (_&_&Hv'&_).
  rewrite Hv in Hv'. injection Hv' as ->. rewrite (root_node_ok _ _ _ _ HI Hs) in Hr. injection Hr as <-. cbn [fst].
  eexists. split; [by apply set_arc_eq|]. cbn [fst].
  pose proof (path_cwalk c nr a b x a (a + k, nr) HI Hs Hp ltac:(lia)) as Hw. pose proof (path_cwalk c nr a b x (a + k') (a + k, nr) HI Hs Hp' ltac:(lia)) as Hw'. cbn [fst] in *.
  set (K := a + k) in *. set (J := a + k') in *. set (c' := Coll _ _).
  assert (Hgo : forall steps i, cwalk c x i K -> a <= i < b -> c_eval_fuel steps c' i x = inl ELoop); [|intros steps; apply Hgo; [done|lia]].
  assert (Hvk : i_idx e < cbot) by (by destruct (sg_node _ _ _ Hg K e Hib He) as (_&?&_)).
  assert (HK : ix (c_ins c') K = Some (rerouted z J e)). { apply (list_lookup_insert (c_ins c)). by apply lookup_lt_Some in He. }
  induction steps as [|steps IH]; intros i Hi Hr; [done|].
  assert (Hstep : forall (y : instr) (u : bool), ix (c_ins c') i = Some y -> i_idx y < cbot -> x !! N.to_nat (i_idx y) = Some u ->
    c_eval_fuel (S steps) c' i x = c_eval_fuel steps c' (if u then i_hi y else i_lo y) x).
  { intros y u Hy Hlt Hu. cbn [c_eval_fuel]. rewrite (vecR_eq _ _ _ Hy). cbn [bindR]. unfold ci_is_top, ci_is_bot.
    rewrite (proj2 (N.eqb_neq (i_idx y) ctop)), (proj2 (N.eqb_neq (i_idx y) cbot)) by (unfold ctop, cbot in *; lia).
    rewrite assertR_true by (apply N.ltb_lt; apply lookup_lt_Some in Hu; lia). cbn [bindR]. rewrite Hu. by destruct u. }
  destruct (decide (i = K)) as [->|Hne].
  - rewrite (Hstep _ z HK); [|unfold rerouted; by destruct z|unfold rerouted; by destruct z].
    assert ((if z then i_hi (rerouted z J e) else i_lo (rerouted z J e)) = J) as -> by (unfold rerouted; by destruct z). apply IH; [done|lia].
  - inversion Hi as [|i' j' y u Hy Hyn Hu Hi']; subst; [done|].
    assert (a <= i < b - 2) as Hib'. { destruct (decide (i < b - 2)) as [?|Hb]; [lia|exfalso]. destruct (seg_last _ _ _ Hg i y) as [w [Hw1 _]]; [lia|done|done]. }
    destruct (sg_node _ _ _ Hg i y Hib' Hy) as (_&Hvy&?&?).
    rewrite (Hstep y u); [apply IH; [done|destruct u; lia]| |done|done].
    rewrite <- Hy. apply (list_lookup_insert_ne (c_ins c)). lia.
Qed.
End reroute.
