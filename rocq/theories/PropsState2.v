(** * PropsState2.v -- handles, tables, memo, destruction
    (C13, C21-C25, C27, C33, C36) *)
From Verif Require Export PropsState.
Open Scope N_scope.

Section state2.
Context {E : Env} (HE : env_ok E).

(** ** C13: and_rec_limited (the documented rule for null is false, see C13_limit_refuted) *)
Theorem C13_and_rec_limited md w i j f g limit : reach md w -> allowed md w (OAndLim i j limit) ->
  evals w i f -> evals w j g ->
  ensures (step (OAndLim i j limit) w) (fun r w' => exists p n, r = OutLim p n /\ hnd w' (length (w_h w)) = Some p /\
    (p = 0 /\ n = size_max \/ p <> 0 /\ n <> size_max /\ evals w' (length (w_h w)) (fun x => f x && g x))).
Proof.
  intros HR Ha Hi Hj. pose proof (reach_inv HE _ _ HR) as HW.
  destruct (evals_hrep HE _ _ _ _ HW Hi) as (p&t&Hp&Hf). destruct (evals_hrep HE _ _ _ _ HW Hj) as (q&u&Hq&Hg).
  pose proof (step_good HE _ _ _ HW Ha) as Hgood. destruct Ha as (_&_&Hm&Hlim&Hsz).
  simpl in *. rewrite (with2_hrep _ _ _ _ _ _ _ _ Hp Hq) in *.
  assert (Hsz' : N.of_nat (size (s_heap (w_s w))) < size_max).
  { destruct (i_nc _ _ _ HW) as (_&_&_&_&Htot&_). unfold mgr_nr_nodes in Hsz. rewrite Htot in Hsz. exact Hsz. }
  pose proof (and_limited_spec HE _ _ _ _ _ _ _ limit Hm Hlim Hsz' HW (proj2 (proj2 Hp)) (proj2 (proj2 Hq))) as Hs.
  unfold sat in Hs. unfold ensures in Hgood |- *. cbv beta in Hgood |- *.
  destruct (and_rec_limited p q limit (w_s w)) as [[r n] s|[] s]; try done.
  destruct Hs as (HI&He&Hr). simpl in Hr.
  destruct (ref_acquire r s) as [[] s'|[] s'] eqn:Hacq; try done.
  exists r, n. split; [done|]. split; [apply hnd_snoc|]. destruct Hr as [(->&->&_)|(H0&Hn&Hd&_)]; [by left|right].
  split_and!; auto. destruct Hgood as (HW'&Hl&_).
  assert (Hr' : exists t', hrep (W s' (w_h w ++ [Some r])) (length (w_h w)) r t' /\ forall x, evalt t' x = evalt t x && evalt u x).
  { destruct Hd as (t'&Ht'&Hx). exists t'. split; [|done]. split_and!; [apply hnd_snoc|done|].
    simpl. destruct (ref_acquire_spec _ _ s r HI) as (s2&Hs2&_&He2&_).
    { intros _. destruct (repr_in _ _ _ _ _ (i_heap _ _ _ HI) Ht'). by eapply elem_of_dom_2. }
    rewrite Hs2 in Hacq. injection Hacq as <-. eapply repr_ext; [apply He2|done]. }
  destruct Hr' as (t'&Hr'&Hx). intros x Hc. rewrite (val_covers _ _ _ _ _ _ HW' Hr' Hc), Hx.
  assert (Hc' : covers w x) by (eapply lext_covers; [exact Hl|done]).
  by rewrite Hf, Hg.
Qed.
(** ... and then it is the handle and_rec returns *)
Theorem C13_same_as_and_rec md w i j f g limit : md_ord md = true -> reach md w -> allowed md w (OAndLim i j limit) ->
  evals w i f -> evals w j g ->
  ensures (step (OAndLim i j limit) w) (fun r w' => forall p n, r = OutLim p n -> p <> 0 ->
    ensures (step (OAnd i j) w') (fun r' _ => r' = OutP p)).
Proof.
  intros Ho HR Ha Hi Hj. pose proof (reach_inv HE _ _ HR) as HW.
  pose proof (C13_and_rec_limited _ _ _ _ _ _ _ HR Ha Hi Hj) as H1.
  pose proof (step_good HE _ _ _ HW Ha) as Hgood. destruct (step (OAndLim i j limit) w) as [r w'|[] w'] eqn:Hst; cbn [ensures] in *; auto.
  intros p n -> H0. destruct H1 as (p'&n'&[= <- <-]&Hp&[[-> _]|(_&_&Hev)]); [done|].
  pose proof Hgood as (HW'&Hl&Hh).
  assert (HR' : reach md w') by (by eapply reach_step).
  assert (Hk : forall k g', evals w k g' -> evals w' k g').
  { intros k g' Hk x Hx. destruct (evals_hrep HE _ _ _ _ HW Hk) as (a&ta&Hra&_).
    destruct (good_keeps HE _ _ _ _ _ k a HW Hgood (proj1 Hra)) as [_ ->]; [by intros []|].
    apply Hk. by eapply lext_covers. }
  pose proof (evals_hrep HE _ _ _ _ HW' (Hk _ _ Hi)) as (a&ta&Hra&Hfa).
  pose proof (evals_hrep HE _ _ _ _ HW' (Hk _ _ Hj)) as (b&tb&Hrb&Hfb).
  pose proof (evals_hrep HE _ _ _ _ HW' Hev) as (c&tc&Hrc&Hfc).
  assert (c = p) as -> by (destruct Hrc as (Hrc&_); congruence).
  assert (Hall : allowed md w' (OAnd i j)) by (split; by eapply hrep_live).
  pose proof (step_sem HE _ _ _ (fun r => evalt ta r && evalt tb r) HW' Hall) as Hsem.
  specialize (Hsem ltac:(exists a, ta, b, tb; done)).
  unfold ensures in *. destruct (step (OAnd i j) w') as [r2 w2|[] w2]; auto.
  destruct Hsem as (p2&t2&->&HW2&Hl2&Hh2&Hr2&Ht2). specialize (Ht2 ltac:(snd_tac)). f_equal.
  eapply (repr_canon _ _ _ _ _ _ _ (i_heap _ _ _ HW2) Ho); [apply Hr2|eapply repr_ext; [apply Hl2|apply Hrc]|].
  intros r. rewrite Ht2. rewrite <- (tabx_val _ _ _ _ _ r HW' Hra), <- (tabx_val _ _ _ _ _ r HW' Hrb), <- (tabx_val _ _ _ _ _ r HW' Hrc).
  by rewrite <- Hfa, <- Hfb, <- Hfc by apply tabx_covers.
Qed.

(** the second component: at most the limit unless an operand is constant, and below 2^k if the
    operands depend on at most k variables; with a limit of at least 2^k - 1 the result is never null *)
Theorem C13_number md w i j limit : reach md w -> allowed md w (OAndLim i j limit) ->
  ensures (step (OAndLim i j limit) w) (fun r w' => forall p n, r = OutLim p n -> p <> 0 ->
    n <= limit \/ isconst w i \/ isconst w j).
Proof.
  intros HR Ha. pose proof (reach_inv HE _ _ HR) as HW. destruct Ha as (Hi&Hj&Hm&Hlim&Hsz).
  destruct (live_hrep _ _ _ HW Hi) as (p&t&Hp). destruct (live_hrep _ _ _ HW Hj) as (q&u&Hq).
  simpl in *. rewrite (with2_hrep _ _ _ _ _ _ _ _ Hp Hq) in *.
  assert (Hsz' : N.of_nat (size (s_heap (w_s w))) < size_max).
  { destruct (i_nc _ _ _ HW) as (_&_&_&_&Htot&_). unfold mgr_nr_nodes in Hsz. rewrite Htot in Hsz. exact Hsz. }
  pose proof (and_limited_spec HE _ _ _ _ _ _ _ limit Hm Hlim Hsz' HW (proj2 (proj2 Hp)) (proj2 (proj2 Hq))) as Hs.
  unfold sat in Hs. unfold ensures.
  pose proof (step_good HE _ _ (OAndLim i j limit) HW ltac:(done)) as Hgood. simpl in Hgood.
  rewrite (with2_hrep _ _ _ _ _ _ _ _ Hp Hq) in Hgood. unfold ensures in Hgood.
  destruct (and_rec_limited p q limit (w_s w)) as [[r n] s|[] s]; try done.
  destruct (ref_acquire r s) as [[] s'|[] s']; try done.
  intros p' n' [= <- <-] Hnz. destruct Hs as (_&_&[(Hz&_)|(_&_&_&Hc&_)]); cbn [fst snd] in *; [done|].
  destruct Hc as [Hc|[Hc|Hc]]; [by left|right; left|right; right].
  - destruct Hp as (Hp&_). unfold sink in Hc. destruct Hc as [-> | ->]; [by left|by right].
  - destruct Hq as (Hq&_). unfold sink in Hc. destruct Hc as [-> | ->]; [by left|by right].
Qed.
Theorem C13_large_limit md w i j limit vs : md_ord md = true -> reach md w -> allowed md w (OAndLim i j limit) ->
  (forall v, dep w i v \/ dep w j v -> v ∈ vs) ->
  ensures (step (OAndLim i j limit) w) (fun r w' => forall p n, r = OutLim p n ->
    (2 ^ N.of_nat (length vs) <= limit + 1 -> p <> 0) /\ (p <> 0 -> n < 2 ^ N.of_nat (length vs))).
Proof.
  intros Ho HR Ha Hdep. pose proof (reach_inv HE _ _ HR) as HW. destruct Ha as (Hi&Hj&Hm&Hlim&Hsz).
  destruct (live_hrep _ _ _ HW Hi) as (p&t&Hp). destruct (live_hrep _ _ _ HW Hj) as (q&u&Hq).
  simpl in *. rewrite (with2_hrep _ _ _ _ _ _ _ _ Hp Hq) in *.
  assert (Hsz' : N.of_nat (size (s_heap (w_s w))) < size_max).
  { destruct (i_nc _ _ _ HW) as (_&_&_&_&Htot&_). unfold mgr_nr_nodes in Hsz. rewrite Htot in Hsz. exact Hsz. }
  pose proof (and_limited_spec HE _ _ _ _ _ _ _ limit Hm Hlim Hsz' HW (proj2 (proj2 Hp)) (proj2 (proj2 Hq))) as Hs.
  assert (Hv : vcov t u vs).
  { intros v Hv. apply Hdep. pose proof (i_heap _ _ _ HW) as Hh.
    destruct Hv as [Hv|Hv]; [left; apply (dep_depends _ _ _ _ _ _ HW Hp)|right; apply (dep_depends _ _ _ _ _ _ HW Hq)];
      apply depends_occurs; auto.
    - eapply ho_ord; [exact Hh|done|apply Hp].
    - eapply repr_redt; [exact Hh|apply Hp].
    - eapply ho_ord; [exact Hh|done|apply Hq].
    - eapply repr_redt; [exact Hh|apply Hq]. }
  unfold sat in Hs. unfold ensures.
  pose proof (step_good HE _ _ (OAndLim i j limit) HW ltac:(done)) as Hgood. simpl in Hgood.
  rewrite (with2_hrep _ _ _ _ _ _ _ _ Hp Hq) in Hgood. unfold ensures in Hgood.
  destruct (and_rec_limited p q limit (w_s w)) as [[r n] s|[] s]; try done.
  destruct (ref_acquire r s) as [[] s'|[] s']; try done.
  intros p' n' [= <- <-]. fold (pow2 vs).
  destruct Hs as (_&_&[(Hz&_&Hb)|(Hz&_&_&_&Hb)]); cbn [fst snd] in *; specialize (Hb Ho vs Hv); split; auto; try done; lia.
Qed.
(** raising the limit changes no answer that is not null *)
Theorem C13_monotone md w i j limit limit' p n w' : reach md w -> allowed md w (OAndLim i j limit) -> limit <= limit' ->
  step (OAndLim i j limit) w = WOk (OutLim p n) w' -> p <> 0 -> step (OAndLim i j limit') w = WOk (OutLim p n) w'.
Proof.
  intros HR Ha Hle Hst Hnz. pose proof (reach_inv HE _ _ HR) as HW. pose proof Ha as (Hi&Hj&Hm&Hlim&Hsz).
  destruct (live_hrep _ _ _ HW Hi) as (a&t&Hp). destruct (live_hrep _ _ _ HW Hj) as (b&u&Hq).
  simpl in *. rewrite (with2_hrep _ _ _ _ _ _ _ _ Hp Hq). rewrite (with2_hrep _ _ _ _ _ _ _ _ Hp Hq) in Hst.
  assert (Hsz' : N.of_nat (size (s_heap (w_s w))) < size_max).
  { destruct (i_nc _ _ _ HW) as (_&_&_&_&Htot&_). unfold mgr_nr_nodes in Hsz. rewrite Htot in Hsz. exact Hsz. }
  pose proof (and_limited_spec HE _ _ _ _ _ _ _ limit Hm Hlim Hsz' HW (proj2 (proj2 Hp)) (proj2 (proj2 Hq))) as Hs.
  unfold sat in Hs.
  destruct (and_rec_limited a b limit (w_s w)) as [[r m] s|e s] eqn:Hr; [|done].
  destruct (ref_acquire r s) as [[] s'|e s'] eqn:Hacq; [|done].
  cbv beta iota in Hst. injection Hst as -> -> <-. destruct Hs as (_&_&[(Hz&_)|(_&Hn&_)]); cbn [fst snd] in *; [done|].
  unfold and_rec_limited, with_fuel in *. unfold bind, get in *.
  rewrite (and_limited_mono limit limit' Hle Hlim _ _ _ _ _ _ _ Hr Hn), Hacq. done.
Qed.

(** ** C21: reference counts are exact *)
Lemma refs_arcs h p : refs h p = Z.of_nat (arcs_into h p).
Proof.
  unfold arcs_into. induction h as [|q n h Hq IH] using map_ind; [by rewrite refs_empty|].
  rewrite refs_insert, IH by done. unfold arcs.
  assert (Hsz : forall (P : ptr * node -> Prop) `{forall x, Decision (P x)},
     size (filter P (<[q := n]> h)) = (size (filter P h) + if decide (P (q, n)) then 1 else 0)%nat).
  { intros P HP. destruct (decide (P (q, n))) as [Hd|Hd].
    - rewrite map_filter_insert_True by done. rewrite map_size_insert_None; [lia|].
      apply map_filter_lookup_None. by left.
    - rewrite map_filter_insert_False by done. rewrite delete_notin by done. lia. }
  rewrite !Hsz. clear Hsz. unfold inner, sink. simpl. repeat case_decide; try lia; exfalso; tauto.
Qed.
Theorem C21_refcount md w i p : reach md w -> hnd w i = Some p -> p <> 0 ->
  step (QRefs i) w = WOk (OutZ (hcount (w_h w) p + Z.of_nat (arcs_into (s_heap (w_s w)) p) +
      if decide (inner p) then 0 else 1)) w.
Proof.
  intros HR Hi H0. pose proof (reach_inv HE _ _ HR) as HW.
  pose proof (winv_dom _ _ _ _ HW Hi H0) as [n Hn]%elem_of_dom.
  simpl. unfold with1. rewrite Hi. apply query_eq. unfold reference_count.
  rewrite (bind_eq _ _ _ _ _ (getN_eq _ _ _ Hn)). unfold ret. do 2 f_equal.
  rewrite (i_xref _ _ _ HW _ _ Hn), refs_arcs. unfold inner, sink. repeat case_decide; try lia; exfalso; tauto.
Qed.
(** every node, not only those with handles *)
Theorem C21_refcount_all md w p n : reach md w -> s_heap (w_s w) !! p = Some n ->
  n_xref n = (hcount (w_h w) p + Z.of_nat (arcs_into (s_heap (w_s w)) p) + if decide (inner p) then 0 else 1)%Z.
Proof.
  intros HR Hn. pose proof (reach_inv HE _ _ HR) as HW.
  rewrite (i_xref _ _ _ HW _ _ Hn), refs_arcs. unfold inner, sink. repeat case_decide; try lia; exfalso; tauto.
Qed.

(** ** C22: every allowed call returns (or throws for a full table), and no call changes the
    address, function or node count of another handle *)
Theorem C22_total md w o : reach md w -> allowed md w o ->
  ensures (step o w) (fun _ w' => reach md w').
Proof.
  intros HR Ha. pose proof (reach_inv HE _ _ HR) as HW. pose proof (step_good HE _ _ _ HW Ha) as Hg.
  unfold ensures in *. destruct (step o w) as [r w'|[] w'] eqn:Hs; auto. by eapply reach_step.
Qed.
Theorem C22_persistent md w o r w' k p : reach md w -> allowed md w o -> step o w = WOk r w' ->
  hnd w k = Some p -> ~ touches o k -> hnd w' k = Some p /\ forall x, val w' k x = val w k x.
Proof.
  intros HR Ha Hs Hk Ht. pose proof (reach_inv HE _ _ HR) as HW. pose proof (step_good HE _ _ _ HW Ha) as Hg.
  rewrite Hs in Hg. by eapply good_keeps.
Qed.
Lemma reach_in_ext h h' p q : hext h h' -> reach_in h p q -> reach_in h' p q.
Proof.
  intros He. induction 1 as [p n Hs Hn|p n q Hs Hn _ IH|p n q Hs Hn _ IH]; destruct (He _ _ Hn) as (n'&Hn'&Hlo&Hhi&_).
  - by eapply ri_refl.
  - eapply ri_lo; [done|done|]. by rewrite <- Hlo.
  - eapply ri_hi; [done|done|]. by rewrite <- Hhi.
Qed.
Lemma reach_in_ext_inv md nv h h' p q t : heap_ok md nv h -> hext h h' -> repr h p t -> reach_in h' p q -> reach_in h p q.
Proof.
  intros Hh He Hr Hq. revert t Hr. induction Hq as [p n Hs Hn|p n q Hs Hn _ IH|p n q Hs Hn _ IH]; intros t Hr;
    destruct (repr_nonsink _ _ _ Hr Hs) as (m&tl&th&Hm&->&Hl&Hrr); destruct (He _ _ Hm) as (m'&Hm'&Hlo&Hhi&_); simplify_eq.
  - by eapply ri_refl.
  - eapply ri_lo; [done|done|]. rewrite Hlo. eapply IH. by rewrite <- Hlo.
  - eapply ri_hi; [done|done|]. rewrite Hhi. eapply IH. by rewrite <- Hhi.
Qed.
Theorem C22_nodes md w o r w' k p : reach md w -> allowed md w o -> step o w = WOk r w' ->
  hnd w k = Some p -> p <> 0 -> ~ touches o k -> forall q, subnode (w_s w') p q <-> subnode (w_s w) p q.
Proof.
  intros HR Ha Hs Hk H0 Ht q. pose proof (reach_inv HE _ _ HR) as HW. pose proof (step_good HE _ _ _ HW Ha) as Hg.
  rewrite Hs in Hg. destruct Hg as (HW'&[He _]&_). destruct (winv_repr _ _ _ _ HW Hk H0) as [t Hr].
  rewrite !subnode_reach. split; [|by apply reach_in_ext]. intros Hq. eapply reach_in_ext_inv; [apply HW|done|done|done].
Qed.
Theorem C22_node_count md w o r w' k p out : reach md w -> allowed md w o -> step o w = WOk r w' ->
  hnd w k = Some p -> p <> 0 -> ~ isconst w k -> ~ touches o k ->
  step (QNrNodes k) w = WOk out w -> step (QNrNodes k) w' = WOk out w'.
Proof.
  intros HR Ha Hs Hk H0 Hc Ht Hq. assert (HR' : reach md w') by (by eapply reach_step).
  destruct (C22_persistent _ _ _ _ _ _ _ HR Ha Hs Hk Ht) as [Hk' _].
  assert (Hc' : ~ isconst w' k) by (unfold isconst in *; rewrite Hk'; by rewrite Hk in Hc).
  destruct (C16_nr_nodes HE _ _ _ _ HR Hk H0) as (l&Hl&Hnd&Hin); [done|].
  destruct (C16_nr_nodes HE _ _ _ _ HR' Hk' H0) as (l'&Hl'&Hnd'&Hin'); [done|].
  rewrite Hq in Hl. injection Hl as ->. rewrite Hl'. do 3 f_equal. apply Permutation_length.
  apply NoDup_Permutation; auto. intros q. rewrite Hin', Hin. by eapply C22_nodes.
Qed.

(** ** C23: the unique tables *)
Theorem C23_lookup md w v t l r : reach md w -> s_vars (w_s w) !! N.to_nat v = Some t ->
  l <> r -> is_Some (s_heap (w_s w) !! l) -> is_Some (s_heap (w_s w) !! r) ->
  exists p, unique_table_lookup (s_heap (w_s w)) t l r = inr p /\
    ((exists n, s_heap (w_s w) !! p = Some n /\ inner p /\ n_idx n = v /\ n_lo n = l /\ n_hi n = r) \/
     p = 0 /\ forall q n, s_heap (w_s w) !! q = Some n -> inner q -> ~ (n_idx n = v /\ n_lo n = l /\ n_hi n = r)).
Proof.
  intros HR Ht Hlr [a Ha] [b Hb]. pose proof (reach_inv HE _ _ HR) as HW.
  destruct (i_tab _ _ _ HW _ _ Ht) as (k&Hsh&Hk&Hpt&Hfree&Hload&Hcap&Hlow&Hmx). rewrite N2Nat.id in Hpt.
  assert (Hin : forall q, inner q <-> ~ sink q) by (intros q; unfold inner, sink; tauto).
  destruct (lookup_spec (s_heap (w_s w)) k t _ l r (N.lxor (n_key a) (2 * n_key b)) Hsh Hpt) as (p&Hp&Hcase); auto.
  - by eapply tab_zeros_pos.
  - intros p (_&n&Hn&_). eauto.
  - unfold hkey. by rewrite Ha, Hb.
  - exists p. split; [done|]. destruct Hcase as [(H0&(Hs&n&Hn&Hv)&n'&Hn'&Hlo&Hhi)|[-> Hno]].
    + left. exists n. simplify_eq. split_and!; auto. by apply Hin.
    + right. split; [done|]. intros q n Hn Hq (Hv&Hlo&Hhi). eapply Hno; [|done|done]. split; [by apply Hin|eauto].
Qed.
Theorem C23_no_duplicates md w p q n m : reach md w -> s_heap (w_s w) !! p = Some n -> s_heap (w_s w) !! q = Some m ->
  inner p -> inner q -> n_idx n = n_idx m -> n_lo n = n_lo m -> n_hi n = n_hi m -> p = q.
Proof.
  intros HR Hp Hq Hip Hiq. pose proof (reach_inv HE _ _ HR) as HW.
  apply (ho_uniq _ _ _ (i_heap _ _ _ HW)); auto; unfold inner, sink in *; tauto.
Qed.
Theorem C23_no_redundant md w p n : reach md w -> s_heap (w_s w) !! p = Some n -> inner p ->
  n_lo n <> n_hi n /\ n_idx n < nr_variables (w_s w).
Proof.
  intros HR Hp Hip. pose proof (reach_inv HE _ _ HR) as HW.
  destruct (ho_node _ _ _ (i_heap _ _ _ HW) p n Hp) as (Hv&Hne&_); [unfold inner, sink in *; tauto|]. done.
Qed.
(** asking for an existing node returns it and creates nothing *)
Lemma unique_find_hit md H s v l r p n : Inv md H s -> s_heap s !! p = Some n -> ~ sink p ->
  n_idx n = v -> n_lo n = l -> n_hi n = r -> unique_find_v v l r s = Ok p s.
Proof.
  intros HI Hn Hs <- <- <-. destruct (ho_node _ _ _ (i_heap _ _ _ HI) _ _ Hn Hs) as (Hv&Hne&_&_).
  destruct (lookup_lt_is_Some_2 (s_vars s) (N.to_nat (n_idx n))) as [t Ht]; [lia|].
  destruct (i_tab _ _ _ HI _ _ Ht) as (k&Hsh&Hk&Hpt&Hfree&Hload&Hcap&Hlow&Hmx). rewrite N2Nat.id in Hpt.
  destruct (node_children _ _ _ _ _ (i_heap _ _ _ HI) Hn Hs) as (tl&th&Hl&Hr).
  destruct (repr_in _ _ _ _ _ (i_heap _ _ _ HI) Hl) as [a Ha]. destruct (repr_in _ _ _ _ _ (i_heap _ _ _ HI) Hr) as [b Hb].
  destruct (lookup_spec (s_heap s) k t _ (n_lo n) (n_hi n) (N.lxor (n_key a) (2 * n_key b)) Hsh Hpt) as (q&Hq&Hcase); auto.
  - by eapply tab_zeros_pos.
  - intros q (_&m&Hm&_). eauto.
  - unfold hkey. by rewrite Ha, Hb.
  - destruct Hcase as [(H0&(Hsq&m&Hm&Hvm)&m'&Hm'&Hlo&Hhi)|[-> Hno]].
    + simplify_eq. assert (q = p) as -> by (eapply (ho_uniq _ _ _ (i_heap _ _ _ HI)); eauto).
      unfold unique_find_v. simpl. apply N.eqb_neq in Hne. rewrite Hne.
      rewrite (bind_eq _ _ _ _ _ (getV_eq _ _ _ Ht)). rewrite (bind_eq get _ s s s eq_refl).
      rewrite (bind_eq _ _ _ _ _ (liftR_eq _ _ _ Hq)). apply N.eqb_neq in H0. by rewrite H0.
    + exfalso. eapply (Hno p n); [|done|done]. split; [done|eauto].
Qed.
Theorem C23_unique_find_existing md w v i j l r p n : reach md w ->
  hnd w i = Some l -> hnd w j = Some r -> l <> 0 -> r <> 0 ->
  s_heap (w_s w) !! p = Some n -> inner p -> n_idx n = v -> n_lo n = l -> n_hi n = r ->
  exists w', step (OUnique v i j) w = WOk (OutP p) w' /\ mgr_nr_nodes (w_s w') = mgr_nr_nodes (w_s w).
Proof.
  intros HR Hi Hj Hl Hr Hn Hip Hv Hlo Hhi. pose proof (reach_inv HE _ _ HR) as HW.
  assert (Hs : ~ sink p) by (unfold inner, sink in *; tauto).
  destruct (ho_node _ _ _ (i_heap _ _ _ HW) _ _ Hn Hs) as (Hvn&_).
  simpl. unfold with2, with1. rewrite Hi, Hj. unfold newh, mgr_unique_find.
  rewrite (bind_eq get _ _ _ _ eq_refl).
  rewrite (bind_eq _ _ _ tt (w_s w)). 2:{ apply assert_eq. apply N.ltb_lt. subst v. exact Hvn. }
  rewrite (unique_find_hit _ _ _ _ _ _ _ _ HW Hn Hs Hv Hlo Hhi).
  unfold ref_acquire. destruct (N.eqb_spec p 0) as [->|H0].
  { pose proof (inv_addr HE _ _ _ _ _ HW Hn). lia. }
  rewrite (xref_inc_eq _ _ _ Hn). eexists. split; [done|]. done.
Qed.
(** doubling a table that is more than half full loses nothing: every lookup keeps its answer *)
Theorem C23_doubling md w v t : reach md w -> s_vars (w_s w) !! N.to_nat v = Some t -> over_half_full t = true ->
  match double_cache v (w_s w) with
  | Ok _ s' => s_heap s' = s_heap (w_s w) /\ exists t', s_vars s' !! N.to_nat v = Some t' /\
      over_half_full t' = false /\
      forall l r, l <> r -> is_Some (s_heap (w_s w) !! l) -> is_Some (s_heap (w_s w) !! r) ->
        unique_table_lookup (s_heap s') t' l r = unique_table_lookup (s_heap (w_s w)) t l r
  | Fail EThrow s' => thrown s'
  | Fail _ _ => False
  end.
Proof.
  intros HR Ht Ho. pose proof (reach_inv HE _ _ HR) as HW.
  pose proof (double_cache_spec _ _ _ _ _ HW Ht Ho) as Hs. unfold sat in Hs.
  destruct (double_cache v (w_s w)) as [[] s'|[] s'] eqn:Hd; try done.
  - destruct Hs as (t'&pcs'&->&HI&Ho'&_). split; [done|]. exists t'. simpl.
    pose proof (lookup_lt_Some _ _ _ Ht). split; [by apply list_lookup_insert|]. split; [done|].
    intros l r Hlr [a Ha] [b Hb].
    assert (Hgen : forall s t, s_heap s = s_heap (w_s w) -> Inv md (hcount (w_h w)) s -> s_vars s !! N.to_nat v = Some t ->
      exists p, unique_table_lookup (s_heap (w_s w)) t l r = inr p /\
      ((p <> 0 /\ var_nodes (s_heap (w_s w)) v p /\ exists n, s_heap (w_s w) !! p = Some n /\ n_lo n = l /\ n_hi n = r) \/
       (p = 0 /\ forall q n, var_nodes (s_heap (w_s w)) v q -> s_heap (w_s w) !! q = Some n -> ~ (n_lo n = l /\ n_hi n = r)))).
    { intros s0 t0 Hh HI0 Ht0. destruct (i_tab _ _ _ HI0 _ _ Ht0) as (k&Hsh&Hk&Hpt&Hfree&Hload&Hcap&Hlow&Hmx).
      rewrite N2Nat.id, Hh in Hpt. eapply lookup_spec; eauto.
      - by eapply tab_zeros_pos.
      - intros q (_&m&Hm&_). eauto.
      - unfold hkey. by rewrite Ha, Hb. }
    destruct (Hgen _ t eq_refl HW Ht) as (p&->&Hp). destruct (Hgen (set_s_pcs pcs' (set_s_vars (<[N.to_nat v:=t']> (s_vars (w_s w))) (w_s w))) t' eq_refl HI) as (p'&->&Hp').
    { by apply list_lookup_insert. }
    f_equal. destruct Hp as [(H0&(Hs1&n&Hn&Hv)&n1&Hn1&?&?)|[-> Hno]], Hp' as [(H0'&(Hs1'&m&Hm&Hv')&m1&Hm1&?&?)|[-> Hno']]; simplify_eq.
    + eapply (ho_uniq _ _ _ (i_heap _ _ _ HW)); eauto; congruence.
    + exfalso. eapply (Hno' p n); [|done|done]. split; eauto.
    + exfalso. eapply (Hno p' m); [|done|done]. split; eauto.
    + done.
Qed.

(** ** C24: node memory *)
Theorem C24_nodes_in_pages md w p : reach md w -> is_Some (s_heap (w_s w) !! p) ->
  exists k j, (k < nc_npages (s_nc (w_s w)))%nat /\ j < node_page_size /\ p = e_page k + node_size * j.
Proof.
  intros HR [n Hn]. pose proof (reach_inv HE _ _ HR) as HW.
  destruct (i_nc _ _ _ HW) as (Hp1&Hb&(k&Hk&Hptr)&_&_&Hall). apply elem_of_dom_2 in Hn.
  destruct (Hall _ Hn) as (i&j&->&[[Hi Hj]|[Hi Hj]]).
  - exists i, j. split_and!; auto; lia.
  - exists i, j. split_and!; auto; [lia|]. rewrite Hptr, Hb in Hj.
    replace (nc_npages (s_nc (w_s w)) - 1)%nat with i in Hj by lia. unfold node_size in Hj. lia.
Qed.
Theorem C24_manager_nr_nodes md w : reach md w ->
  step QMgrNodes w = WOk (OutN (2 + N.of_nat (size (filter (fun x : ptr * node => inner x.1) (s_heap (w_s w)))))) w.
Proof.
  intros HR. pose proof (reach_inv HE _ _ HR) as HW. simpl. unfold query. simpl. unfold mgr_nr_nodes.
  destruct (i_nc _ _ _ HW) as (_&_&_&_&Htot&_). rewrite Htot. destruct w as [s h]. simpl in *. do 2 f_equal.
  destruct (ho_sink _ _ _ (i_heap _ _ _ HW)) as [[x Hb] [y Ht]]. simpl in *. set (m := s_heap s) in *.
  assert (Hsplit : filter (fun x : ptr * node => inner x.1) m = delete topsink (delete botsink m)).
  { apply map_eq. intros q. apply option_eq. intros n. rewrite map_filter_lookup_Some, !lookup_delete_Some. unfold inner. simpl. naive_solver. }
  rewrite Hsplit, !map_size_delete. rewrite lookup_delete_ne by apply bot_neq_top.
  assert (Hsz : (1 < size m)%nat).
  { rewrite <- (insert_delete m botsink _ Hb), map_size_insert_None by apply lookup_delete.
    rewrite <- (insert_delete (delete botsink m) topsink (Node e_mgr e_mgr topsink_index e_topkey e_topmark y)).
    - rewrite map_size_insert_None by apply lookup_delete. lia.
    - rewrite lookup_delete_ne by apply bot_neq_top. done. }
  rewrite Hb, Ht. lia.
Qed.
(** a new node never reuses the address of an existing one *)
Theorem C24_reserve_fresh md w : reach md w ->
  exists p s', reserve_node (w_s w) = Ok p s' /\ s_heap (w_s w) !! p = None /\ s_heap s' = s_heap (w_s w) /\
    mgr_nr_nodes s' = mgr_nr_nodes (w_s w) + 1.
Proof.
  intros HR. pose proof (reach_inv HE _ _ HR) as HW.
  destruct (reserve_node_spec HE _ (i_nc _ _ _ HW)) as (p&nc'&Hp&Hn&_&Hok). exists p. eexists. split; [exact Hp|].
  split_and!; [done|done|]. unfold mgr_nr_nodes. simpl.
  destruct (i_nc _ _ _ HW) as (_&_&_&_&Htot&_). destruct (Hok (Node 0 0 0 0 false 0)) as (_&_&_&_&Htot'&_).
  rewrite Htot', Htot, map_size_insert_None by done. lia.
Qed.

(** ** C25: every table fits into its page, all its cells are initialised *)
Theorem C25_page_large_enough md w v t : reach md w -> s_vars (w_s w) !! v = Some t ->
  vt_mask t + 1 <= pg_cap (vt_page t) /\ vt_mask t + 1 <= N.of_nat (length (pg_slots (vt_page t))) /\
  exists k, 6 <= k <= 19 /\ vt_mask t + 1 = 2 ^ k.
Proof.
  intros HR Ht. pose proof (reach_inv HE _ _ HR) as HW.
  destruct (i_tab _ _ _ HW _ _ Ht) as (k&(Hm&H6&Hlen)&Hk&_&_&_&Hcap&Hlow&Hmx).
  assert (Heq : vt_mask t + 1 = 2 ^ k) by (rewrite Hm, N.ones_equiv; pose proof (pow_pos k); lia).
  rewrite !Heq. split_and!; [done| |exists k; split; [lia|done]]. unfold tsize in Hlen. lia.
Qed.
(** at most half the cells, plus one, are occupied; so every probe sequence ends *)
Theorem C25_free_cell md w v t : reach md w -> s_vars (w_s w) !! v = Some t ->
  exists i, N.of_nat i <= vt_mask t /\ pg_slots (vt_page t) !! i = Some 0.
Proof.
  intros HR Ht. pose proof (reach_inv HE _ _ HR) as HW.
  destruct (i_tab _ _ _ HW _ _ Ht) as (k&Hsh&Hk&_&_&Hload&Hcap&Hlow&Hmx).
  destruct (zeros_pos_ex k (pg_slots (vt_page t))) as (i&Hi&Hz).
  - apply Hsh.
  - by eapply tab_zeros_pos.
  - exists i. split; [|done]. destruct Hsh as [-> _]. rewrite N.ones_equiv. unfold tsize in Hi. lia.
Qed.

(** no two tables share memory, and no table's memory is available for reuse; pages available for
    reuse do not overlap either, are available in one place only and at least as large as their
    size class; every page lies in an allocated block of 2^20 words *)
Theorem C25_pages_private md w : reach md w ->
  let pcs := s_pcs (w_s w) in
  (forall v v' t t', s_vars (w_s w) !! v = Some t -> s_vars (w_s w) !! v' = Some t' -> v <> v' ->
     pg_apart (pg_id (vt_page t)) (pg_id (vt_page t'))) /\
  (forall v t c y, s_vars (w_s w) !! v = Some t -> y ∈ avail c pcs -> pg_apart (pg_id (vt_page t)) y) /\
  (forall c c' i j x y, avail c pcs !! i = Some x -> avail c' pcs !! j = Some y -> (c, i) <> (c', j) -> pg_apart x y) /\
  (forall c x, x ∈ avail c pcs -> c <= pi_cap x) /\
  (forall x, ((exists v t, s_vars (w_s w) !! v = Some t /\ x = pg_id (vt_page t)) \/ exists c, x ∈ avail c pcs) ->
     (pi_blk x < pc_blk pcs)%nat /\ pi_off x + pi_cap x <= 2 ^ 20).
Proof.
  intros HR pcs. pose proof (reach_inv HE _ _ HR) as HW. pose proof (i_pcs _ _ _ HW) as HP. fold pcs in HP.
  assert (Hl : forall v t, s_vars (w_s w) !! v = Some t -> pids (s_vars (w_s w)) !! v = Some (pg_id (vt_page t))).
  { intros v t Hv. unfold pids. change (map ?f ?l) with (f <$> l). by rewrite list_lookup_fmap, Hv. }
  split_and!.
  - intros v v' t t' Hv Hv' Hne. eapply (pg_tt _ _ HP); eauto.
  - intros v t c y Hv Hy. eapply (pg_tf _ _ HP); [|exact Hy]. eapply elem_of_list_lookup_2, Hl, Hv.
  - intros c c' i j x y Hx Hy Hne.
    destruct (pg_ff _ _ HP c c' x y) as [[-> ->]|]; [by eapply elem_of_list_lookup_2|by eapply elem_of_list_lookup_2| |done].
    exfalso. apply Hne. f_equal. eapply NoDup_lookup; [apply (pg_nd _ _ HP)|exact Hx|exact Hy].
  - apply (pg_capok _ _ HP).
  - intros x Hx. destruct (pg_in _ _ HP x) as (_&Hb&Ho); [|split; [done|exact Ho]].
    destruct Hx as [(v&t&Hv&->)|Hx]; [left|by right]. eapply elem_of_list_lookup_2, Hl, Hv.
Qed.
(** no page is lost: all the pages into which a block was cut are used by a table or available *)
Theorem C25_no_page_lost md w b : reach md w -> (b < pc_blk (s_pcs (w_s w)))%nat ->
  exists cls, 0 < cls <= 2 ^ 20 /\ forall i, i < 2 ^ 20 / cls ->
    let x := PgId cls b (i * cls) in
    (exists v t, s_vars (w_s w) !! v = Some t /\ pg_id (vt_page t) = x) \/ exists c, x ∈ avail c (s_pcs (w_s w)).
Proof.
  intros HR Hb. pose proof (reach_inv HE _ _ HR) as HW. destruct (pg_all _ _ (i_pcs _ _ _ HW) b Hb) as (cls&Hc&Hi).
  exists cls. split; [exact Hc|]. intros i Hlt x. destruct (Hi i Hlt) as [Hx|Hx]; [left|by right].
  apply elem_of_list_lookup in Hx as [v Hv]. unfold pids in Hv. change (map ?f ?l) with (f <$> l) in Hv.
  rewrite list_lookup_fmap in Hv. destruct (s_vars (w_s w) !! v) as [t|] eqn:Ht; [|done]. simpl in Hv. simplify_eq.
  by exists v, t.
Qed.

(** ** C27: memo entries are true equations; results do not depend on the memo table *)
Theorem C27_entries md w m i j k : reach md w -> m ∈ mc_tab (s_memo (w_s w)) -> m_r m <> 0 ->
  hnd w i = Some (m_f m) -> hnd w j = Some (m_g m) -> hnd w k = Some (m_r m) ->
  forall x, covers w x -> exists a b, val w i x = Some a /\ val w j x = Some b /\
    (m_h m = and_symb -> val w k x = Some (a && b)) /\
    (m_h m = or_symb -> (md_xor md = false -> val w k x = Some (a || b)) /\ (md_or md = false -> val w k x = Some (xorb a b))) /\
    (forall l, hnd w l = Some (m_h m) -> exists c, val w l x = Some c /\ (md_xor md = false -> val w k x = Some (if a then b else c))).
Proof.
  intros HR Hm H0 Hi Hj Hk x Hx. pose proof (reach_inv HE _ _ HR) as HW.
  destruct (i_memo _ _ _ HW) as [_ Hent]. destruct (Hent _ Hm H0) as (tf&tg&tr&Hf&Hg&Hr&Ha&Ho&Hite).
  assert (Hne : forall q t, repr (s_heap (w_s w)) q t -> q <> 0).
  { intros q t Hq. pose proof (inv_repr_addr HE _ _ _ _ _ HW Hq). lia. }
  assert (Hv : forall l q t, hnd w l = Some q -> repr (s_heap (w_s w)) q t -> val w l x = Some (evalt t (asg x))).
  { intros l q t Hl Hq. eapply val_covers; [exact HW| |done]. split_and!; eauto. }
  exists (evalt tf (asg x)), (evalt tg (asg x)). rewrite (Hv _ _ _ Hi Hf), (Hv _ _ _ Hj Hg), (Hv _ _ _ Hk Hr).
  split_and!; auto.
  - intros He. by rewrite Ha.
  - intros He. destruct (Ho He (asg x)) as [Ho1 Ho2]. split; intros Hmd; f_equal; auto.
  - intros l Hl. destruct (decide (m_h m = and_symb \/ m_h m = or_symb)) as [He|He].
    + exfalso. assert (Hlow : m_h m < 4096) by (destruct He as [->| ->]; unfold and_symb, or_symb, node_size; lia).
      assert (Hd : m_h m ∈ dom (s_heap (w_s w))).
      { eapply winv_dom; [exact HW|exact Hl|]. destruct He as [->| ->]; unfold and_symb, or_symb, node_size; lia. }
      apply elem_of_dom in Hd as [n Hn]. pose proof (inv_addr HE _ _ _ _ _ HW Hn). lia.
    + destruct Hite as (th&Hh&Hx'&_); [tauto|tauto|]. exists (evalt th (asg x)). rewrite (Hv _ _ _ Hl Hh). split; [done|].
      intros Hmd. by rewrite Hx'.
Qed.
(** the state with the memo table forgotten *)
Definition forget_memo (w : world) : world :=
  W (MState (s_heap (w_s w)) (s_nc (w_s w)) (s_pcs (w_s w)) memo_init (s_vars (w_s w)) (s_rnd (w_s w))) (w_h w).
Lemma winv_forget md w : WInv md w -> WInv md (forget_memo w).
Proof.
  intros HW. apply (set_memo_inv _ _ _ memo_init) in HW; [exact HW|]. split; [done|].
  intros m Hm. unfold memo_init in Hm. simpl in Hm. apply elem_of_list_singleton in Hm as ->. done.
Qed.
(** C27: with the memo table emptied at any moment, any operation still gives a handle with
    the same function as with the table it had *)
Theorem C27_transparent md w o : md <> MMix -> reach md w -> allowed md w o -> is_new o = true ->
  exists phi, yields w o phi /\ yields (forget_memo w) o phi.
Proof.
  intros Hmix HR Ha Hn. pose proof (reach_inv HE _ _ HR) as HW. pose proof (winv_forget _ _ HW) as HW'.
  assert (Hh : forall i p t, hrep (forget_memo w) i p t <-> hrep w i p t) by (intros; done).
  assert (Hsupp : forall i v, live w i -> supp (forget_memo w) i v <-> supp w i v).
  { intros i v Hi. destruct (live_hrep _ _ _ HW Hi) as (p&t&Hr).
    rewrite (supp_hrep _ _ _ _ _ _ HW Hr), (supp_hrep _ _ _ _ _ _ HW' (proj2 (Hh _ _ _) Hr)). done. }
  assert (Hval : forall l, live w l -> forall x, val (forget_memo w) l x = val w l x).
  { intros l Hl x. destruct (live_hrep _ _ _ HW Hl) as (p&t&Hr).
    by rewrite (val_hrep _ _ _ _ _ x HW Hr), (val_hrep _ _ _ _ _ x HW' (proj2 (Hh _ _ _) Hr)). }
  assert (Hclash : forall i j k, live w i -> live w j -> live w k -> ite_clash (forget_memo w) i j k -> ite_clash w i j k).
  { intros i j k Hi Hj Hk (x&Hx&Hc). exists x. split; [exact Hx|]. revert Hc. simpl.
    setoid_rewrite (Hval i Hi). setoid_rewrite (Hval j Hj). setoid_rewrite (Hval k Hk). done. }
  assert (Ha' : allowed md (forget_memo w) o).
  { destruct o; simpl in Ha |- *; try done.
    - destruct Ha as (?&?&?&Ho). split_and!; auto. intros Hm u Hu. apply Ho; auto. rewrite <- !Hsupp by done. done.
    - destruct Ha as (?&?&?&?&Ho). split_and!; auto. rewrite Hsupp by done. destruct Ho as [[? ?]|?]; [left|by right]. split; auto.
    - destruct Ha as (?&?&Hd&?&Ho). split_and!; auto.
      + intros v Hv. apply Hd. by rewrite <- Hsupp.
      + intros Hm a b a' b' Hsa Hsb. apply Ho; auto; by rewrite <- Hsupp.
    - destruct Ha as (?&?&Hd&?&Ho). split_and!; auto.
      + intros v Hv. apply Hd. by rewrite <- Hsupp.
      + intros Hm a b a' b' Hsa Hsb. apply Ho; auto; by rewrite <- Hsupp. }
  destruct (opsem_total _ _ _ HW Ha Hn) as [phi Hphi]. exists (fun x => phi (asg x)).
  split; eapply sem_yields; eauto using sound_pure.
Qed.

(** ** C33: destruction *)
Lemma drop_all_spec md n : forall w, WInv md w -> (n <= length (w_h w))%nat ->
  exists w', Client.drop_all n w = WOk OutU w' /\ WInv md w' /\ length (w_h w') = length (w_h w) /\
    (forall k, (k < n)%nat -> hnd w' k = None) /\ (forall k, (n <= k)%nat -> hnd w' k = hnd w k).
Proof.
  induction n as [|n IH]; intros w HW Hn; simpl.
  - exists w. split_and!; auto. intros k Hk. lia.
  - destruct (hnd w n) as [p|] eqn:Hp.
    + assert (Ha : allowed md w (ODrop n)) by (simpl; eauto).
      pose proof (step_good HE _ _ _ HW Ha) as Hg. simpl in Hg. unfold with1 in Hg |- *. rewrite Hp in *.
      destruct (ref_release_spec _ _ (w_s w) p HW) as (s'&Hs'&_).
      { intros H0. apply hnd_lookup in Hp. by eapply hcount_pos. }
      rewrite Hs' in *. cbn [ensures] in Hg. destruct Hg as (HW'&_&_).
      destruct (IH _ HW') as (w'&Hw'&HWw&Hlen&Hlt&Hge); [simpl; rewrite insert_length; lia|].
      exists w'. split; [exact Hw'|]. split; [done|]. split; [rewrite Hlen; simpl; by rewrite insert_length|]. split.
      * intros k Hk. destruct (decide (k = n)) as [->|]; [|apply Hlt; lia].
        rewrite Hge by lia. unfold hnd. simpl. by rewrite list_lookup_insert by lia.
      * intros k Hk. rewrite Hge by lia. unfold hnd. simpl. by rewrite list_lookup_insert_ne by lia.
    + destruct (IH w HW) as (w'&Hw'&HWw&Hlen&Hlt&Hge); [lia|].
      exists w'. split_and!; auto.
      * intros k Hk. destruct (decide (k = n)) as [->|]; [|apply Hlt; lia]. by rewrite Hge by lia.
      * intros k Hk. apply Hge. lia.
Qed.
Lemma hcount_all_none l p : (forall k, mjoin (l !! k) = None) -> hcount l p = 0%Z.
Proof.
  induction l as [|o l IH]; intros Hl; [done|]. simpl. rewrite IH by (intros k; exact (Hl (S k))).
  specialize (Hl 0%nat). simpl in Hl. subst o. rewrite decide_False; [done|]. by intros [? _].
Qed.
Theorem C33_destruction md w : md_ord md = true -> reach md w ->
  exists w', shutdown w = WOk OutU w' /\ mgr_nr_nodes (w_s w') = 2.
Proof.
  intros Ho HR. pose proof (reach_inv HE _ _ HR) as HW. unfold shutdown.
  destruct (drop_all_spec _ _ _ HW (Nat.le_refl _)) as (w1&Hw1&HW1&Hlen&Hlt&Hge). rewrite Hw1.
  assert (HI : Inv md (fun _ => 0%Z) (w_s w1)).
  { eapply inv_H_ext; [exact HW1|]. intros p. apply hcount_all_none. intros k.
    destruct (decide (k < length (w_h w))%nat) as [Hk|Hk]; [by apply Hlt|].
    rewrite lookup_ge_None_2 by lia. done. }
  destruct (mgr_destroy_spec _ _ HI Ho) as (s'&Hs'&Hn). unfold query. rewrite Hs'. eexists. by split.
Qed.

(** ** C36: low() and high() are the cofactors of the root variable *)
Theorem C36_cofactors md w i f : md_ord md = true -> reach md w -> evals w i f -> ~ isconst w i ->
  exists v, step (QVar i) w = WOk (OutN v) w /\ dep w i v /\ (forall u, dep w i u -> v <= u) /\
    yields w (OLow i) (fun x => f (<[N.to_nat v := false]> x)) /\
    yields w (OHigh i) (fun x => f (<[N.to_nat v := true]> x)).
Proof.
  intros Ho HR Hf Hc. pose proof (reach_inv HE _ _ HR) as HW. destruct (evals_hrep HE _ _ _ _ HW Hf) as (p&t&Hr&Hx).
  pose proof (nonconst_nonsink _ _ _ _ Hr Hc) as Hs. pose proof Hr as (Hp&H0&Ht).
  assert (Hord : ordt 0 t) by (eapply ho_ord; [apply HW|done|exact Ht]).
  assert (Hred : redt t) by (eapply repr_redt; [apply HW|exact Ht]).
  destruct (repr_nonsink _ _ _ Ht Hs) as (n&tl&th&Hn&->&Hl&Hh). exists (n_idx n).
  assert (Hv : n_idx n < nr_variables (w_s w)) by (eapply hrep_occurs; [exact HW|exact Hr|by left]).
  assert (Hins : forall x b, covers w x -> covers w (<[N.to_nat (n_idx n) := b]> x)) by (intros x b; unfold covers; by rewrite insert_length).
  split_and!.
  - simpl. rewrite (with1_hrep _ _ _ _ _ Hr). apply query_eq. by apply variable_eq.
  - eapply dep_depends; [exact HW|exact Hr|]. apply depends_occurs; auto. by left.
  - intros u Hd. apply (dep_depends _ _ _ _ _ _ HW Hr) in Hd. apply depends_occurs in Hd; auto.
    destruct Hord as (_&Hol&Hoh). destruct Hd as [->|[Hd|Hd]]; [lia| |].
    + pose proof (ordt_occurs _ _ _ Hol Hd). lia.
    + pose proof (ordt_occurs _ _ _ Hoh Hd). lia.
  - eapply (sem_yields HE _ _ (OLow i) (evalt tl) _ HW); [snd_tac|split; [by eapply hrep_live|done]|by exists p, (n_idx n), tl, th|].
    intros x Hcx. rewrite Hx by auto. destruct Hord as (_&Hol&Hoh).
    rewrite <- (evalt_br_lo (n_idx n) tl th (asg x) (n_idx n + 1)) by (done || lia). apply evalt_ext. intros u _.
    symmetry. apply upd_asg. unfold covers in Hcx. lia.
  - eapply (sem_yields HE _ _ (OHigh i) (evalt th) _ HW); [snd_tac|split; [by eapply hrep_live|done]|by exists p, (n_idx n), tl, th|].
    intros x Hcx. rewrite Hx by auto. destruct Hord as (_&Hol&Hoh).
    rewrite <- (evalt_br_hi (n_idx n) tl th (asg x) (n_idx n + 1)) by (done || lia). apply evalt_ext. intros u _.
    symmetry. apply upd_asg. unfold covers in Hcx. lia.
Qed.
End state2.
