(** * PropsGrow2.v -- nodes created by and_rec_limited (C73)

    Whatever it answers -- a BDD, null, or the exception -- every node it created is the conjunction of a
    sub-BDD of one operand and one of the other. *)
From Verif Require Export PropsGrow.
Open Scope N_scope.

Section grow2.
Context {E : Env} (HE : env_ok E).

Definition gr {A} md H s0 (J : bfun -> Prop) (m : M A) s : Prop :=
  match m s with Ok _ s' | Fail EThrow s' => grown md H s0 s' J | _ => True end.
Lemma grown_here md H s J : Inv md H s -> grown md H s s J.
Proof. intros HI. exists s. split_and!; auto using ext_refl. intros p Hp. by apply newn_none in Hp. Qed.
Lemma gr_ret {A} md H s0 J (a : A) s : grown md H s0 s J -> gr md H s0 J (ret a) s.
Proof. done. Qed.
Lemma gr_bind_ok {A B} md H s0 J (m : M A) (k : A -> M B) s a s1 : m s = Ok a s1 -> gr md H s0 J (k a) s1 -> gr md H s0 J (bind m k) s.
Proof. unfold gr, bind. by intros ->. Qed.
Lemma gr_step {A B} md H s0 J (m : M A) (k : A -> M B) s (Q : A -> mstate -> Prop) : sat m s Q -> gr md H s0 J m s ->
  (forall a s1, Q a s1 -> m s = Ok a s1 -> grown md H s0 s1 J -> gr md H s0 J (k a) s1) -> gr md H s0 J (bind m k) s.
Proof. unfold gr, bind, sat. destruct (m s) as [a s1|e s1]; [intros HQ Hg Hk; by apply Hk|]. by destruct e. Qed.
Lemma gr_mono {A} md H s0 (J J' : bfun -> Prop) (m : M A) s : (forall phi, J phi -> J' phi) -> gr md H s0 J m s -> gr md H s0 J' m s.
Proof. intros HJ. unfold gr. destruct (m s) as [a s1|e s1]; [|destruct e; try done]; by apply grown_mono. Qed.
Lemma gr_later {A} md H s0 s J (m : M A) : Inv md H s -> ext s0 s -> grown md H s0 s J -> gr md H s J m s -> gr md H s0 J m s.
Proof. intros HI He Hg. unfold gr. destruct (m s) as [a s1|e s1]; [|destruct e; try done]; intros Hx; eapply grown_step; eauto. Qed.

Lemma lim_grown md H limit s0 : md_ord md = true -> mok -> limit < size_max -> Inv md H s0 -> N.of_nat (size (s_heap s0)) < size_max ->
  forall fuel s f g tf tg, Inv md H s -> ext s0 s -> repr (s_heap s0) f tf -> repr (s_heap s0) g tg ->
  (2 * (ht tf + ht tg) + swp f g < fuel)%nat -> gr md H s (Jb andb tf tg) (and_limited_fuel fuel f g limit) s.
Proof.
  intros Hmo Hok Hlim HI0 Hsz fuel.
  induction fuel as [|fuel IH]; intros s f g tf tg HI He0 Hf0 Hg0 Hfu; [lia|].
  pose proof (repr_ext_s _ _ _ _ He0 Hf0) as Hf. pose proof (repr_ext_s _ _ _ _ He0 Hg0) as Hg.
  pose proof (grown_here md H s (Jb andb tf tg) HI) as Hhere.
  cbn [and_limited_fuel]. unfold swp in Hfu.
  destruct (nr_nodes_any md H s f tf HI Hf Hok) as (nnf&Hnnf&_). destruct (nr_nodes_any md H s g tg HI Hg Hok) as (nng&Hnng&_).
  destruct (N.eqb_spec f g) as [->|Hfg]; [eapply gr_bind_ok; [exact Hnnf|]; by destruct (limit <? nnf)|].
  destruct (N.ltb_spec g f) as [Hlt|Hge].
  { eapply gr_mono; [intros phi; apply Jb_comm, andb_comm|]. apply (IH s g f tg tf); auto. unfold swp. destruct (N.ltb_spec f g); lia. }
  destruct (N.eqb_spec f topsink) as [->|Hft]; [by eapply gr_bind_ok; [exact Hnng|]|].
  destruct (N.eqb_spec f botsink) as [->|Hfb]; [done|].
  destruct (N.eqb_spec g topsink) as [->|Hgt]; [by eapply gr_bind_ok; [exact Hnnf|]|].
  destruct (N.eqb_spec g botsink) as [->|Hgb]; [done|].
  destruct (cache_lookup_spec HE md H s f g and_symb tf tg HI Hf Hg) as (m&Hm&Hcase).
  eapply gr_bind_ok; [exact Hm|].
  destruct Hcase as [->|(Hm0&tf'&tg'&tr&Hf'&Hg'&Hr&Hsem&_)]; cbn [m_f m_g m_h m_r] in *.
  2:{ apply N.eqb_neq in Hm0. rewrite Hm0. cbn [negb].
      destruct (nr_nodes_any md H s m tr HI Hr Hok) as (nnm&Hnnm&_). eapply gr_bind_ok; [exact Hnnm|].
      destruct (nnm <=? limit); [|done]. eapply gr_bind_ok; [by eapply touch_repr|]. done. }
  rewrite N.eqb_refl. cbn [negb].
  assert (Hsf : ~ sink f) by (unfold sink; tauto). assert (Hsg : ~ sink g) by (unfold sink; tauto).
  destruct (repr_nonsink _ _ _ Hf0 Hsf) as (nf0&lf&hf&Hnf0&->&Hlf&Hhf).
  destruct (repr_nonsink _ _ _ Hg0 Hsg) as (ng0&lg&hg&Hng0&->&Hlg&Hhg).
  destruct (proj1 He0 _ _ Hnf0) as (nf&Hnf&(Hf1&Hf2&Hf3&_)). destruct (proj1 He0 _ _ Hng0) as (ng&Hng&(Hg1&Hg2&Hg3&_)).
  pose proof (i_heap _ _ _ HI) as Hh.
  destruct (ho_node _ _ _ Hh _ _ Hnf Hsf) as [Hvf _]. destruct (ho_node _ _ _ Hh _ _ Hng Hsg) as [Hvg _].
  eapply gr_bind_ok; [by eapply variable_eq|]. eapply gr_bind_ok; [by eapply variable_eq|].
  destruct (lookup_lt_is_Some_2 (s_vars s) (N.to_nat (n_idx nf))) as [vf Hvf']; [lia|].
  destruct (lookup_lt_is_Some_2 (s_vars s) (N.to_nat (n_idx ng))) as [vg Hvg']; [lia|].
  eapply gr_bind_ok; [by apply getV_eq|]. eapply gr_bind_ok; [by apply getV_eq|]. cbv zeta.
  set (v := if n_idx nf <? n_idx ng then n_idx nf else n_idx ng).
  rewrite Hf3, Hg3 in *. set (tf := Br (n_idx nf) lf hf) in *. set (tg := Br (n_idx ng) lg hg) in *.
  set (cp := fun b (p : ptr) (n : node) => if v =? n_idx n then (if b : bool then n_hi n else n_lo n) else p).
  assert (Hcf : forall b, repr (s_heap s0) (cp b f nf) (cof v b tf)).
  { intros b. unfold cp, tf; simpl. rewrite <- Hf1, <- Hf2. destruct (v =? n_idx nf); [by destruct b|done]. }
  assert (Hcg : forall b, repr (s_heap s0) (cp b g ng) (cof v b tg)).
  { intros b. unfold cp, tg; simpl. rewrite <- Hg1, <- Hg2. destruct (v =? n_idx ng); [by destruct b|done]. }
  assert (Hv : v = n_idx nf \/ v = n_idx ng) by (unfold v; destruct (n_idx nf <? n_idx ng); auto).
  assert (Hvle : v <= n_idx nf /\ v <= n_idx ng) by (unfold v; destruct (N.ltb_spec (n_idx nf) (n_idx ng)); lia).
  assert (Hvn : v < N.of_nat (length (s_vars s))) by (destruct Hv as [-> | ->]; done).
  assert (Hht : forall b, (ht (cof v b tf) + ht (cof v b tg) < ht tf + ht tg)%nat).
  { intros b. pose proof (ht_cof v b tf). pose proof (ht_cof v b tg).
    destruct Hv as [Hv|Hv].
    - pose proof (ht_cof_lt v b lf hf) as Hlt. unfold tf in *. rewrite <- Hv in *. lia.
    - pose proof (ht_cof_lt v b lg hg) as Hlt. unfold tg in *. rewrite <- Hv in *. lia. }
  assert (Hfu' : forall b, (2 * (ht (cof v b tf) + ht (cof v b tg)) + swp (cp b f nf) (cp b g ng) < fuel)%nat).
  { intros b. specialize (Hht b). unfold swp. case_match; lia. }
  assert (Hoo : forall b, ordt (v + 1) (cof v b tf) /\ ordt (v + 1) (cof v b tg)).
  { intros b. split; apply cof_ordt.
    - pose proof (ho_ord _ _ _ Hh Hmo _ _ Hf) as Hx. unfold tf in *. simpl in *. destruct Hx as (?&?&?). split_and!; auto. lia.
    - pose proof (ho_ord _ _ _ Hh Hmo _ _ Hg) as Hx. unfold tg in *. simpl in *. destruct Hx as (?&?&?). split_and!; auto. lia. }
  assert (HJ : forall b phi, Jb andb (cof v b tf) (cof v b tg) phi -> Jb andb tf tg phi) by (intros b phi; apply Jb_sub; apply cof_sub).
  eapply gr_bind_ok; [eapply low_cof; eauto; [rewrite <- Hf1|rewrite <- Hf2]; eauto using repr_ext_s|].
  eapply gr_bind_ok; [eapply low_cof; eauto; [rewrite <- Hg1|rewrite <- Hg2]; eauto using repr_ext_s|].
  eapply gr_step; [apply (and_limited_fuel_spec HE md H limit s0 Hok Hlim HI0 Hsz fuel s _ _ _ _ HI He0 (Hcf false) (Hcg false) (Hfu' false))| |].
  { eapply gr_mono; [apply (HJ false)|]. apply (IH s _ _ _ _ HI He0 (Hcf false) (Hcg false) (Hfu' false)). }
  intros [r0 n0] s1 (HI1&He1&Hc0) _ Hgr1. cbn [fst snd] in Hc0.
  destruct (lim_asserts r0 n0 s1 ltac:(tauto)) as [Ha1 Ha2].
  eapply gr_bind_ok; [exact Ha1|]. eapply gr_bind_ok; [exact Ha2|]. clear Ha1 Ha2.
  destruct (N.ltb_spec limit n0) as [|Hn0]; [done|].
  destruct Hc0 as [(_&->&_)|(Hr0nz&Hn0nz&(t0&Hr0&Ht0)&_&Hb0)]; [lia|].
  pose proof (ext_trans _ _ _ He0 He1) as He01.
  assert (Hhi : forall p n tl th n', s_heap s !! p = Some n -> s_heap s0 !! p = Some n' ->
      repr (s_heap s0) (n_lo n') tl -> repr (s_heap s0) (n_hi n') th ->
      (if v =? n_idx n then high p else ret p) s1 = Ok (cp true p n) s1).
  { intros p n tl th n' Hp Hp' Htl Hth. destruct (proj1 He1 _ _ Hp) as (n1&Hn1&(Hl1&Hh1&Hi1&_)).
    destruct (proj1 He01 _ _ Hp') as (n2&Hn2&(Hl2&Hh2&Hi2&_)). assert (n2 = n1) as -> by congruence.
    unfold cp. rewrite Hi1, Hh1.
    eapply high_cof; [exact HI1|exact Hn1|rewrite <- Hl2|rewrite <- Hh2]; eapply repr_ext_s; eauto. }
  eapply gr_bind_ok; [eapply (Hhi f nf); eauto|].
  eapply gr_bind_ok; [eapply (Hhi g ng); eauto|].
  apply (gr_later md H s s1); auto.
  eapply gr_step; [apply (and_limited_fuel_spec HE md H limit s0 Hok Hlim HI0 Hsz fuel s1 _ _ _ _ HI1 He01 (Hcf true) (Hcg true) (Hfu' true))| |].
  { eapply gr_mono; [apply (HJ true)|]. apply (IH s1 _ _ _ _ HI1 He01 (Hcf true) (Hcg true) (Hfu' true)). }
  intros [r1 n1] s2 (HI2&He2&Hc1) _ Hgr2. cbn [fst snd] in Hc1.
  destruct (lim_asserts r1 n1 s2 ltac:(tauto)) as [Ha1 Ha2].
  eapply gr_bind_ok; [exact Ha1|]. eapply gr_bind_ok; [exact Ha2|]. clear Ha1 Ha2.
  assert (He02 := ext_trans _ _ _ He1 He2).
  destruct ((n0 =? size_max) || (n1 =? size_max) || (limit <? add64 n0 n1)) eqn:Hbig; [done|].
  apply orb_false_iff in Hbig as [Hb1 _]. apply orb_false_iff in Hb1 as [_ Hb1]. apply N.eqb_neq in Hb1.
  destruct Hc1 as [(_&->&_)|(Hr1nz&_&(t1&Hr1&Ht1)&_&Hb1')]; [done|].
  pose proof (repr_ext_s _ _ _ _ He2 Hr0) as Hr0'.
  apply (gr_later md H s1 s2); auto.
  assert (Hufs : sat (unique_find_v v r0 r1) s2 (uf_post md H s2 v t0 t1)).
  { apply (unique_find_spec HE md H s2 v r0 r1 t0 t1); auto.
    - by rewrite (inv_nv_ext _ _ He02).
    - intros Ho. split.
      + apply (den_ordt md H s2 _ _ _ _ HI2 Ho Hr0' Ht0). intros u r b Hu. simpl. destruct (Hoo false) as [Ha Hb].
        rewrite (evalt_upd_lt _ _ _ _ _ Ha), (evalt_upd_lt _ _ _ _ _ Hb) by done. done.
      + apply (den_ordt md H s2 _ _ _ _ HI2 Ho Hr1 Ht1). intros u r b Hu. simpl. destruct (Hoo true) as [Ha Hb].
        rewrite (evalt_upd_lt _ _ _ _ _ Ha), (evalt_upd_lt _ _ _ _ _ Hb) by done. done. }
  assert (Hall : forall r s3, unique_find_v v r0 r1 s2 = Ok r s3 ->
    Inv md H s3 /\ ext s2 s3 /\ (exists t3, repr (s_heap s3) r t3 /\ forall x, evalt t3 x = evalt tf x && evalt tg x) /\ grown md H s2 s3 (Jb andb tf tg)).
  { intros r s3 Hr. pose proof Hufs as Hu. unfold sat in Hu. rewrite Hr in Hu. apply uf_post_post in Hu. destruct Hu as (HI3&He3&t3&Hr3&Ht3).
    assert (Hsem : forall x, evalt t3 x = evalt tf x && evalt tg x).
    { intros x. rewrite Ht3, Ht0, Ht1, (evalt_cof v tf x), (evalt_cof v tg x). by destruct (x v). }
    split_and!; eauto. exists s3. split_and!; auto. intros p Hp.
    assert (p = r) as ->. { unfold unique_find_v, with_fuel in Hr. destruct (uf_new HE _ _ _ _ _ _ _ (i_nc _ _ _ HI2) Hr) as [Hq _]. by apply Hq. }
    exists t3. split; [done|]. exists tf, tg. split_and!; auto using subt_refl. }
  eapply gr_step; [exact Hufs| |].
  { unfold gr. destruct (unique_find_v v r0 r1 s2) as [r s3|e s3] eqn:Hr; [by eapply Hall|]. destruct e; try done.
    apply uf_fail in Hr. exists s2. split_and!; auto using ext_refl. intros p Hp. by apply newn_none in Hp. }
  intros r s3 _ Hr Hgr3. destruct (Hall r s3 Hr) as (HI3&He3&(t3&Hr3&Hsem)&_).
  assert (He03 := ext_trans _ _ _ He02 He3).
  pose proof (repr_addr HE _ _ _ _ _ HI3 Hr3) as Hra.
  eapply gr_bind_ok; [apply assert_eq, negb_true_iff, N.eqb_neq; lia|].
  destruct (cache_insert_spec HE md H s3 f g and_symb r HI3) as (mc&Heq&HI').
  { eexists _, _, _. split_and!; cbn [m_f m_g m_h m_r]; [eapply repr_ext_s; [|exact Hf]; eauto|eapply repr_ext_s; [|exact Hg]; eauto|eauto| | |]; done. }
  eapply gr_bind_ok; [exact Heq|]. apply gr_ret. destruct Hgr3 as (sx&?&?&Hhx&Hnx). exists sx. split_and!; auto.
Qed.

Theorem C73_limited md w i j limit a b : md_ord md = true -> reach md w -> allowed md w (OAndLim i j limit) ->
  nnodes w i a -> nnodes w j b ->
  (forall r w', step (OAndLim i j limit) w = WOk r w' -> mgr_nr_nodes (w_s w') + 1 <= mgr_nr_nodes (w_s w) + N.of_nat ((a + 1) * (b + 1))) /\
  (mgr_nr_nodes (w_s w) + N.of_nat ((a + 1) * (b + 1)) <= 262145 -> exists r w', step (OAndLim i j limit) w = WOk r w').
Proof.
  intros Hm HR Hal Ha Hb. pose proof (reach_inv HE _ _ HR) as HW. destruct (nnodes_hrep HE _ _ _ _ HR Ha) as (Hi&p&tf&tsf&Hf&<-&Hif).
  destruct (nnodes_hrep HE _ _ _ _ HR Hb) as (Hj&q&tg&tsg&Hg&<-&Hig). pose proof Hf as (_&_&Hrf). pose proof Hg as (_&_&Hrg).
  pose proof Hal as (_&_&Hsu&Hlim&Hsz). rewrite (mgr_size HE _ _ HR) in Hsz |- *.
  assert (Hok : mok) by exact Hsu.
  assert (Hb' : forall s', grown md (hcount (w_h w)) (w_s w) s' (Jb andb tf tg) ->
    (size (s_heap s') + 1 <= size (s_heap (w_s w)) + (length tsf + 1) * (length tsg + 1))%nat).
  { intros s' Hgr. pose proof (bin_grown HE md _ _ s' andb true tf tg tsf tsg Hm HW) as Hbb. apply Hbb; auto; by intros []. }
  assert (Hgr : gr md (hcount (w_h w)) (w_s w) (Jb andb tf tg) (and_rec_limited p q limit) (w_s w)).
  { unfold and_rec_limited, with_fuel, gr. apply (lim_grown md _ limit (w_s w)); auto using ext_refl.
    pose proof (fuel_ht _ _ _ Hrf). pose proof (fuel_ht _ _ _ Hrg). unfold swp. case_match; lia. }
  pose proof (and_limited_spec HE md _ (w_s w) p q tf tg limit Hok Hlim Hsz HW Hrf Hrg) as Hsp. unfold sat in Hsp. unfold gr in Hgr.
  assert (Hout : match step (OAndLim i j limit) w with WOk _ w' | WFail EThrow w' =>
     (size (s_heap (w_s w')) + 1 <= size (s_heap (w_s w)) + (length tsf + 1) * (length tsg + 1))%nat | _ => True end).
  { cbn [step]. rewrite (with2_hrep _ _ _ _ _ _ _ _ Hf Hg).
    destruct (and_rec_limited p q limit (w_s w)) as [[r n] s1|e s1]; [|destruct e; try done; by apply Hb'].
    apply Hb' in Hgr. pose proof (kd_acquire r s1) as Hd. pose proof (ntM_acquire r s1) as Hn. destruct (ref_acquire r s1) as [u s2|e s2].
    - cbn [w_s]. by rewrite <- (size_dom (D := gset N) (s_heap s2)), Hd, size_dom.
    - destruct e; try done. by destruct (Hn s2). }
  split.
  - intros r w' Hs. rewrite (mgr_size HE md w') by (by eapply reach_step). rewrite Hs in Hout. lia.
  - intros HB. destruct (step (OAndLim i j limit) w) as [r w'|e w'] eqn:Hs; [eauto|]. exfalso.
    destruct (C26_throws_only_full HE _ _ _ _ _ HR Hal Hs) as (->&v&Hv).
    assert (size (nodes_of (s_heap (w_s w')) v) <= size (s_heap (w_s w')))%nat; [|lia].
    rewrite <- !(size_dom (D := gset N)). apply subseteq_size, dom_filter_subseteq.
Qed.
End grow2.
