(** * Limited.v -- and_rec with a node limit *)
From Verif Require Export Rebase.
Open Scope N_scope.

Section limited.
Context {E : Env} (HE : env_ok E).

(** the assert in nr_nodes does not trip over the uninitialised mark bits of the constants *)
Definition mok : Prop := e_ndebug = true \/ e_botmark = false /\ e_topmark = false.

Lemma hext_children md H s0 s p t q : Inv md H s0 -> ext s0 s -> repr (s_heap s0) p t ->
  reach_in (s_heap s) p q -> q ∈ dom (s_heap s0).
Proof.
  intros HI He Hr Hre. revert t Hr.
  induction Hre as [p n Hs Hp|p n q Hs Hp Hre IH|p n q Hs Hp Hre IH]; intros t Hr;
    destruct (repr_nonsink _ _ _ Hr Hs) as (n'&tl&th&Hn'&->&Hl&Hh).
  - by apply elem_of_dom_2 in Hn'.
  - destruct (proj1 He _ _ Hn') as (n2&Hn2&(Hlo&_)). assert (n2 = n) as -> by congruence. rewrite Hlo in Hl. eauto.
  - destruct (proj1 He _ _ Hn') as (n2&Hn2&(_&Hhi&_)). assert (n2 = n) as -> by congruence. rewrite Hhi in Hh. eauto.
Qed.

(** an ordered diagram over [vs] has fewer than 2^|vs| nodes *)
Definition pow2 (vs : list N) : N := 2 ^ N.of_nat (length vs).
Lemma pow2_pos vs : 0 < pow2 vs.
Proof. apply N.neq_0_lt_0, N.pow_nonzero. done. Qed.
Lemma pow2_drop v vs : v ∈ vs -> 2 * pow2 (filter (fun u => u <> v) vs) <= pow2 vs.
Proof.
  intros Hv. unfold pow2. rewrite <- N.pow_succ_r'. apply N.pow_le_mono_r; [done|].
  enough (length (filter (fun u => u <> v) vs) < length vs)%nat by lia.
  clear -Hv. induction vs as [|w vs IH]; [by apply elem_of_nil in Hv|].
  pose proof (filter_length (fun u => u <> v) vs). rewrite filter_cons. apply elem_of_cons in Hv as [-> | Hv].
  - rewrite decide_False by tauto. simpl. lia.
  - specialize (IH Hv). case_decide; simpl; lia.
Qed.
Lemma reach_list h p t : repr h p t -> forall lb vs, ordt lb t -> (forall u, occurs u t -> u ∈ vs) ->
  exists L, N.of_nat (length L) < pow2 vs /\ forall q, reach_in h p q -> q ∈ L.
Proof.
  intros Hr. induction Hr as [| |p n tl th Hs Hp Hl IHl Hh IHh]; intros lb vs Ho Hv.
  1,2: exists []; split; [apply pow2_pos|]; intros q Hq; exfalso; inversion Hq as [? ? Hx|? ? ? Hx|? ? ? Hx]; subst; apply Hx; unfold sink; auto.
  simpl in Ho. destruct Ho as (_&Hol&Hoh).
  assert (Hvv : n_idx n ∈ vs) by (apply Hv; by left). set (vs' := filter (fun u => u <> n_idx n) vs).
  destruct (IHl (n_idx n + 1) vs' Hol) as (L1&HL1&H1).
  { intros u Hu. apply elem_of_list_filter. split; [|apply Hv; simpl; auto]. pose proof (ordt_occurs _ _ _ Hol Hu). lia. }
  destruct (IHh (n_idx n + 1) vs' Hoh) as (L2&HL2&H2).
  { intros u Hu. apply elem_of_list_filter. split; [|apply Hv; simpl; auto]. pose proof (ordt_occurs _ _ _ Hoh Hu). lia. }
  exists (p :: L1 ++ L2). split.
  - pose proof (pow2_drop _ _ Hvv). unfold vs' in *. simpl. rewrite app_length. lia.
  - intros q Hq. inversion Hq as [? ? ? ?|? n' ? ? Hp' Hre|? n' ? ? Hp' Hre]; subst; [left| |];
      assert (n' = n) as -> by congruence; right; apply elem_of_app; auto.
Qed.

Lemma nr_nodes_any md H s p t : Inv md H s -> repr (s_heap s) p t -> mok -> exists n, nr_nodes p s = Ok n s /\
  (forall md0 H0 s0 t0, Inv md0 H0 s0 -> ext s0 s -> repr (s_heap s0) p t0 -> n <= N.of_nat (size (s_heap s0))) /\
  (md_ord md = true -> forall vs, (forall u, occurs u t -> u ∈ vs) -> n < pow2 vs).
Proof.
  intros HI Hr Hok. destruct (decide (sink p)) as [Hs|Hs].
  - exists 0. split; [by apply (nr_nodes_sink s md H HI)|]. split; [lia|]. intros. apply pow2_pos.
  - destruct (nr_nodes_spec s md H HI p t Hr Hs) as (l&[Hnd Hl]&Hn). eexists. split; [exact Hn|].
    split; [|intros Ho vs Hv; destruct (reach_list _ _ _ Hr 0 vs (ho_ord _ _ _ (i_heap _ _ _ HI) Ho _ _ Hr) Hv) as (L&HL&HLi);
      eapply N.le_lt_trans; [|exact HL]; enough (length l <= length L)%nat by lia; apply submseteq_length, NoDup_submseteq; [done|];
      intros q Hq; apply HLi, Hl, Hq].
    intros md0 H0 s0 t0 HI0 He0 Hr0. enough (length l <= size (s_heap s0))%nat by lia.
    rewrite <- (size_list_to_set (C := gset N) l), <- (size_dom (D := gset N)) by done.
    apply subseteq_size. intros q Hq%elem_of_list_to_set. apply Hl in Hq. by eapply hext_children.
Qed.

(** [vs] contains every variable of the two operands *)
Definition vcov (tf tg : bdd) (vs : list N) : Prop := forall u, occurs u tf \/ occurs u tg -> u ∈ vs.
Definition lim_post md H s limit f g tf tg : ptr * N -> mstate -> Prop := fun rn s' =>
  Inv md H s' /\ ext s s' /\
  (rn.1 = 0 /\ rn.2 = size_max /\ (md_ord md = true -> forall vs, vcov tf tg vs -> limit + 1 < pow2 vs) \/
   rn.1 <> 0 /\ rn.2 <> size_max /\ den s' rn.1 (fun r => evalt tf r && evalt tg r) /\
   (rn.2 <= limit \/ sink f \/ sink g) /\ (md_ord md = true -> forall vs, vcov tf tg vs -> rn.2 < pow2 vs)).

Lemma lim_here md H s limit f g tf tg r n : Inv md H s -> den s r (fun r => evalt tf r && evalt tg r) -> n <> size_max ->
  (n <= limit \/ sink f \/ sink g) -> (md_ord md = true -> forall vs, vcov tf tg vs -> n < pow2 vs) -> lim_post md H s limit f g tf tg (r, n) s.
Proof.
  intros HI Hd Hn ? ?. split_and!; auto using ext_refl. right. cbn [fst snd]. split_and!; auto.
  destruct Hd as (t&Ht&_). pose proof (repr_addr HE _ _ _ _ _ HI Ht). lia.
Qed.
Lemma lim_null md H s0 s limit f g tf tg : Inv md H s -> ext s0 s -> (md_ord md = true -> forall vs, vcov tf tg vs -> limit + 1 < pow2 vs) ->
  lim_post md H s0 limit f g tf tg (0, size_max) s.
Proof. intros HI He Hb. split_and!; auto. Qed.
(** the conjunction's variables are among those of the operands *)
Lemma conj_occurs t tf tg u : ordt 0 t -> redt t -> (forall r, evalt t r = evalt tf r && evalt tg r) -> occurs u t -> occurs u tf \/ occurs u tg.
Proof.
  intros Ho Hr Hs Hu. apply depends_occurs in Hu; auto. destruct Hu as [r Hu]. rewrite !Hs in Hu.
  destruct (decide (evalt tf (upd r u false) = evalt tf (upd r u true))) as [H1|H1].
  - destruct (decide (evalt tg (upd r u false) = evalt tg (upd r u true))) as [H2|H2]; [by rewrite H1, H2 in Hu|].
    right. apply dec_stable. intros Hn. apply H2. by rewrite !evalt_upd_notin.
  - left. apply dec_stable. intros Hn. apply H1. by rewrite !evalt_upd_notin.
Qed.

Lemma add64_le a b : add64 a b <= a + b.
Proof. unfold add64. apply N.mod_le. done. Qed.
Lemma lim_asserts r0 n0 s : (r0 = 0 /\ n0 = size_max \/ r0 <> 0 /\ n0 <> size_max) ->
  assert_ (Bool.eqb (r0 =? 0) (n0 =? size_max)) s = Ok tt s /\ assert_ (negb (r0 =? 0) || (n0 =? size_max)) s = Ok tt s.
Proof.
  intros [[-> ->]|[Hr Hn]]; [done|]. apply N.eqb_neq in Hr, Hn. rewrite Hr, Hn. done.
Qed.

Lemma and_limited_fuel_spec_g md H limit s0 : mok -> limit < size_max -> Inv md H s0 -> N.of_nat (size (s_heap s0)) < size_max ->
  forall fuel s f g tf tg, Inv md H s -> ext s0 s -> repr (s_heap s0) f tf -> repr (s_heap s0) g tg ->
  fu2 md s f g tf tg fuel ->
  sat (and_limited_fuel fuel f g limit) s (lim_post md H s limit f g tf tg).
Proof.
  intros Hok Hlim HI0 Hsz fuel.
  induction fuel as [|fuel IH]; intros s f g tf tg HI He0 Hf0 Hg0 Hfu; [by destruct (fu2_0 _ _ _ _ _ _ Hfu)|].
  pose proof (repr_ext_s _ _ _ _ He0 Hf0) as Hf. pose proof (repr_ext_s _ _ _ _ He0 Hg0) as Hg.
  cbn [and_limited_fuel].
  destruct (nr_nodes_any md H s f tf HI Hf Hok) as (nnf&Hnnf&Hbf&Hpf). specialize (Hbf _ _ _ _ HI0 He0 Hf0).
  destruct (nr_nodes_any md H s g tg HI Hg Hok) as (nng&Hnng&Hbg&Hpg). specialize (Hbg _ _ _ _ HI0 He0 Hg0).
  destruct (N.eqb_spec f g) as [->|Hfg].
  { eapply sat_bind_ok; [exact Hnnf|]. destruct (N.ltb_spec limit nnf).
    - apply sat_ret. apply lim_null; auto using ext_refl. intros Ho vs Hvs. specialize (Hpf Ho vs ltac:(intros; apply Hvs; auto)). lia.
    - apply sat_ret, lim_here; [done| |lia|auto|intros Ho vs Hvs; apply Hpf; auto; intros; apply Hvs; auto]. rewrite (repr_fun _ _ _ _ Hf Hg). exists tg. split; [done|].
      intros r. by destruct (evalt tg r). }
  destruct (N.ltb_spec g f) as [Hlt|Hge].
  { eapply sat_mono; [apply (IH s g f tg tf); auto|].
    - by apply fu2_swap.
    - intros [p n] s' (?&?&Hc). split_and!; auto.
      assert (Hvc : forall vs, vcov tf tg vs -> vcov tg tf vs) by (intros vs Hvs u Hu; apply Hvs; tauto).
      destruct Hc as [(?&?&Hc)|(?&?&?&?&Hc)]; [left; split_and!; auto|right; split_and!; auto]; [|tauto].
      eapply den_proper; [|done]. intros r. apply andb_comm. }
  destruct (N.eqb_spec f topsink) as [->|Hft].
  { apply repr_top_inv in Hf as ->. eapply sat_bind_ok; [exact Hnng|].
    apply sat_ret, lim_here; [done| |lia|right; left; by right|intros Ho vs Hvs; apply Hpg; auto; intros; apply Hvs; auto]. by apply den_repr. }
  destruct (N.eqb_spec f botsink) as [->|Hfb].
  { apply repr_bot_inv in Hf as ->. apply sat_ret, lim_here; [done|apply den_bot|done|left; lia|intros; apply pow2_pos]. }
  destruct (N.eqb_spec g topsink) as [->|Hgt].
  { apply repr_top_inv in Hg as ->. eapply sat_bind_ok; [exact Hnnf|].
    apply sat_ret, lim_here; [done| |lia|right; right; by right|intros Ho vs Hvs; apply Hpf; auto; intros; apply Hvs; auto].
    exists tf. split; [done|]. simpl. intros. by rewrite andb_true_r. }
  destruct (N.eqb_spec g botsink) as [->|Hgb].
  { apply repr_bot_inv in Hg as ->. apply sat_ret, lim_here; [done| |done|left; lia|intros; apply pow2_pos].
    exists (Leaf false). split; [constructor|]. simpl. intros. by rewrite andb_false_r. }
  destruct (cache_lookup_spec HE md H s f g and_symb tf tg HI Hf Hg) as (m&Hm&Hcase).
  eapply sat_bind_ok; [exact Hm|].
  destruct Hcase as [->|(Hm0&tf'&tg'&tr&Hf'&Hg'&Hr&Hsem&_)]; cbn [m_f m_g m_h m_r] in *.
  2:{ apply N.eqb_neq in Hm0. rewrite Hm0. cbn [negb]. rewrite (repr_fun _ _ _ _ Hf Hf'), (repr_fun _ _ _ _ Hg Hg').
      destruct (nr_nodes_any md H s m tr HI Hr Hok) as (nnm&Hnnm&_&Hpm). eapply sat_bind_ok; [exact Hnnm|].
      assert (Hpm' : md_ord md = true -> forall vs, vcov tf' tg' vs -> nnm < pow2 vs).
      { intros Ho vs Hvs. apply Hpm; auto. intros u Hu. apply Hvs. pose proof (i_heap _ _ _ HI) as Hh.
        eapply (conj_occurs tr); [by eapply ho_ord|by eapply repr_redt|by apply Hsem|done]. }
      destruct (N.leb_spec nnm limit).
      - eapply sat_bind_ok; [by eapply touch_repr|]. apply sat_ret, lim_here; auto; [|lia]. exists tr. split; [done|]. by apply Hsem.
      - apply sat_ret. apply lim_null; auto using ext_refl. intros Ho vs Hvs. specialize (Hpm' Ho vs Hvs). lia. }
  rewrite N.eqb_refl. cbn [negb].
  assert (Hsf : ~ sink f) by (unfold sink; tauto). assert (Hsg : ~ sink g) by (unfold sink; tauto).
  destruct (repr_nonsink _ _ _ Hf0 Hsf) as (nf0&lf&hf&Hnf0&->&Hlf&Hhf).
  destruct (repr_nonsink _ _ _ Hg0 Hsg) as (ng0&lg&hg&Hng0&->&Hlg&Hhg).
  destruct (proj1 He0 _ _ Hnf0) as (nf&Hnf&(Hf1&Hf2&Hf3&_)). destruct (proj1 He0 _ _ Hng0) as (ng&Hng&(Hg1&Hg2&Hg3&_)).
  pose proof (i_heap _ _ _ HI) as Hh.
  destruct (ho_node _ _ _ Hh _ _ Hnf Hsf) as [Hvf _]. destruct (ho_node _ _ _ Hh _ _ Hng Hsg) as [Hvg _].
  eapply sat_bind_ok; [by eapply variable_eq|]. eapply sat_bind_ok; [by eapply variable_eq|].
  destruct (lookup_lt_is_Some_2 (s_vars s) (N.to_nat (n_idx nf))) as [vf Hvf']; [lia|].
  destruct (lookup_lt_is_Some_2 (s_vars s) (N.to_nat (n_idx ng))) as [vg Hvg']; [lia|].
  eapply sat_bind_ok; [by apply getV_eq|]. eapply sat_bind_ok; [by apply getV_eq|]. cbv zeta.
  set (v := if n_idx nf <? n_idx ng then n_idx nf else n_idx ng).
  rewrite Hf3, Hg3 in *. set (tf := Br (n_idx nf) lf hf) in *. set (tg := Br (n_idx ng) lg hg) in *.
  set (cp := fun b (p : ptr) (n : node) => if v =? n_idx n then (if b : bool then n_hi n else n_lo n) else p).
  assert (Hcf : forall b, repr (s_heap s0) (cp b f nf) (cof v b tf)).
  { intros b. unfold cp, tf; simpl. rewrite <- Hf1, <- Hf2. destruct (v =? n_idx nf); [by destruct b|done]. }
  assert (Hcg : forall b, repr (s_heap s0) (cp b g ng) (cof v b tg)).
  { intros b. unfold cp, tg; simpl. rewrite <- Hg1, <- Hg2. destruct (v =? n_idx ng); [by destruct b|done]. }
  assert (Hv : v = n_idx nf \/ v = n_idx ng) by (unfold v; destruct (n_idx nf <? n_idx ng); auto).
  assert (Hvle : v <= n_idx nf /\ v <= n_idx ng) by (unfold v; destruct (N.ltb_spec (n_idx nf) (n_idx ng)); lia).
  assert (Hvn : v < N.of_nat (length (s_vars s))) by (destruct Hv as [-> | ->]; done).
  assert (Hht : forall b, (ht (cof v b tf) + ht (cof v b tg) < ht tf + ht tg)%nat).
  { intros b. pose proof (ht_cof v b tf). pose proof (ht_cof v b tg).
    destruct Hv as [Hv|Hv].
    - pose proof (ht_cof_lt v b lf hf) as Hlt. unfold tf in *. rewrite <- Hv in *. lia.
    - pose proof (ht_cof_lt v b lg hg) as Hlt. unfold tg in *. rewrite <- Hv in *. lia. }
  assert (Hoo : md_ord md = true -> forall b, ordt (v + 1) (cof v b tf) /\ ordt (v + 1) (cof v b tg)).
  { intros Ho b. split; apply cof_ordt.
    - pose proof (ho_ord _ _ _ Hh Ho _ _ Hf) as Hx. unfold tf in *. simpl in *. destruct Hx as (?&?&?). split_and!; auto. lia.
    - pose proof (ho_ord _ _ _ Hh Ho _ _ Hg) as Hx. unfold tg in *. simpl in *. destruct Hx as (?&?&?). split_and!; auto. lia. }
  assert (Hfu' : forall s1 b, length (s_vars s1) = length (s_vars s) -> fu2 md s1 (cp b f nf) (cp b g ng) (cof v b tf) (cof v b tg) fuel).
  { intros s1 b Hl. eapply (fu2_cof md s); [exact Hfu|exact Hl|apply Hht|intros Ho; by apply Hoo|exact Hvn|].
    intros lb [H1 _] [H2 _]. destruct Hv as [-> | ->]; done. }
  assert (Hov : md_ord md = true -> forall vs, vcov tf tg vs -> exists vs', 2 * pow2 vs' <= pow2 vs /\ forall b, vcov (cof v b tf) (cof v b tg) vs').
  { intros Ho vs Hvs. exists (filter (fun u => u <> v) vs). split.
    - apply pow2_drop, Hvs. destruct Hv as [-> | ->]; [left|right]; by left.
    - intros b u Hu. destruct (Hoo Ho b) as [Ha Hb]. apply elem_of_list_filter. split.
      + destruct Hu as [Hu|Hu]; [pose proof (ordt_occurs _ _ _ Ha Hu)|pose proof (ordt_occurs _ _ _ Hb Hu)]; lia.
      + apply Hvs. destruct Hu as [Hu|Hu]; [left|right]; by eapply occurs_cof. }
  eapply sat_bind_ok; [eapply low_cof; eauto; [rewrite <- Hf1|rewrite <- Hf2]; eauto using repr_ext_s|].
  eapply sat_bind_ok; [eapply low_cof; eauto; [rewrite <- Hg1|rewrite <- Hg2]; eauto using repr_ext_s|].
  eapply sat_step; [apply (IH s _ _ _ _ HI He0 (Hcf false) (Hcg false) (Hfu' s false eq_refl))|].
  intros [r0 n0] s1 (HI1&He1&Hc0). cbn [fst snd] in Hc0.
  destruct (lim_asserts r0 n0 s1 ltac:(tauto)) as [Ha1 Ha2].
  eapply sat_bind_ok; [exact Ha1|]. eapply sat_bind_ok; [exact Ha2|]. clear Ha1 Ha2.
  destruct (N.ltb_spec limit n0) as [|Hn0].
  { apply sat_ret. apply lim_null; auto. intros Ho vs Hvs. destruct (Hov Ho vs Hvs) as (vs'&Hle&Hvs'). pose proof (pow2_pos vs').
    destruct Hc0 as [(_&->&Hc)|(_&_&_&_&Hc)]; specialize (Hc Ho vs' (Hvs' false)); lia. }
  destruct Hc0 as [(_&->&_)|(Hr0nz&Hn0nz&(t0&Hr0&Ht0)&_&Hb0)]; [lia|].
  pose proof (ext_trans _ _ _ He0 He1) as He01.
  assert (Hhi : forall p n tl th n', s_heap s !! p = Some n -> s_heap s0 !! p = Some n' ->
      repr (s_heap s0) (n_lo n') tl -> repr (s_heap s0) (n_hi n') th ->
      (if v =? n_idx n then high p else ret p) s1 = Ok (cp true p n) s1).
  { intros p n tl th n' Hp Hp' Htl Hth. destruct (proj1 He1 _ _ Hp) as (n1&Hn1&(Hl1&Hh1&Hi1&_)).
    destruct (proj1 He01 _ _ Hp') as (n2&Hn2&(Hl2&Hh2&Hi2&_)). assert (n2 = n1) as -> by congruence.
    unfold cp. rewrite Hi1, Hh1.
    eapply high_cof; [exact HI1|exact Hn1|rewrite <- Hl2|rewrite <- Hh2]; eapply repr_ext_s; eauto. }
  eapply sat_bind_ok; [eapply (Hhi f nf); eauto|].
  eapply sat_bind_ok; [eapply (Hhi g ng); eauto|].
  eapply sat_step; [apply (IH s1 _ _ _ _ HI1 He01 (Hcf true) (Hcg true) (Hfu' s1 true (inv_nv_ext _ _ He1)))|].
  intros [r1 n1] s2 (HI2&He2&Hc1). cbn [fst snd] in Hc1.
  destruct (lim_asserts r1 n1 s2 ltac:(tauto)) as [Ha1 Ha2].
  eapply sat_bind_ok; [exact Ha1|]. eapply sat_bind_ok; [exact Ha2|]. clear Ha1 Ha2.
  assert (He02 := ext_trans _ _ _ He1 He2).
  destruct ((n0 =? size_max) || (n1 =? size_max) || (limit <? add64 n0 n1)) eqn:Hbig.
  { apply sat_ret. apply lim_null; auto. intros Ho vs Hvs. destruct (Hov Ho vs Hvs) as (vs'&Hle&Hvs').
    specialize (Hb0 Ho vs' (Hvs' false)).
    destruct Hc1 as [(_&->&Hc)|(_&Hn1&_&_&Hc)]; specialize (Hc Ho vs' (Hvs' true)); [lia|].
    apply N.eqb_neq in Hn1. rewrite Hn1 in Hbig. destruct (N.eqb_spec n0 size_max) as [|_]; [lia|]. simpl in Hbig.
    apply N.ltb_lt in Hbig. pose proof (add64_le n0 n1). lia. }
  apply orb_false_iff in Hbig as [Hb1 Hb2]. apply orb_false_iff in Hb1 as [_ Hb1].
  apply N.eqb_neq in Hb1. apply N.ltb_ge in Hb2.
  destruct Hc1 as [(_&->&_)|(Hr1nz&_&(t1&Hr1&Ht1)&_&Hb1')]; [done|].
  pose proof (repr_ext_s _ _ _ _ He2 Hr0) as Hr0'.
  eapply sat_step.
  { apply (unique_find_spec HE md H s2 v r0 r1 t0 t1); auto.
    - by rewrite (inv_nv_ext _ _ He02).
    - intros Ho. split.
      + apply (den_ordt md H s2 _ _ _ _ HI2 Ho Hr0' Ht0). intros u r b Hu. simpl. destruct (Hoo Ho false) as [Ha Hb].
        rewrite (evalt_upd_lt _ _ _ _ _ Ha), (evalt_upd_lt _ _ _ _ _ Hb) by done. done.
      + apply (den_ordt md H s2 _ _ _ _ HI2 Ho Hr1 Ht1). intros u r b Hu. simpl. destruct (Hoo Ho true) as [Ha Hb].
        rewrite (evalt_upd_lt _ _ _ _ _ Ha), (evalt_upd_lt _ _ _ _ _ Hb) by done. done. }
  intros r s3 Hu. apply uf_post_post in Hu. destruct Hu as (HI3&He3&t3&Hr3&Ht3).
  assert (He03 := ext_trans _ _ _ He02 He3).
  assert (Hsem : forall x, evalt t3 x = evalt tf x && evalt tg x).
  { intros x. rewrite Ht3, Ht0, Ht1, (evalt_cof v tf x), (evalt_cof v tg x). by destruct (x v). }
  pose proof (repr_addr HE _ _ _ _ _ HI3 Hr3) as Hra.
  eapply sat_bind_ok; [apply assert_eq, negb_true_iff, N.eqb_neq; lia|].
  destruct (cache_insert_spec HE md H s3 f g and_symb r HI3) as (mc&Heq&HI').
  { eexists _, _, _. split_and!; cbn [m_f m_g m_h m_r]; [eapply repr_ext_s; [|exact Hf]; eauto|eapply repr_ext_s; [|exact Hg]; eauto|eauto| | |]; done. }
  eapply sat_bind_ok; [exact Heq|]. apply sat_ret. split_and!; auto.
  right. cbn [fst snd]. split_and!; [lia|lia|by exists t3|by left|].
  intros Ho vs Hvs. destruct (Hov Ho vs Hvs) as (vs'&Hle&Hvs'). specialize (Hb0 Ho vs' (Hvs' false)). specialize (Hb1' Ho vs' (Hvs' true)).
  pose proof (add64_le n0 n1). lia.
Qed.

Lemma and_limited_fuel_spec md H limit s0 : mok -> limit < size_max -> Inv md H s0 -> N.of_nat (size (s_heap s0)) < size_max ->
  forall fuel s f g tf tg, Inv md H s -> ext s0 s -> repr (s_heap s0) f tf -> repr (s_heap s0) g tg ->
  (2 * (ht tf + ht tg) + swp f g < fuel)%nat ->
  sat (and_limited_fuel fuel f g limit) s (lim_post md H s limit f g tf tg).
Proof. intros ???? fuel s f g tf tg ?????. apply (and_limited_fuel_spec_g md H limit s0); try done. by left. Qed.

Lemma and_limited_spec md H s f g tf tg limit : mok -> limit < size_max -> N.of_nat (size (s_heap s)) < size_max ->
  Inv md H s -> repr (s_heap s) f tf -> repr (s_heap s) g tg ->
  sat (and_rec_limited f g limit) s (lim_post md H s limit f g tf tg).
Proof.
  intros Hok Hlim Hsz HI Hf Hg. unfold and_rec_limited, with_fuel, sat. apply (and_limited_fuel_spec md H limit s); auto using ext_refl.
  pose proof (fuel_ht _ _ _ Hf). pose proof (fuel_ht _ _ _ Hg). unfold swp. case_match; lia.
Qed.

(** a larger limit does not change an answer that is not null *)
Lemma bind_inv {A B} (m : M A) (k : A -> M B) s b s' : bind m k s = Ok b s' -> exists a s1, m s = Ok a s1 /\ k a s1 = Ok b s'.
Proof. unfold bind. destruct (m s) as [a s1|e s1]; [|done]. eauto. Qed.
Lemma and_limited_mono limit limit' : limit <= limit' -> limit < size_max -> forall fuel f g s p n s',
  and_limited_fuel fuel f g limit s = Ok (p, n) s' -> n <> size_max -> and_limited_fuel fuel f g limit' s = Ok (p, n) s'.
Proof.
  intros Hle Hlt fuel. induction fuel as [|fuel IH]; intros f g s p n s' Hr Hn; [done|].
  cbn [and_limited_fuel] in *.
  destruct (f =? g).
  { apply bind_inv in Hr as (nn&s1&H1&Hr). rewrite (bind_eq _ _ _ _ _ H1).
    destruct (N.ltb_spec limit nn); [by injection Hr as <- <- <-|]. destruct (N.ltb_spec limit' nn); [lia|done]. }
  destruct (g <? f); [by apply IH|].
  destruct (f =? topsink); [done|]. destruct (f =? botsink); [done|].
  destruct (g =? topsink); [done|]. destruct (g =? botsink); [done|].
  apply bind_inv in Hr as (m&s1&H1&Hr). rewrite (bind_eq _ _ _ _ _ H1).
  destruct (negb (m =? 0)).
  { apply bind_inv in Hr as (nn&s2&H2&Hr). rewrite (bind_eq _ _ _ _ _ H2).
    destruct (N.leb_spec nn limit); [|by injection Hr as <- <- <-]. destruct (N.leb_spec nn limit'); [done|lia]. }
  apply bind_inv in Hr as (fv&s2&H2&Hr). rewrite (bind_eq _ _ _ _ _ H2).
  apply bind_inv in Hr as (gv&s3&H3&Hr). rewrite (bind_eq _ _ _ _ _ H3).
  apply bind_inv in Hr as (vf&s4&H4&Hr). rewrite (bind_eq _ _ _ _ _ H4).
  apply bind_inv in Hr as (vg&s5&H5&Hr). rewrite (bind_eq _ _ _ _ _ H5). cbv zeta in *.
  set (v := if fv <? gv then fv else gv) in *.
  apply bind_inv in Hr as (f0&s6&H6&Hr). rewrite (bind_eq _ _ _ _ _ H6).
  apply bind_inv in Hr as (g0&s7&H7&Hr). rewrite (bind_eq _ _ _ _ _ H7).
  apply bind_inv in Hr as ([r0 n0]&s8&H8&Hr).
  apply bind_inv in Hr as (u1&s9&H9&Hr). apply bind_inv in Hr as (u2&s10&H10&Hr).
  destruct (N.ltb_spec limit n0); [by injection Hr as <- <- <-|].
  rewrite (bind_eq _ _ _ _ _ (IH _ _ _ _ _ _ H8 ltac:(lia))).
  rewrite (bind_eq _ _ _ _ _ H9), (bind_eq _ _ _ _ _ H10). destruct (N.ltb_spec limit' n0); [lia|].
  apply bind_inv in Hr as (f1&s11&H11&Hr). rewrite (bind_eq _ _ _ _ _ H11).
  apply bind_inv in Hr as (g1&s12&H12&Hr). rewrite (bind_eq _ _ _ _ _ H12).
  apply bind_inv in Hr as ([r1 n1]&s13&H13&Hr).
  apply bind_inv in Hr as (u3&s14&H14&Hr). apply bind_inv in Hr as (u4&s15&H15&Hr).
  destruct ((n0 =? size_max) || (n1 =? size_max) || (limit <? add64 n0 n1)) eqn:Hbig; [by injection Hr as <- <- <-|].
  apply orb_false_iff in Hbig as [Hb1 Hb2]. apply N.ltb_ge in Hb2.
  apply orb_false_iff in Hb1 as [Hb0 Hb1]. apply N.eqb_neq in Hb1.
  rewrite (bind_eq _ _ _ _ _ (IH _ _ _ _ _ _ H13 ltac:(lia))).
  rewrite (bind_eq _ _ _ _ _ H14), (bind_eq _ _ _ _ _ H15). apply N.eqb_neq in Hb1. rewrite Hb0, Hb1.
  destruct (N.ltb_spec limit' (add64 n0 n1)); [lia|]. done.
Qed.
End limited.
