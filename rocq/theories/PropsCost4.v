(** * PropsCost4.v -- the work of and_rec and or_rec without variable order (C78) *)
From Verif Require Export PropsXor PropsDepth.
Open Scope N_scope.
Section cost4.
Context {E : Env} (HE : env_ok E).
Lemma and_count_hle md H fuel : forall s f g tf tg r k s', Inv md H s -> repr (s_heap s) f tf -> repr (s_heap s) g tg ->
  (2 * (ht tf + ht tg) + swp f g < fuel)%nat -> and_count fuel f g s = Ok (r, k) s' -> hb (ht tf + ht tg) f g k.
Proof.
  induction fuel as [|fuel IH]; intros s f g tf tg r k s' HI Hf Hg Hfu Hs; [lia|]. cbn [and_count] in Hs.
  destruct (N.eqb_spec f g) as [->|Hfg]; [injection Hs as <- <- <-; apply hb_1|].
  destruct (N.ltb_spec g f) as [Hlt|Hge].
  { apply bind_okc in Hs as ([r' k']&s1&Hr&Hs). injection Hs as <- <- <-. apply (hb_swap _ _ _ _ Hlt). rewrite Nat.add_comm.
    apply (IH s g f tg tf r' k' s1); auto. destruct (swp_swap _ _ Hlt). lia. }
  destruct (N.eqb_spec f topsink) as [->|Hft]; [injection Hs as <- <- <-; apply hb_1|].
  destruct (N.eqb_spec f botsink) as [->|Hfb]; [injection Hs as <- <- <-; apply hb_1|].
  destruct (N.eqb_spec g topsink) as [->|Hgt]; [injection Hs as <- <- <-; apply hb_1|].
  destruct (N.eqb_spec g botsink) as [->|Hgb]; [injection Hs as <- <- <-; apply hb_1|].
  destruct (cache_lookup_spec HE md H s f g and_symb tf tg HI Hf Hg) as (m&Hm&_).
  rewrite (bind_eq _ _ _ _ _ Hm) in Hs.
  destruct (negb (m =? 0)). { apply bind_okc in Hs as (r'&s1&Hr&Hs). injection Hs as <- <- <-. apply hb_1. }
  assert (Hsf : ~ sink f) by (unfold sink; tauto). assert (Hsg : ~ sink g) by (unfold sink; tauto).
  destruct (repr_nonsink _ _ _ Hf Hsf) as (nf&lf&hf&Hnf&->&Hlf&Hhf).
  destruct (repr_nonsink _ _ _ Hg Hsg) as (ng&lg&hg&Hng&->&Hlg&Hhg).
  pose proof (i_heap _ _ _ HI) as Hh.
  destruct (ho_node _ _ _ Hh _ _ Hnf Hsf) as [Hvf _]. destruct (ho_node _ _ _ Hh _ _ Hng Hsg) as [Hvg _].
  rewrite (bind_eq _ _ _ _ _ (variable_eq _ _ _ Hnf)), (bind_eq _ _ _ _ _ (variable_eq _ _ _ Hng)) in Hs.
  destruct (lookup_lt_is_Some_2 (s_vars s) (N.to_nat (n_idx nf))) as [vf Hvf']; [lia|].
  destruct (lookup_lt_is_Some_2 (s_vars s) (N.to_nat (n_idx ng))) as [vg Hvg']; [lia|].
  rewrite (bind_eq _ _ _ _ _ (getV_eq _ _ _ Hvf')), (bind_eq _ _ _ _ _ (getV_eq _ _ _ Hvg')) in Hs.
  eapply (shc_hle md H s (and_count fuel) _ f g nf ng lf hf lg hg
    (fun r r0 r1 => assert_ (negb (r =? 0)) ;;* cache_insert f g and_symb r ;;* ret (r, 1 + r0.2 + r1.2))); [..|exact Hs]; auto.
  - destruct (n_idx nf <? n_idx ng); auto.
  - intros s0 f' g' tf' tg' HI0 He0 Hf0 Hg0 Hlt r1 k1 s1 Hr1.
    assert (Hfu' : (2 * (ht tf' + ht tg') + swp f' g' < fuel)%nat) by (clear Hs; pose proof (swp_le f' g'); lia).
    pose proof (and_fuel_spec HE md H fuel s0 f' g' tf' tg' HI0 Hf0 Hg0 Hfu') as Hok. unfold sat in Hok.
    rewrite (counted_ok _ _ _ _ _ _ (C78_and_counted fuel f' g') Hr1) in Hok. destruct Hok as (HI1&He1&_).
    split_and!; [done|done|]. by apply (IH s0 f' g' tf' tg' r1 k1 s1).
  - intros r1 a b s2 x s3 Hx. apply bind_okc in Hx as (?&?&_&Hx). apply bind_okc in Hx as (?&?&_&Hx). by injection Hx as <- <-.
Qed.
Theorem C78_and_nodes md w i j n m k r s' : reach md w -> nnodes w i n -> nnodes w j m -> and_rec_calls w i j k r s' -> k < 2 ^ (N.of_nat n + N.of_nat m + 2).
Proof.
  intros HR (p&lp&Hp&Hp0&_&Hlp&<-) (q&lq&Hq&Hq0&_&Hlq&<-) (p1&q1&Hp1&Hq1&Hk).
  assert (p1 = p) as -> by congruence. assert (q1 = q) as -> by congruence.
  pose proof (reach_inv HE _ _ HR) as HW. destruct (winv_repr _ _ _ _ HW Hp Hp0) as [t Ht]. destruct (winv_repr _ _ _ _ HW Hq Hq0) as [u Hu].
  unfold with_fuel in Hk. pose proof (fuel_ht _ _ _ Ht). pose proof (fuel_ht _ _ _ Hu). pose proof (swp_le p q).
  assert (Hb : hb (ht t + ht u) p q k). { eapply (and_count_hle md _ (fuel_of (w_s w)) (w_s w) p q t u r k s' HW); auto. lia. }
  pose proof (ht_nodes _ _ _ _ lp HW Ht (fun x Hx => proj2 (Hlp x) Hx)). pose proof (ht_nodes _ _ _ _ lq HW Hu (fun x Hx => proj2 (Hlq x) Hx)).
  unfold hb in Hb. pose proof (N.pow_le_mono_r 2 (N.of_nat (ht t + ht u)) (N.of_nat (length lp) + N.of_nat (length lq)) ltac:(done) ltac:(lia)) as Hm.
  rewrite N.pow_add_r. change (2 ^ 2) with 4. lia.
Qed.
Lemma or_count_hle md H fuel : md_or md = true -> forall s f g tf tg r k s', Inv md H s -> repr (s_heap s) f tf -> repr (s_heap s) g tg ->
  (2 * (ht tf + ht tg) + swp f g < fuel)%nat -> or_count fuel f g s = Ok (r, k) s' -> hb (ht tf + ht tg) f g k.
Proof.
  intros Hor.
  induction fuel as [|fuel IH]; intros s f g tf tg r k s' HI Hf Hg Hfu Hs; [lia|]. cbn [or_count] in Hs.
  destruct (N.eqb_spec f g) as [->|Hfg]; [injection Hs as <- <- <-; apply hb_1|].
  destruct (N.ltb_spec g f) as [Hlt|Hge].
  { apply bind_okc in Hs as ([r' k']&s1&Hr&Hs). injection Hs as <- <- <-. apply (hb_swap _ _ _ _ Hlt). rewrite Nat.add_comm.
    apply (IH s g f tg tf r' k' s1); auto. destruct (swp_swap _ _ Hlt). lia. }
  destruct (N.eqb_spec f topsink) as [->|Hft]; [injection Hs as <- <- <-; apply hb_1|].
  destruct (N.eqb_spec f botsink) as [->|Hfb]; [injection Hs as <- <- <-; apply hb_1|].
  destruct (N.eqb_spec g topsink) as [->|Hgt]; [injection Hs as <- <- <-; apply hb_1|].
  destruct (N.eqb_spec g botsink) as [->|Hgb]; [injection Hs as <- <- <-; apply hb_1|].
  destruct (cache_lookup_spec HE md H s f g or_symb tf tg HI Hf Hg) as (m&Hm&_).
  rewrite (bind_eq _ _ _ _ _ Hm) in Hs.
  destruct (negb (m =? 0)). { apply bind_okc in Hs as (r'&s1&Hr&Hs). injection Hs as <- <- <-. apply hb_1. }
  assert (Hsf : ~ sink f) by (unfold sink; tauto). assert (Hsg : ~ sink g) by (unfold sink; tauto).
  destruct (repr_nonsink _ _ _ Hf Hsf) as (nf&lf&hf&Hnf&->&Hlf&Hhf).
  destruct (repr_nonsink _ _ _ Hg Hsg) as (ng&lg&hg&Hng&->&Hlg&Hhg).
  pose proof (i_heap _ _ _ HI) as Hh.
  destruct (ho_node _ _ _ Hh _ _ Hnf Hsf) as [Hvf _]. destruct (ho_node _ _ _ Hh _ _ Hng Hsg) as [Hvg _].
  rewrite (bind_eq _ _ _ _ _ (variable_eq _ _ _ Hnf)), (bind_eq _ _ _ _ _ (variable_eq _ _ _ Hng)) in Hs.
  destruct (lookup_lt_is_Some_2 (s_vars s) (N.to_nat (n_idx nf))) as [vf Hvf']; [lia|].
  destruct (lookup_lt_is_Some_2 (s_vars s) (N.to_nat (n_idx ng))) as [vg Hvg']; [lia|].
  rewrite (bind_eq _ _ _ _ _ (getV_eq _ _ _ Hvf')), (bind_eq _ _ _ _ _ (getV_eq _ _ _ Hvg')) in Hs.
  eapply (shc_hle md H s (or_count fuel) _ f g nf ng lf hf lg hg
    (fun r r0 r1 => (if negb (r =? 0) then cache_insert f g or_symb r else ret tt) ;;* ret (r, 1 + r0.2 + r1.2))); [..|exact Hs]; auto.
  - destruct (n_idx nf <? n_idx ng); auto.
  - intros s0 f' g' tf' tg' HI0 He0 Hf0 Hg0 Hlt r1 k1 s1 Hr1.
    assert (Hfu' : (2 * (ht tf' + ht tg') + swp f' g' < fuel)%nat) by (clear Hs; pose proof (swp_le f' g'); lia).
    pose proof (or_fuel_spec HE md H fuel Hor s0 f' g' tf' tg' HI0 Hf0 Hg0 Hfu') as Hok. unfold sat in Hok.
    rewrite (counted_ok _ _ _ _ _ _ (C78_or_counted fuel f' g') Hr1) in Hok. destruct Hok as (HI1&He1&_).
    split_and!; [done|done|]. by apply (IH s0 f' g' tf' tg' r1 k1 s1).
  - intros r1 a b s2 x s3 Hx. apply bind_okc in Hx as (?&?&_&Hx). by injection Hx as <- <-.
Qed.
Theorem C78_or_nodes md w i j n m k r s' : md_or md = true -> reach md w -> nnodes w i n -> nnodes w j m -> or_rec_calls w i j k r s' -> k < 2 ^ (N.of_nat n + N.of_nat m + 2).
Proof.
  intros Hor HR (p&lp&Hp&Hp0&_&Hlp&<-) (q&lq&Hq&Hq0&_&Hlq&<-) (p1&q1&Hp1&Hq1&Hk).
  assert (p1 = p) as -> by congruence. assert (q1 = q) as -> by congruence.
  pose proof (reach_inv HE _ _ HR) as HW. destruct (winv_repr _ _ _ _ HW Hp Hp0) as [t Ht]. destruct (winv_repr _ _ _ _ HW Hq Hq0) as [u Hu].
  unfold with_fuel in Hk. pose proof (fuel_ht _ _ _ Ht). pose proof (fuel_ht _ _ _ Hu). pose proof (swp_le p q).
  assert (Hb : hb (ht t + ht u) p q k). { eapply (or_count_hle md _ (fuel_of (w_s w)) Hor (w_s w) p q t u r k s' HW); auto. lia. }
  pose proof (ht_nodes _ _ _ _ lp HW Ht (fun x Hx => proj2 (Hlp x) Hx)). pose proof (ht_nodes _ _ _ _ lq HW Hu (fun x Hx => proj2 (Hlq x) Hx)).
  unfold hb in Hb. pose proof (N.pow_le_mono_r 2 (N.of_nat (ht t + ht u)) (N.of_nat (length lp) + N.of_nat (length lq)) ltac:(done) ltac:(lia)) as Hm.
  rewrite N.pow_add_r. change (2 ^ 2) with 4. lia.
Qed.
Theorem C78_ite_nodes md w i j l n m o k r s' : allowed md w (OIte i j l) -> reach md w -> nnodes w i n -> nnodes w j m -> nnodes w l o -> ite_rec_calls w i j l k r s' ->
  k < 2 ^ (N.of_nat n + N.of_nat m + N.of_nat o + 1).
Proof.
  intros (_&_&_&Hm&Hok) HR (p&lp&Hp&Hp0&_&Hlp&<-) (q&lq&Hq&Hq0&_&Hlq&<-) (x&lx&Hx&Hx0&_&Hlx&<-) (p1&q1&x1&Hp1&Hq1&Hx1&Hk).
  assert (p1 = p) as -> by congruence. assert (q1 = q) as -> by congruence. assert (x1 = x) as -> by congruence.
  pose proof (reach_inv HE _ _ HR) as HW.
  destruct (winv_repr _ _ _ _ HW Hp Hp0) as [t Ht]. destruct (winv_repr _ _ _ _ HW Hq Hq0) as [u Hu]. destruct (winv_repr _ _ _ _ HW Hx Hx0) as [v Hv].
  pose proof (ht_nodes _ _ _ _ lp HW Ht (fun y Hy => proj2 (Hlp y) Hy)) as H1. pose proof (ht_nodes _ _ _ _ lq HW Hu (fun y Hy => proj2 (Hlq y) Hy)) as H2.
  pose proof (ht_nodes _ _ _ _ lx HW Hv (fun y Hy => proj2 (Hlx y) Hy)) as H3.
  assert (Hto : ite_ok md (nr_variables (w_s w)) t u v).
  { destruct Hok as [[Ho Hc]|Hn].
    - left. split; [done|]. by eapply (clash_safe _ _ _ _ _ _ _ _ _ _ _ HW (conj Hp (conj Hp0 Ht)) (conj Hq (conj Hq0 Hu)) (conj Hx (conj Hx0 Hv))).
    - right. intros Hoc. apply Hn. exact (proj2 (supp_hrep _ _ _ _ _ _ HW (conj Hp (conj Hp0 Ht))) Hoc). }
  set (D := (ht t + ht u + ht v + 1)%nat).
  unfold with_fuel in Hk. pose proof (counted_ok _ _ _ _ _ _ (C78_ite_counted _ p q x) Hk) as Hf.
  pose proof (ite_fuel_spec HE md _ D Hm (w_s w) p q x t u v HW Ht Hu Hv Hto ltac:(unfold D; lia)) as Hd. unfold sat in Hd.
  assert (Hc : exists k', ite_count D p q x (w_s w) = Ok (r, k') s').
  { pose proof (C78_ite_counted D p q x (w_s w)) as Hcd. destruct (Nat.le_ge_cases D (fuel_of (w_s w))) as [Hle|Hle].
    - destruct (ite_lef _ _ Hle p q x (w_s w)) as [[s1 He]|He]; [by rewrite He in Hd|]. rewrite He, Hf in Hcd.
      destruct (ite_count D p q x (w_s w)) as [[a k'] s1|]; [|done]. injection Hcd as -> ->. by exists k'.
    - destruct (ite_lef _ _ Hle p q x (w_s w)) as [[s1 He]|He]; [congruence|]. rewrite <- He, Hf in Hcd.
      destruct (ite_count D p q x (w_s w)) as [[a k'] s1|]; [|done]. injection Hcd as -> ->. by exists k'. }
  destruct Hc as (k'&Hc).
  assert (k' = k) as ->.
  { destruct (Nat.le_ge_cases D (fuel_of (w_s w))) as [Hle|Hle].
    - destruct (ite_count_lef _ _ Hle p q x (w_s w)) as [[s1 Hy]|Hy]; congruence.
    - destruct (ite_count_lef _ _ Hle p q x (w_s w)) as [[s1 Hy]|Hy]; congruence. }
  apply ite_count_le in Hc. pose proof (N.pow_le_mono_r 2 (N.of_nat D) (N.of_nat (length lp) + N.of_nat (length lq) + N.of_nat (length lx) + 1) ltac:(done) ltac:(unfold D; lia)). lia.
Qed.
End cost4.
