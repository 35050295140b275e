(** * PropsXor.v -- the work of xor_rec (C81) *)
From Verif Require Export PropsProd.
Open Scope N_scope.

Section xormodel.
Context {E : Env}.
(** bdd_mgr.cpp:218-256 with a counter of activations (of xor_rec itself; negate, called when an operand is the constant true, is not counted) *)
Fixpoint xor_count (fuel : nat) (f g : ptr) : M (ptr * N) :=
  match fuel with
  | O => fail ELoop
  | S fuel =>
    if f =? g then ret (botsink, 1) else
    if g <? f then (let* r := xor_count fuel g f in ret (r.1, 1 + r.2)) else
    if f =? botsink then ret (g, 1) else
    if g =? botsink then ret (f, 1) else
    if f =? topsink then (let* r := negate g in ret (r, 1)) else
    if g =? topsink then (let* r := negate f in ret (r, 1)) else
    let* m := cache_lookup f g xor_symb in
    if negb (m =? 0) then (let* r := touch m in ret (r, 1)) else
    let* s := get in
    let* fv := variable f in
    assert_ (fv <? nr_variables s) ;;*
    let* gv := variable g in
    assert_ (gv <? nr_variables s) ;;*
    getV fv ;;* getV gv ;;*
    let v := if gv <? fv then fv else gv in
    let* f0 := (if v =? fv then low f else ret f) in
    let* g0 := (if v =? gv then low g else ret g) in
    let* r0 := xor_count fuel f0 g0 in
    assert_ (negb (r0.1 =? 0)) ;;*
    let* f1 := (if v =? fv then high f else ret f) in
    let* g1 := (if v =? gv then high g else ret g) in
    let* r1 := xor_count fuel f1 g1 in
    assert_ (negb (r1.1 =? 0)) ;;*
    let* r := unique_find_v v r0.1 r1.1 in
    (if negb (r =? 0) then cache_insert f g xor_symb r else ret tt) ;;*
    ret (r, 1 + r0.2 + r1.2)
  end.
(** xor_rec of the handles returns [r] after [k] activations of itself and leaves the manager in state [s'] *)
Definition xor_rec_calls (w : world) (i j : nat) (k : N) (r : ptr) (s' : mstate) : Prop :=
  exists p q, hnd w i = Some p /\ hnd w j = Some q /\ with_fuel (fun n => xor_count n p q) (w_s w) = Ok (r, k) s'.
End xormodel.

Section xorcost.
Context {E : Env} (HE : env_ok E).
Ltac cn := repeat lazymatch goal with
  | |- counted (fail _) (fail _) => apply cn_fail
  | |- counted (ret _) (ret _) => apply cn_ret
  | |- counted (let* r := ?m in ret (r, _)) ?m => apply (cn_retR m (fun _ => _))
  | |- counted (if ?b then _ else _) _ => destruct b
  | IH : forall f g, counted _ _ |- counted (xor_count _ _ _) _ => apply IH
  | |- counted (bind (xor_count _ _ _) _) (bind _ _) => apply cn_bindc; [|intros ?]
  | |- counted (bind _ _) (bind _ _) => apply cn_bind; intros ?
  end.
(** the counting version computes the same as xor_rec *)
Theorem C81_xor_counted n : forall f g, counted (xor_count n f g) (xor_fuel n f g).
Proof.
  induction n as [|n IH]; intros f g; cbn [xor_count xor_fuel]; [apply cn_fail|].
  destruct (f =? g); [apply cn_ret|]. destruct (g <? f); [apply cn_swap, IH|]. cbv zeta. cn.
Qed.
Lemma bind_get {A} (k : mstate -> M A) s : bind get k s = k s s. Proof. done. Qed.
Ltac kmt := repeat first [apply km_bind; [|intros ?] | apply km_ret | apply km_fail | apply km_get | apply km_assert | apply km_getN | progress cbv zeta
  | lazymatch goal with |- km (match ?x with _ => _ end) => destruct x end ].
Lemma km_negate_fuel n : forall p, km (negate_fuel n p).
Proof.
  induction n as [|n IH]; intros p; cbn [negate_fuel]; unfold is_botsink, is_topsink, variable, low, high, touch, args2; kmt; first [apply IH | apply km_ufv | idtac].
Qed.
Lemma km_negate p : km (negate p).
Proof. intros s a s' Hs. exact (km_negate_fuel _ p s a s' Hs). Qed.
Lemma G_mono tag K s s' M M' : (M <= M')%nat -> G tag K s s' M -> G tag K s s' M'.
Proof. intros HM [A1 A2 A3 A4 A5]. split; auto. intros a b ta tb Hab Ha Hb Hlt. eapply A5; eauto. lia. Qed.
Lemma negate_G md H K s x y s1 : Inv md H s -> msl s -> negate x s = Ok y s1 -> G xor_symb K s s1 0 /\ cnt xor_symb K s1 = cnt xor_symb K s.
Proof.
  intros HI Hms Hn. pose proof (km_negate x _ _ _ Hn) as Hmem. pose proof (kp_negate HE x s (i_nc _ _ _ HI)) as Hkp. rewrite Hn in Hkp. destruct Hkp as [_ Hsk].
  split; [|unfold cnt, knownb; by rewrite Hmem]. split; unfold msl, knownb in *; rewrite ?Hmem; auto.
  - by eapply mtab_skel.
  - apply finer_refl.
Qed.

(** ** The product bound *)
Lemma xor_pot md H K (P : ptr -> ptr -> Prop) fuel : md_xor md = true -> (forall f g, P f g -> P g f) -> (forall f g, P f g -> ~ sink f -> ~ sink g -> f < g -> (f, g) ∈ K) ->
  forall s f g tf tg r k s', Inv md H s -> msl s -> Kok xor_symb K s -> Pcl P (s_heap s) -> P f g -> repr (s_heap s) f tf -> repr (s_heap s) g tg ->
  (2 * (ht tf + ht tg) + swp f g < fuel)%nat -> xor_count fuel f g s = Ok (r, k) s' ->
  G xor_symb K s s' (ht tf + ht tg) /\ k + 4 * cnt xor_symb K s <= 1 + N.of_nat (swp f g) + 4 * cnt xor_symb K s'.
Proof.
  intros Hor Hsym HinK. induction fuel as [|fuel IH]; intros s f g tf tg r k s' HI Hms HK HP HPfg Hf Hg Hfu Hs; [lia|].
  pose proof Hs as Hs0. cbn [xor_count] in Hs.
  assert (Hone : s' = s -> k = 1 -> G xor_symb K s s' (ht tf + ht tg) /\ k + 4 * cnt xor_symb K s <= 1 + N.of_nat (swp f g) + 4 * cnt xor_symb K s').
  { intros -> ->. split; [by apply G_refl|lia]. }
  assert (Hneg : forall x y s1, negate x s = Ok y s1 -> G xor_symb K s s1 (ht tf + ht tg) /\ 1 + 4 * cnt xor_symb K s <= 1 + N.of_nat (swp f g) + 4 * cnt xor_symb K s1).
  { intros x y s1 Hn. destruct (negate_G md H K s x y s1 HI Hms Hn) as [HG0 Hc]. split; [eapply G_mono; [|exact HG0]; lia|]. rewrite Hc. lia. }
  destruct (N.eqb_spec f g) as [->|Hfg]; [injection Hs as <- <- <-; by apply Hone|].
  destruct (N.ltb_spec g f) as [Hlt|Hge].
  { apply bind_okc in Hs as ([r' k']&s1&Hr&Hs). injection Hs as <- <- <-. cbn [snd]. destruct (swp_swap _ _ Hlt) as [Hw1 Hw2].
    destruct (IH s g f tg tf r' k' s1 HI Hms HK HP (Hsym _ _ HPfg) Hg Hf ltac:(lia) Hr) as [HG Hk].
    rewrite (Nat.add_comm (ht tf)). split; [done|]. lia. }
  destruct (N.eqb_spec f botsink) as [->|Hfb]; [injection Hs as <- <- <-; by apply Hone|].
  destruct (N.eqb_spec g botsink) as [->|Hgb]; [injection Hs as <- <- <-; by apply Hone|].
  destruct (N.eqb_spec f topsink) as [->|Hft]; [apply bind_okc in Hs as (x&s1&Hn&Hs); injection Hs as <- <- <-; by eapply (Hneg g)|].
  destruct (N.eqb_spec g topsink) as [->|Hgt]; [apply bind_okc in Hs as (x&s1&Hn&Hs); injection Hs as <- <- <-; by eapply (Hneg f)|].
  destruct (cache_lookup_spec HE md H s f g xor_symb tf tg HI Hf Hg) as (m&Hm&_).
  rewrite (bind_eq _ _ _ _ _ Hm) in Hs.
  destruct (N.eqb_spec m 0) as [Hm0|Hm0]; cbn [negb] in Hs.
  2:{ apply bind_okc in Hs as (r'&s1&Hr&Hs). injection Hs as <- <- <-. apply Hone; [|done]. by apply touch_same in Hr. }
  pose proof (lookup_miss xor_symb md H s f g m s HI Hms Hm Hm0) as Hunk.
  assert (Hsf : ~ sink f) by (unfold sink; tauto). assert (Hsg : ~ sink g) by (unfold sink; tauto).
  destruct (repr_nonsink _ _ _ Hf Hsf) as (nf&lf&hf&Hnf&->&Hlf&Hhf).
  destruct (repr_nonsink _ _ _ Hg Hsg) as (ng&lg&hg&Hng&->&Hlg&Hhg).
  pose proof (i_heap _ _ _ HI) as Hh.
  destruct (ho_node _ _ _ Hh _ _ Hnf Hsf) as [Hvf _]. destruct (ho_node _ _ _ Hh _ _ Hng Hsg) as [Hvg _].
  rewrite bind_get in Hs.
  rewrite (bind_eq _ _ _ _ _ (variable_eq _ _ _ Hnf)) in Hs. apply bind_okc in Hs as (u1&s1&Ha&Hs). apply liftR_ok in Ha as [_ ->].
  rewrite (bind_eq _ _ _ _ _ (variable_eq _ _ _ Hng)) in Hs. apply bind_okc in Hs as (u2&s1&Ha&Hs). apply liftR_ok in Ha as [_ ->].
  destruct (lookup_lt_is_Some_2 (s_vars s) (N.to_nat (n_idx nf))) as [vf Hvf']; [lia|].
  destruct (lookup_lt_is_Some_2 (s_vars s) (N.to_nat (n_idx ng))) as [vg Hvg']; [lia|].
  rewrite (bind_eq _ _ _ _ _ (getV_eq _ _ _ Hvf')), (bind_eq _ _ _ _ _ (getV_eq _ _ _ Hvg')) in Hs.
  assert (Hr0 : r <> 0).
  { pose proof (xor_fuel_spec HE md H (S fuel) Hor s f g _ _ HI Hf Hg Hfu) as Hok. unfold sat in Hok.
    rewrite (counted_ok _ _ _ _ _ _ (C81_xor_counted (S fuel) f g) Hs0) in Hok. destruct Hok as (HI'&_&tr&Htr&_).
    pose proof (inv_repr_addr HE _ _ _ _ _ HI' Htr). lia. }
  clear Hs0 Hone Hneg.
  assert (Hsh : G xor_symb K s s' (ht (Br (n_idx nf) lf hf) + ht (Br (n_idx ng) lg hg)) /\ k + 4 * cnt xor_symb K s <= 1 + 4 * cnt xor_symb K s'); [|split; [apply Hsh|lia]].
  eapply (shc_pot HE xor_symb K P md H s (xor_count fuel) (if n_idx ng <? n_idx nf then n_idx nf else n_idx ng) f g nf ng lf hf lg hg
    (fun r r0 r1 => (if negb (r =? 0) then cache_insert f g xor_symb r else ret tt) ;;* ret (r, 1 + r0.2 + r1.2))); [..|exact Hs|exact Hr0]; auto.
  - destruct (n_idx ng <? n_idx nf); auto.
  - apply HinK; auto. lia.
  - intros s0 f' g' tf' tg' HI0 Hms0 HK0 HP0 HPf' Hf0 Hg0 Hlt r1 k1 s1 Hr1.
    assert (Hfu' : (2 * (ht tf' + ht tg') + swp f' g' < fuel)%nat) by (clear Hs; pose proof (swp_le f' g'); lia).
    pose proof (xor_fuel_spec HE md H fuel Hor s0 f' g' tf' tg' HI0 Hf0 Hg0 Hfu') as Hok. unfold sat in Hok.
    rewrite (counted_ok _ _ _ _ _ _ (C81_xor_counted fuel f' g') Hr1) in Hok. destruct Hok as (HI1&He1&_).
    destruct (IH s0 f' g' tf' tg' r1 k1 s1 HI0 Hms0 HK0 HP0 HPf' Hf0 Hg0 Hfu' Hr1) as [HG Hk1].
    split_and!; [done|done|done|]. pose proof (swp_le f' g'). lia.
  - intros r1 a b s2 x s3 Hx. apply bind_okc in Hx as (u&?&Hu&Hx). injection Hx as <- <-. split; [done|]. intros Hr1. apply N.eqb_neq in Hr1. rewrite Hr1 in Hu. by exists u.
Qed.

(** ** Theorems *)
Theorem C81_xor_product md w i j p q n m k r s' : md_xor md = true -> reach md w -> hnd w i = Some p -> hnd w j = Some q -> nnodes w i n -> nnodes w j m ->
  apart (w_s w) p q xor_symb -> xor_rec_calls w i j k r s' -> k <= 4 * N.of_nat n * N.of_nat m + 2.
Proof.
  intros Hor HR Hp Hq (p'&lp&Hp'&Hp0&_&Hlp&<-) (q'&lq&Hq'&Hq0&_&Hlq&<-) Hap (p1&q1&Hp1&Hq1&Hk).
  assert (p' = p) as -> by congruence. assert (q' = q) as -> by congruence. assert (p1 = p) as -> by congruence. assert (q1 = q) as -> by congruence.
  pose proof (reach_inv HE _ _ HR) as HW. destruct (winv_repr _ _ _ _ HW Hp Hp0) as [t Ht]. destruct (winv_repr _ _ _ _ HW Hq Hq0) as [u Hu].
  unfold with_fuel in Hk.
  assert (Hpart : forall y t', repr (s_heap (w_s w)) y t' -> part (w_s w) y y).
  { intros y t' Hr. destruct (decide (sink y)) as [|Hs]; [by left|]. right. apply subnode_reach.
    destruct (repr_in _ _ _ _ _ (i_heap _ _ _ HW) Hr) as [ny Hny]. by econstructor. }
  destruct (xor_pot md _ (okeys lp lq) (pairs (w_s w) p q) (fuel_of (w_s w)) Hor
    ltac:(intros f g [[? ?]|[? ?]]; [right|left]; done) (fun f g => pairs_key _ _ _ _ _ f g Hlp Hlq)
    (w_s w) p q t u r k s' HW (reach_msl HE _ _ HR) (keys_Kok HE _ _ _ _ _ _ _ HW Hlp Hlq Hap) (pairs_Pcl _ _ _ _ HW)) as [_ Hb]; auto.
  - left. split; [by apply (Hpart p t)|by apply (Hpart q u)].
  - pose proof (fuel_ht _ _ _ Ht). pose proof (fuel_ht _ _ _ Hu). pose proof (swp_le p q). lia.
  - pose proof (swp_le p q). pose proof (okeys_len lp lq) as Hlen.
    assert (cnt xor_symb (okeys lp lq) s' <= N.of_nat (length lp * length lq)%nat).
    { unfold cnt. pose proof (filter_len_le (knownb xor_symb s') (okeys lp lq)). lia. }
    rewrite <- N.mul_assoc, <- Nat2N.inj_mul. lia.
Qed.

(** ** Asking again *)
(** xor_rec(f, g) is answered with [r] by its first line or by the cache *)
Definition xor_known (s : mstate) (f g r : ptr) : Prop := (f = g /\ r = botsink) \/ (f <> g /\ hit s f g xor_symb r).
Lemma xor_known_intro md H n s f g r s' tf tg : md_xor md = true -> Inv md H s -> ~ sink f -> ~ sink g -> repr (s_heap s) f tf -> repr (s_heap s) g tg -> (2 * (ht tf + ht tg) + swp f g < S n)%nat -> f <= g ->
  xor_fuel (S n) f g s = Ok r s' -> xor_known s' f g r.
Proof.
  intros Hor HI Hsf Hsg Hf Hg Hfu Hle Hs. pose proof (xor_fuel_spec HE md H (S n) Hor s f g tf tg HI Hf Hg Hfu) as Hok. unfold sat in Hok. rewrite Hs in Hok.
  destruct Hok as (HI'&_&tr&Htr&_). pose proof (inv_repr_addr HE _ _ _ _ _ HI' Htr) as Hr0.
  cbn [xor_fuel] in Hs. unfold xor_known. destruct (N.eqb_spec f g) as [->|Hfg]; [injection Hs as <- <-; by left|]. right.
  destruct (N.ltb_spec g f); [lia|]. unfold sink in *.
  destruct (N.eqb_spec f botsink) as [->|Hfb]; [tauto|]. destruct (N.eqb_spec g botsink) as [->|Hgb]; [tauto|].
  destruct (N.eqb_spec f topsink) as [->|Hft]; [tauto|]. destruct (N.eqb_spec g topsink) as [->|Hgt]; [tauto|]. split; [done|].
  destruct (cache_lookup_spec HE md H s f g xor_symb tf tg HI Hf Hg) as (m&Hm&_). rewrite (bind_eq _ _ _ _ _ Hm) in Hs.
  destruct (N.eqb_spec m 0) as [Hm0|Hm0]; cbn [negb] in Hs.
  - repeat match type of Hs with bind _ _ _ = _ => let H1 := fresh "Hb" in apply bind_okc in Hs as (?&?&H1&Hs) end.
    injection Hs as <- <-. match goal with H1 : (if negb (?x =? 0) then _ else _) _ = _ |- _ => destruct (N.eqb_spec x 0); [lia|]; cbn [negb] in H1; apply insert_hit in H1; [by destruct H1|lia] end.
  - pose proof (lookup_hit _ _ _ _ _ _ _ _ HI Hm Hm0) as Hh. apply touch_same in Hs as Hss. unfold touch in Hs. apply N.eqb_neq in Hm0. rewrite Hm0 in Hs.
    apply bind_okc in Hs as (nr&s1&Hn&Hs). injection Hs as <- <-. by subst.
Qed.
Lemma xor_known_count md H n s f g r : Inv md H s -> ~ sink f -> ~ sink g -> f <= g -> r ∈ dom (s_heap s) -> xor_known s f g r -> xor_count (S n) f g s = Ok (r, 1) s.
Proof.
  intros HI Hsf Hsg Hle Hd Hk. cbn [xor_count]. destruct Hk as [[-> ->]|[Hne Hh]]; [by rewrite N.eqb_refl|].
  apply N.eqb_neq in Hne as Hne'. rewrite Hne'. destruct (N.ltb_spec g f); [lia|]. unfold sink in *.
  destruct (N.eqb_spec f botsink) as [->|_]; [tauto|]. destruct (N.eqb_spec g botsink) as [->|_]; [tauto|].
  destruct (N.eqb_spec f topsink) as [->|_]; [tauto|]. destruct (N.eqb_spec g topsink) as [->|_]; [tauto|].
  rewrite (bind_eq _ _ _ _ _ (hit_lookup _ _ _ _ _ _ _ HI Hh Hd)). destruct Hh as [Hr0 _]. apply N.eqb_neq in Hr0 as Hr1. rewrite Hr1. cbn [negb].
  apply elem_of_dom in Hd as [nr Hnr]. unfold touch. rewrite Hr1. unfold bind. by rewrite (getN_eq _ _ _ Hnr).
Qed.
Lemma xor_known_samek s s' f g r : samek s s' -> xor_known s f g r -> xor_known s' f g r.
Proof. intros Hs [Hk|[? Hk]]; [by left|]. right. split; [done|]. by eapply hit_samek. Qed.
Lemma xor_swap_fuel n f g s : g < f -> xor_fuel (S n) f g s = xor_fuel n g f s.
Proof. intros H. cbn [xor_fuel]. destruct (N.eqb_spec f g); [lia|]. by destruct (N.ltb_spec g f); [|lia]. Qed.
Lemma xor_swap_count n f g s r : g < f -> xor_count n g f s = Ok (r, 1) s -> xor_count (S n) f g s = Ok (r, 2) s.
Proof. intros H Hs. cbn [xor_count]. destruct (N.eqb_spec f g); [lia|]. destruct (N.ltb_spec g f); [|lia]. unfold bind. by rewrite Hs. Qed.
(** an exclusive or of functions that are not constant, just computed, is found again with one activation (two if the operands have
    to be exchanged), whichever way round it is asked for, and finding it changes nothing *)
Theorem C81_xor_repeat md w i j out w' : reach md w -> allowed md w (OXor i j) -> ~ isconst w i -> ~ isconst w j -> step (OXor i j) w = WOk out w' ->
  exists r k k', out = OutP r /\ k <= 2 /\ k' <= 2 /\ xor_rec_calls w' i j k r (w_s w') /\ xor_rec_calls w' j i k' r (w_s w').
Proof.
  intros HR Ha Hci Hcj Hs. pose proof (reach_inv HE _ _ HR) as HW. pose proof (reach_inv HE _ _ (reach_step _ _ _ _ _ HR Ha Hs)) as HW'.
  destruct Ha as (Hi&Hj&Hor). destruct (live_hrep _ _ _ HW Hi) as (p&t&Hr1). destruct (live_hrep _ _ _ HW Hj) as (q&u&Hr2).
  cbn [step] in Hs. rewrite (with2_hrep _ _ _ _ _ _ _ _ Hr1 Hr2) in Hs. destruct (newh_inv _ _ _ _ Hs) as (r&s1&Hm&->&Hk&Hh).
  destruct Hr1 as (Hp&Hp0&Hr1). destruct Hr2 as (Hq&Hq0&Hr2).
  assert (Hd : r ∈ dom (s_heap (w_s w'))).
  { assert (Hn : hnd w' (length (w_h w)) = Some r) by (unfold hnd; by rewrite Hh, list_lookup_middle).
    pose proof (xor_spec HE md _ _ _ _ _ _ Hor HW Hr1 Hr2) as Hok. unfold sat in Hok. rewrite Hm in Hok. destruct Hok as (HI1&_&tr&Htr&_).
    destruct (repr_in _ _ _ _ _ (i_heap _ _ _ HI1) Htr) as [n Hn1]. destruct (proj2 Hk _ _ Hn1) as (n'&Hn'&_). by eapply elem_of_dom_2. }
  assert (Hsp : ~ sink p) by (intros [-> | ->]; apply Hci; [by left|by right]). assert (Hsq : ~ sink q) by (intros [-> | ->]; apply Hcj; [by left|by right]).
  unfold xor_rec, with_fuel in Hm. destruct (fuel_SS (w_s w)) as [n Hn]. pose proof (fuel_ht _ _ _ Hr1) as Hf1. pose proof (fuel_ht _ _ _ Hr2) as Hf2. rewrite Hn in *.
  exists r. unfold xor_rec_calls, with_fuel. destruct (fuel_SS (w_s w')) as [n' ->].
  pose proof (hnd_old _ _ _ _ _ Hh Hp) as Hp'. pose proof (hnd_old _ _ _ _ _ Hh Hq) as Hq'.
  destruct (N.lt_total p q) as [Hlt|[->|Hlt]].
  - pose proof (swp_le p q) as Hsw.
    assert (Hkn : xor_known (w_s w') p q r) by (eapply xor_known_samek; [exact Hk|]; eapply (xor_known_intro md _ (S n) (w_s w) p q r s1 t u Hor HW Hsp Hsq Hr1 Hr2); [lia|lia|exact Hm]).
    exists 1, 2. split_and!; [done|lia|lia| |].
    + exists p, q. split_and!; [done|done|]. eapply xor_known_count; eauto. lia.
    + exists q, p. split_and!; [done|done|]. apply xor_swap_count; [done|]. eapply xor_known_count; eauto. lia.
  - cbn [xor_fuel] in Hm. rewrite N.eqb_refl in Hm. injection Hm as <- <-.
    exists 1, 1. split_and!; [done|lia|lia| |]; exists q, q; (split_and!; [done|done|]); cbn [xor_count]; by rewrite N.eqb_refl.
  - rewrite (xor_swap_fuel _ _ _ _ Hlt) in Hm. pose proof (swp_le q p) as Hsw.
    assert (Hkn : xor_known (w_s w') q p r) by (eapply xor_known_samek; [exact Hk|]; eapply (xor_known_intro md _ n (w_s w) q p r s1 u t Hor HW Hsq Hsp Hr2 Hr1); [lia|lia|exact Hm]).
    exists 2, 1. split_and!; [done|lia|lia| |].
    + exists p, q. split_and!; [done|done|]. apply xor_swap_count; [done|]. eapply xor_known_count; eauto. lia.
    + exists q, p. split_and!; [done|done|]. eapply xor_known_count; eauto. lia.
Qed.

(** ** A bound that needs nothing of the cache *)
Definition hb (D : nat) (f g : ptr) (k : N) : Prop := k + 3 <= 4 * 2 ^ N.of_nat D + N.of_nat (swp f g).
Lemma hb_1 D f g : hb D f g 1.
Proof. unfold hb. pose proof (N.pow_nonzero 2 (N.of_nat D) ltac:(done)). lia. Qed.
Lemma hb_swap D f g k : g < f -> hb D g f k -> hb D f g (1 + k).
Proof. unfold hb. intros H. destruct (swp_swap _ _ H). lia. Qed.
Lemma hb_step D D0 D1 f g f0 g0 f1 g1 a b : (D0 < D)%nat -> (D1 < D)%nat -> hb D0 f0 g0 a -> hb D1 f1 g1 b -> hb D f g (1 + a + b).
Proof.
  unfold hb. intros H0 H1 Ha Hb. pose proof (swp_le f0 g0). pose proof (swp_le f1 g1).
  pose proof (N.pow_le_mono_r 2 (N.of_nat D0) (N.of_nat D - 1) ltac:(done) ltac:(lia)) as P0.
  pose proof (N.pow_le_mono_r 2 (N.of_nat D1) (N.of_nat D - 1) ltac:(done) ltac:(lia)) as P1.
  replace (N.of_nat D) with (N.succ (N.of_nat D - 1)) by lia. rewrite N.pow_succ_r'. lia.
Qed.
Lemma shc_hle md H s rec v f g nf ng lf hf lg hg kf r k s' : Inv md H s -> ~ sink f -> ~ sink g ->
  s_heap s !! f = Some nf -> s_heap s !! g = Some ng ->
  repr (s_heap s) (n_lo nf) lf -> repr (s_heap s) (n_hi nf) hf ->
  repr (s_heap s) (n_lo ng) lg -> repr (s_heap s) (n_hi ng) hg ->
  let tf := Br (n_idx nf) lf hf in let tg := Br (n_idx ng) lg hg in
  (v = n_idx nf \/ v = n_idx ng) ->
  (forall s0 f' g' tf' tg', Inv md H s0 -> ext s s0 -> repr (s_heap s0) f' tf' -> repr (s_heap s0) g' tg' ->
     (ht tf' + ht tg' < ht tf + ht tg)%nat ->
     forall r k s1, rec f' g' s0 = Ok (r, k) s1 -> Inv md H s1 /\ ext s0 s1 /\ hb (ht tf' + ht tg') f' g' k) ->
  (forall r a b s2 x s3, kf r a b s2 = Ok x s3 -> x.2 = 1 + a.2 + b.2) ->
  shc rec v (n_idx nf) (n_idx ng) f g kf s = Ok (r, k) s' -> hb (ht tf + ht tg) f g k.
Proof.
  intros HI Hsf Hsg Hnf Hng Hlf Hhf Hlg Hhg tf tg Hv Hrec Hk Hs.
  set (cp := fun b (p : ptr) (n : node) => if v =? n_idx n then (if b : bool then n_hi n else n_lo n) else p).
  assert (Hrf : repr (s_heap s) f tf) by (by constructor).
  assert (Hrg : repr (s_heap s) g tg) by (by constructor).
  assert (Hcf : forall b, repr (s_heap s) (cp b f nf) (cof v b tf)).
  { intros b. unfold cp, tf; simpl. destruct (v =? n_idx nf); [by destruct b|done]. }
  assert (Hcg : forall b, repr (s_heap s) (cp b g ng) (cof v b tg)).
  { intros b. unfold cp, tg; simpl. destruct (v =? n_idx ng); [by destruct b|done]. }
  assert (Hht : forall b, (ht (cof v b tf) + ht (cof v b tg) < ht tf + ht tg)%nat).
  { intros b. pose proof (ht_cof v b tf). pose proof (ht_cof v b tg).
    destruct Hv as [Hv|Hv].
    - pose proof (ht_cof_lt v b lf hf) as Hlt. unfold tf in *. rewrite <- Hv in *. lia.
    - pose proof (ht_cof_lt v b lg hg) as Hlt. unfold tg in *. rewrite <- Hv in *. lia. }
  unfold shc in Hs.
  rewrite (bind_eq _ _ _ _ _ (low_cof md H s f nf lf hf v HI Hnf Hlf Hhf)) in Hs.
  rewrite (bind_eq _ _ _ _ _ (low_cof md H s g ng lg hg v HI Hng Hlg Hhg)) in Hs.
  apply bind_okc in Hs as ([r0 k0]&s1&Hr0&Hs).
  destruct (Hrec s _ _ _ _ HI (ext_refl _) (Hcf false) (Hcg false) (Hht false) _ _ _ Hr0) as (HI1&He1&Hk0).
  apply bind_okc in Hs as (u1&s1'&Hu1&Hs). apply liftR_ok in Hu1 as [_ ->].
  destruct (proj1 He1 _ _ Hnf) as (nf1&Hnf1&Hc1&Hc2&Hc3&_). destruct (proj1 He1 _ _ Hng) as (ng1&Hng1&Hd1&Hd2&Hd3&_).
  assert (Hhi : forall p n n1 tl th, s_heap s1 !! p = Some n1 -> n_idx n = n_idx n1 -> n_hi n = n_hi n1 -> n_lo n = n_lo n1 ->
      repr (s_heap s) (n_lo n) tl -> repr (s_heap s) (n_hi n) th ->
      (if v =? n_idx n then high p else ret p) s1 = Ok (cp true p n) s1).
  { intros p n n1 tl th Hp Hi Hhi Hlo Htl Hth. unfold cp. rewrite Hi, Hhi.
    eapply high_cof; [exact HI1|exact Hp|rewrite <- Hlo|rewrite <- Hhi]; eapply repr_ext_s; eauto. }
  rewrite (bind_eq _ _ _ _ _ (Hhi f nf nf1 _ _ Hnf1 Hc3 Hc2 Hc1 Hlf Hhf)) in Hs.
  rewrite (bind_eq _ _ _ _ _ (Hhi g ng ng1 _ _ Hng1 Hd3 Hd2 Hd1 Hlg Hhg)) in Hs.
  apply bind_okc in Hs as ([r1 k1]&s2&Hr1&Hs).
  destruct (Hrec s1 _ _ _ _ HI1 He1 (repr_ext_s _ _ _ _ He1 (Hcf true)) (repr_ext_s _ _ _ _ He1 (Hcg true)) (Hht true) _ _ _ Hr1) as (_&_&Hk1).
  apply bind_okc in Hs as (u2&s3&_&Hs). apply bind_okc in Hs as (r2&s4&_&Hs). apply Hk in Hs. cbn [snd] in Hs. rewrite Hs.
  exact (hb_step _ _ _ _ _ _ _ _ _ _ _ (Hht false) (Hht true) Hk0 Hk1).
Qed.
Lemma xor_count_le md H fuel : md_xor md = true -> forall s f g tf tg r k s', Inv md H s -> repr (s_heap s) f tf -> repr (s_heap s) g tg ->
  (2 * (ht tf + ht tg) + swp f g < fuel)%nat -> xor_count fuel f g s = Ok (r, k) s' -> hb (ht tf + ht tg) f g k.
Proof.
  intros Hor. induction fuel as [|fuel IH]; intros s f g tf tg r k s' HI Hf Hg Hfu Hs; [lia|].
  pose proof Hs as Hs0. cbn [xor_count] in Hs.
  destruct (N.eqb_spec f g) as [->|Hfg]; [injection Hs as <- <- <-; apply hb_1|].
  destruct (N.ltb_spec g f) as [Hlt|Hge].
  { apply bind_okc in Hs as ([r' k']&s1&Hr&Hs). injection Hs as <- <- <-. apply (hb_swap _ _ _ _ Hlt). rewrite Nat.add_comm.
    apply (IH s g f tg tf r' k' s1); auto. destruct (swp_swap _ _ Hlt). lia. }
  destruct (N.eqb_spec f botsink) as [->|Hfb]; [injection Hs as <- <- <-; apply hb_1|].
  destruct (N.eqb_spec g botsink) as [->|Hgb]; [injection Hs as <- <- <-; apply hb_1|].
  destruct (N.eqb_spec f topsink) as [->|Hft]; [apply bind_okc in Hs as (x&s1&Hn&Hs); injection Hs as <- <- <-; apply hb_1|].
  destruct (N.eqb_spec g topsink) as [->|Hgt]; [apply bind_okc in Hs as (x&s1&Hn&Hs); injection Hs as <- <- <-; apply hb_1|].
  destruct (cache_lookup_spec HE md H s f g xor_symb tf tg HI Hf Hg) as (m&Hm&_).
  rewrite (bind_eq _ _ _ _ _ Hm) in Hs.
  destruct (N.eqb_spec m 0) as [Hm0|Hm0]; cbn [negb] in Hs.
  2:{ apply bind_okc in Hs as (r'&s1&Hr&Hs). injection Hs as <- <- <-. apply hb_1. }
  assert (Hsf : ~ sink f) by (unfold sink; tauto). assert (Hsg : ~ sink g) by (unfold sink; tauto).
  destruct (repr_nonsink _ _ _ Hf Hsf) as (nf&lf&hf&Hnf&->&Hlf&Hhf).
  destruct (repr_nonsink _ _ _ Hg Hsg) as (ng&lg&hg&Hng&->&Hlg&Hhg).
  pose proof (i_heap _ _ _ HI) as Hh.
  destruct (ho_node _ _ _ Hh _ _ Hnf Hsf) as [Hvf _]. destruct (ho_node _ _ _ Hh _ _ Hng Hsg) as [Hvg _].
  rewrite bind_get in Hs.
  rewrite (bind_eq _ _ _ _ _ (variable_eq _ _ _ Hnf)) in Hs. apply bind_okc in Hs as (u1&s1&Ha&Hs). apply liftR_ok in Ha as [_ ->].
  rewrite (bind_eq _ _ _ _ _ (variable_eq _ _ _ Hng)) in Hs. apply bind_okc in Hs as (u2&s1&Ha&Hs). apply liftR_ok in Ha as [_ ->].
  destruct (lookup_lt_is_Some_2 (s_vars s) (N.to_nat (n_idx nf))) as [vf Hvf']; [lia|].
  destruct (lookup_lt_is_Some_2 (s_vars s) (N.to_nat (n_idx ng))) as [vg Hvg']; [lia|].
  rewrite (bind_eq _ _ _ _ _ (getV_eq _ _ _ Hvf')), (bind_eq _ _ _ _ _ (getV_eq _ _ _ Hvg')) in Hs.
  eapply (shc_hle md H s (xor_count fuel) (if n_idx ng <? n_idx nf then n_idx nf else n_idx ng) f g nf ng lf hf lg hg
    (fun r r0 r1 => (if negb (r =? 0) then cache_insert f g xor_symb r else ret tt) ;;* ret (r, 1 + r0.2 + r1.2))); [..|exact Hs]; auto.
  - destruct (n_idx ng <? n_idx nf); auto.
  - intros s0 f' g' tf' tg' HI0 He0 Hf0 Hg0 Hlt r1 k1 s1 Hr1.
    assert (Hfu' : (2 * (ht tf' + ht tg') + swp f' g' < fuel)%nat) by (clear Hs; pose proof (swp_le f' g'); lia).
    pose proof (xor_fuel_spec HE md H fuel Hor s0 f' g' tf' tg' HI0 Hf0 Hg0 Hfu') as Hok. unfold sat in Hok.
    rewrite (counted_ok _ _ _ _ _ _ (C81_xor_counted fuel f' g') Hr1) in Hok. destruct Hok as (HI1&He1&_).
    split_and!; [done|done|]. by apply (IH s0 f' g' tf' tg' r1 k1 s1).
  - intros r1 a b s2 x s3 Hx. apply bind_okc in Hx as (?&?&_&Hx). by injection Hx as <- <-.
Qed.

(** a diagram is no deeper than it has nodes *)
Lemma ht_nodes md w p t (l : list ptr) : WInv md w -> repr (s_heap (w_s w)) p t -> (forall x, subnode (w_s w) p x -> x ∈ l) -> (ht t <= length l)%nat.
Proof.
  intros HW Hr Hl. set (h := s_heap (w_s w)) in *.
  assert (Hrep : forall q u, repr h q u -> (forall x, subnode (w_s w) q x -> x ∈ l) -> repr (filter (fun x : ptr * node => x.1 ∈ l) h) q u).
  { induction 1 as [| |q n tl th Hs Hn Hlo IHl Hhi IHh]; intros Hsub; [constructor|constructor|]. constructor; [done| |apply IHl|apply IHh].
    - apply map_filter_lookup_Some_2; [done|]. cbn. apply Hsub, subnode_reach. by econstructor.
    - intros x Hx%subnode_reach. apply Hsub, subnode_reach. by eapply ri_lo.
    - intros x Hx%subnode_reach. apply Hsub, subnode_reach. by eapply ri_hi. }
  pose proof (repr_ht _ _ _ (Hrep _ _ Hr Hl)) as Hh. etransitivity; [exact Hh|].
  rewrite <- (size_dom (D := gset ptr)). transitivity (size (list_to_set l : gset ptr)).
  - apply subseteq_size. intros x [n Hn]%elem_of_dom. apply map_filter_lookup_Some in Hn as [_ Hn]. by apply elem_of_list_to_set.
  - clear. induction l as [|x l IH]; [done|]. cbn [list_to_set length]. pose proof (size_union_alt ({[x]} : gset ptr) (list_to_set l)) as Hu. rewrite size_singleton in Hu.
    pose proof (subseteq_size (list_to_set l ∖ {[x]} : gset ptr) (list_to_set l) ltac:(set_solver)). cbn. unfold union, set_fold in *. lia.
Qed.
(** with any cache and any collisions: fewer than 2^(n + m + 2) activations for operands with n and m nodes *)
Theorem C81_xor_bound md w i j n m k r s' : md_xor md = true -> reach md w -> nnodes w i n -> nnodes w j m -> xor_rec_calls w i j k r s' -> k < 2 ^ (N.of_nat n + N.of_nat m + 2).
Proof.
  intros Hor HR (p&lp&Hp&Hp0&_&Hlp&<-) (q&lq&Hq&Hq0&_&Hlq&<-) (p1&q1&Hp1&Hq1&Hk).
  assert (p1 = p) as -> by congruence. assert (q1 = q) as -> by congruence.
  pose proof (reach_inv HE _ _ HR) as HW. destruct (winv_repr _ _ _ _ HW Hp Hp0) as [t Ht]. destruct (winv_repr _ _ _ _ HW Hq Hq0) as [u Hu].
  unfold with_fuel in Hk. pose proof (fuel_ht _ _ _ Ht). pose proof (fuel_ht _ _ _ Hu). pose proof (swp_le p q).
  assert (Hb : hb (ht t + ht u) p q k). { eapply (xor_count_le md _ (fuel_of (w_s w)) Hor (w_s w) p q t u r k s' HW); auto. lia. }
  pose proof (ht_nodes _ _ _ _ lp HW Ht (fun x Hx => proj2 (Hlp x) Hx)). pose proof (ht_nodes _ _ _ _ lq HW Hu (fun x Hx => proj2 (Hlq x) Hx)).
  unfold hb in Hb. pose proof (N.pow_le_mono_r 2 (N.of_nat (ht t + ht u)) (N.of_nat (length lp) + N.of_nat (length lq)) ltac:(done) ltac:(lia)) as Hm.
  rewrite N.pow_add_r. change (2 ^ 2) with 4. lia.
Qed.
End xorcost.
