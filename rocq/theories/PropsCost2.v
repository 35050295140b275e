(** * PropsCost2.v -- how many recursive calls and_rec, or_rec and ite_rec make (C78)

    As in PropsCost.v each function has a counting version: the same code which also returns how often the
    function was entered. *)
From Verif Require Export PropsCost.
Open Scope N_scope.

Section costmodel2.
Context {E : Env}.

(** bdd_mgr.cpp:61-101 with a counter of activations *)
Fixpoint and_count (fuel : nat) (f g : ptr) : M (ptr * N) :=
  match fuel with
  | O => fail ELoop
  | S fuel =>
    if f =? g then ret (f, 1) else
    if g <? f then (let* r := and_count fuel g f in ret (r.1, 1 + r.2)) else
    if f =? topsink then ret (g, 1) else
    if f =? botsink then ret (botsink, 1) else
    if g =? topsink then ret (f, 1) else
    if g =? botsink then ret (botsink, 1) else
    let* m := cache_lookup f g and_symb in
    if negb (m =? 0) then (let* r := touch m in ret (r, 1)) else
    let* fv := variable f in
    let* gv := variable g in
    getV fv ;;* getV gv ;;*
    let v := if fv <? gv then fv else gv in
    let* f0 := (if v =? fv then low f else ret f) in
    let* g0 := (if v =? gv then low g else ret g) in
    let* r0 := and_count fuel f0 g0 in
    assert_ (negb (r0.1 =? 0)) ;;*
    let* f1 := (if v =? fv then high f else ret f) in
    let* g1 := (if v =? gv then high g else ret g) in
    let* r1 := and_count fuel f1 g1 in
    assert_ (negb (r1.1 =? 0)) ;;*
    let* r := unique_find_v v r0.1 r1.1 in
    assert_ (negb (r =? 0)) ;;*
    cache_insert f g and_symb r ;;*
    ret (r, 1 + r0.2 + r1.2)
  end.
(** bdd_mgr.cpp:164-216 with a counter of activations *)
Fixpoint or_count (fuel : nat) (f g : ptr) : M (ptr * N) :=
  match fuel with
  | O => fail ELoop
  | S fuel =>
    if f =? g then ret (f, 1) else
    if g <? f then (let* r := or_count fuel g f in ret (r.1, 1 + r.2)) else
    if f =? topsink then ret (topsink, 1) else
    if f =? botsink then ret (g, 1) else
    if g =? topsink then ret (topsink, 1) else
    if g =? botsink then ret (f, 1) else
    let* m := cache_lookup f g or_symb in
    if negb (m =? 0) then (let* r := touch m in ret (r, 1)) else
    let* fv := variable f in
    let* gv := variable g in
    getV fv ;;* getV gv ;;*
    let v := if fv <? gv then fv else gv in
    let* f0 := (if v =? fv then low f else ret f) in
    let* g0 := (if v =? gv then low g else ret g) in
    let* r0 := or_count fuel f0 g0 in
    assert_ (negb (r0.1 =? 0)) ;;*
    let* f1 := (if v =? fv then high f else ret f) in
    let* g1 := (if v =? gv then high g else ret g) in
    let* r1 := or_count fuel f1 g1 in
    assert_ (negb (r1.1 =? 0)) ;;*
    let* r := unique_find_v v r0.1 r1.1 in
    (if negb (r =? 0) then cache_insert f g or_symb r else ret tt) ;;*
    ret (r, 1 + r0.2 + r1.2)
  end.
(** bdd_mgr.cpp:258-306 with a counter of activations (of ite_rec itself) *)
Fixpoint ite_count (fuel : nat) (f g h : ptr) : M (ptr * N) :=
  match fuel with
  | O => fail ELoop
  | S fuel =>
    let* ft := is_topsink f in if ft then ret (g, 1) else
    let* fb := is_botsink f in if fb then ret (h, 1) else
    let* gt := (if g =? f then ret true else is_topsink g) in
    if gt then (let* r := or_rec f h in ret (r, 1)) else
    let* hb := (if h =? f then ret true else is_botsink h) in
    if hb then (let* r := and_rec f g in ret (r, 1)) else
    if g =? h then ret (g, 1) else
    let* gb := is_botsink g in
    let* ht := (if gb then is_topsink h else ret false) in
    if ht then (let* r := xor_rec topsink f in ret (r, 1)) else
    let* m := cache_lookup f g h in
    if negb (m =? 0) then (let* r := touch m in ret (r, 1)) else
    let* s := get in
    let* vf := variable f in
    getV vf ;;*
    let* gterm := is_terminal g in
    let* vg := (if gterm then ret (nr_variables s - 1) else variable g) in
    getV vg ;;*
    let* hterm := is_terminal h in
    let* vh := (if hterm then ret (nr_variables s - 1) else variable h) in
    getV vh ;;*
    let v := N.min (N.min vf vg) vh in
    let* f0 := (if vf =? v then low f else ret f) in
    let* g0 := (if vg =? v then low g else ret g) in
    let* h0 := (if vh =? v then low h else ret h) in
    let* r0 := ite_count fuel f0 g0 h0 in
    assert_ (negb (r0.1 =? 0)) ;;*
    let* f1 := (if vf =? v then high f else ret f) in
    let* g1 := (if vg =? v then high g else ret g) in
    let* h1 := (if vh =? v then high h else ret h) in
    let* r1 := ite_count fuel f1 g1 h1 in
    assert_ (negb (r1.1 =? 0)) ;;*
    let* r := unique_find_v v r0.1 r1.1 in
    assert_ (negb (r =? 0)) ;;*
    cache_insert f g h r ;;*
    ret (r, 1 + r0.2 + r1.2)
  end.
(** and_rec (or_rec, ite_rec) of the handles returns [r] after [k] activations of itself and leaves the manager in state [s'] *)
Definition and_rec_calls (w : world) (i j : nat) (k : N) (r : ptr) (s' : mstate) : Prop :=
  exists p q, hnd w i = Some p /\ hnd w j = Some q /\ with_fuel (fun n => and_count n p q) (w_s w) = Ok (r, k) s'.
Definition or_rec_calls (w : world) (i j : nat) (k : N) (r : ptr) (s' : mstate) : Prop :=
  exists p q, hnd w i = Some p /\ hnd w j = Some q /\ with_fuel (fun n => or_count n p q) (w_s w) = Ok (r, k) s'.
Definition ite_rec_calls (w : world) (i j l : nat) (k : N) (r : ptr) (s' : mstate) : Prop :=
  exists p q q', hnd w i = Some p /\ hnd w j = Some q /\ hnd w l = Some q' /\ with_fuel (fun n => ite_count n p q q') (w_s w) = Ok (r, k) s'.
End costmodel2.

Section cost2.
Context {E : Env} (HE : env_ok E).

Ltac cn := repeat lazymatch goal with
  | |- counted (fail _) (fail _) => apply cn_fail
  | |- counted (ret _) (ret _) => apply cn_ret
  | |- counted (let* r := ?m in ret (r, _)) ?m => apply (cn_retR m (fun _ => _))
  | |- counted (if ?b then _ else _) _ => destruct b
  | IH : forall f g, counted _ _ |- counted (and_count _ _ _) _ => apply IH
  | IH : forall f g, counted _ _ |- counted (or_count _ _ _) _ => apply IH
  | IH : forall f g h, counted _ _ |- counted (ite_count _ _ _ _) _ => apply IH
  | |- counted (bind (and_count _ _ _) _) (bind _ _) => apply cn_bindc; [|intros ?]
  | |- counted (bind (or_count _ _ _) _) (bind _ _) => apply cn_bindc; [|intros ?]
  | |- counted (bind (ite_count _ _ _ _) _) (bind _ _) => apply cn_bindc; [|intros ?]
  | |- counted (bind _ _) (bind _ _) => apply cn_bind; intros ?
  end.
Lemma cn_swap {A} (mc : M (A * N)) (m : M A) : counted mc m -> counted (let* r := mc in ret (r.1, 1 + r.2)) m.
Proof. intros Hm s. unfold bind. rewrite (Hm s). by destruct (mc s) as [[a c] s1|e s1]. Qed.
Theorem C78_and_counted n : forall f g, counted (and_count n f g) (and_fuel n f g).
Proof.
  induction n as [|n IH]; intros f g; cbn [and_count and_fuel]; [apply cn_fail|].
  destruct (f =? g); [apply cn_ret|]. destruct (g <? f); [apply cn_swap, IH|]. cbv zeta. cn.
Qed.
Theorem C78_or_counted n : forall f g, counted (or_count n f g) (or_fuel n f g).
Proof.
  induction n as [|n IH]; intros f g; cbn [or_count or_fuel]; [apply cn_fail|].
  destruct (f =? g); [apply cn_ret|]. destruct (g <? f); [apply cn_swap, IH|]. cbv zeta. cn.
Qed.
Theorem C78_ite_counted n : forall f g h, counted (ite_count n f g h) (ite_fuel n f g h).
Proof. induction n as [|n IH]; intros f g h; cbn [ite_count ite_fuel]; [apply cn_fail|]. cbv zeta. cn. Qed.

(** ** Upper bounds *)
(** the common part of and_rec and or_rec, counted *)
Definition shc (rec : ptr -> ptr -> M (ptr * N)) (v fv gv : N) (f g : ptr) (k : ptr -> ptr * N -> ptr * N -> M (ptr * N)) : M (ptr * N) :=
    let* f0 := (if v =? fv then low f else ret f) in
    let* g0 := (if v =? gv then low g else ret g) in
    let* r0 := rec f0 g0 in
    assert_ (negb (r0.1 =? 0)) ;;*
    let* f1 := (if v =? fv then high f else ret f) in
    let* g1 := (if v =? gv then high g else ret g) in
    let* r1 := rec f1 g1 in
    assert_ (negb (r1.1 =? 0)) ;;*
    let* r := unique_find_v v r0.1 r1.1 in k r r0 r1.
Definition cb (nv lb : N) (f g : ptr) (k : N) : Prop := k + 3 <= 4 * 2 ^ (nv - lb) + N.of_nat (swp f g).
Lemma cb_1 nv lb f g : cb nv lb f g 1.
Proof. unfold cb. pose proof (N.pow_nonzero 2 (nv - lb) ltac:(done)). lia. Qed.
Lemma cb_mono nv lb lb' f g k : lb <= lb' -> cb nv lb' f g k -> cb nv lb f g k.
Proof. unfold cb. intros H. pose proof (N.pow_le_mono_r 2 (nv - lb') (nv - lb) ltac:(done) ltac:(lia)). lia. Qed.
Lemma cb_swap nv lb f g k : g < f -> cb nv lb g f k -> cb nv lb f g (1 + k).
Proof. unfold cb. intros H. destruct (swp_swap _ _ H). lia. Qed.
Lemma cb_step nv v f g f0 g0 f1 g1 a b : v < nv -> cb nv (v + 1) f0 g0 a -> cb nv (v + 1) f1 g1 b -> cb nv v f g (1 + a + b).
Proof.
  unfold cb. intros Hv Ha Hb. replace (nv - v) with (N.succ (nv - (v + 1))) by lia. rewrite N.pow_succ_r'.
  pose proof (swp_le f0 g0). pose proof (swp_le f1 g1). lia.
Qed.
Lemma shc_le md H s rec v f g nf ng lf hf lg hg kf r k s' : md_ord md = true -> Inv md H s -> ~ sink f -> ~ sink g ->
  s_heap s !! f = Some nf -> s_heap s !! g = Some ng ->
  repr (s_heap s) (n_lo nf) lf -> repr (s_heap s) (n_hi nf) hf ->
  repr (s_heap s) (n_lo ng) lg -> repr (s_heap s) (n_hi ng) hg ->
  let tf := Br (n_idx nf) lf hf in let tg := Br (n_idx ng) lg hg in
  (v = n_idx nf \/ v = n_idx ng) -> v <= n_idx nf -> v <= n_idx ng ->
  (forall s0 f' g' tf' tg', Inv md H s0 -> ext s s0 -> repr (s_heap s0) f' tf' -> repr (s_heap s0) g' tg' ->
     (ht tf' + ht tg' < ht tf + ht tg)%nat -> ordt (v + 1) tf' -> ordt (v + 1) tg' ->
     forall r k s1, rec f' g' s0 = Ok (r, k) s1 -> Inv md H s1 /\ ext s0 s1 /\ cb (nr_variables s) (v + 1) f' g' k) ->
  (forall r a b s2 x s3, kf r a b s2 = Ok x s3 -> x.2 = 1 + a.2 + b.2) ->
  shc rec v (n_idx nf) (n_idx ng) f g kf s = Ok (r, k) s' -> cb (nr_variables s) v f g k.
Proof.
  intros Ho HI Hsf Hsg Hnf Hng Hlf Hhf Hlg Hhg tf tg Hv Hvf Hvg Hrec Hk Hs.
  set (cp := fun b (p : ptr) (n : node) => if v =? n_idx n then (if b : bool then n_hi n else n_lo n) else p).
  assert (Hrf : repr (s_heap s) f tf) by (by constructor).
  assert (Hrg : repr (s_heap s) g tg) by (by constructor).
  assert (Hcf : forall b, repr (s_heap s) (cp b f nf) (cof v b tf)).
  { intros b. unfold cp, tf; simpl. destruct (v =? n_idx nf); [by destruct b|done]. }
  assert (Hcg : forall b, repr (s_heap s) (cp b g ng) (cof v b tg)).
  { intros b. unfold cp, tg; simpl. destruct (v =? n_idx ng); [by destruct b|done]. }
  assert (Hht : forall b, (ht (cof v b tf) + ht (cof v b tg) < ht tf + ht tg)%nat).
  { intros b. pose proof (ht_cof v b tf). pose proof (ht_cof v b tg).
    destruct Hv as [Hv|Hv].
    - pose proof (ht_cof_lt v b lf hf) as Hlt. unfold tf in *. rewrite <- Hv in *. lia.
    - pose proof (ht_cof_lt v b lg hg) as Hlt. unfold tg in *. rewrite <- Hv in *. lia. }
  pose proof (i_heap _ _ _ HI) as Hh.
  assert (Hof : forall b, ordt (v + 1) (cof v b tf)).
  { intros b. apply cof_ordt. pose proof (ho_ord _ _ _ Hh Ho _ _ Hrf) as Hx. unfold tf in *. simpl in *. naive_solver. }
  assert (Hog : forall b, ordt (v + 1) (cof v b tg)).
  { intros b. apply cof_ordt. pose proof (ho_ord _ _ _ Hh Ho _ _ Hrg) as Hx. unfold tg in *. simpl in *. naive_solver. }
  assert (Hvn : v < nr_variables s).
  { unfold nr_variables. destruct (ho_node _ _ _ Hh _ _ Hnf Hsf) as [? _]. destruct (ho_node _ _ _ Hh _ _ Hng Hsg) as [? _]. destruct Hv; subst; done. }
  unfold shc in Hs.
  rewrite (bind_eq _ _ _ _ _ (low_cof md H s f nf lf hf v HI Hnf Hlf Hhf)) in Hs.
  rewrite (bind_eq _ _ _ _ _ (low_cof md H s g ng lg hg v HI Hng Hlg Hhg)) in Hs.
  apply bind_okc in Hs as ([r0 k0]&s1&Hr0&Hs).
  destruct (Hrec s _ _ _ _ HI (ext_refl _) (Hcf false) (Hcg false) (Hht false) (Hof false) (Hog false) _ _ _ Hr0) as (HI1&He1&Hk0).
  apply bind_okc in Hs as (u1&s1'&Hu1&Hs). apply liftR_ok in Hu1 as [_ ->].
  destruct (proj1 He1 _ _ Hnf) as (nf1&Hnf1&Hc1&Hc2&Hc3&_). destruct (proj1 He1 _ _ Hng) as (ng1&Hng1&Hd1&Hd2&Hd3&_).
  assert (Hhi : forall p n n1 tl th, s_heap s1 !! p = Some n1 -> n_idx n = n_idx n1 -> n_hi n = n_hi n1 -> n_lo n = n_lo n1 ->
      repr (s_heap s) (n_lo n) tl -> repr (s_heap s) (n_hi n) th ->
      (if v =? n_idx n then high p else ret p) s1 = Ok (cp true p n) s1).
  { intros p n n1 tl th Hp Hi Hhi Hlo Htl Hth. unfold cp. rewrite Hi, Hhi.
    eapply high_cof; [exact HI1|exact Hp|rewrite <- Hlo|rewrite <- Hhi]; eapply repr_ext_s; eauto. }
  rewrite (bind_eq _ _ _ _ _ (Hhi f nf nf1 _ _ Hnf1 Hc3 Hc2 Hc1 Hlf Hhf)) in Hs.
  rewrite (bind_eq _ _ _ _ _ (Hhi g ng ng1 _ _ Hng1 Hd3 Hd2 Hd1 Hlg Hhg)) in Hs.
  apply bind_okc in Hs as ([r1 k1]&s2&Hr1&Hs).
  destruct (Hrec s1 _ _ _ _ HI1 He1 (repr_ext_s _ _ _ _ He1 (Hcf true)) (repr_ext_s _ _ _ _ He1 (Hcg true)) (Hht true) (Hof true) (Hog true) _ _ _ Hr1) as (_&_&Hk1).
  apply bind_okc in Hs as (u2&s3&_&Hs). apply bind_okc in Hs as (r2&s4&_&Hs). apply Hk in Hs. cbn [snd] in Hs. rewrite Hs.
  exact (cb_step _ _ _ _ _ _ _ _ _ _ Hvn Hk0 Hk1).
Qed.
Lemma counted_ok {A} (mc : M (A * N)) m s a k s' : counted mc m -> mc s = Ok (a, k) s' -> m s = Ok a s'.
Proof. intros H Hs. by rewrite (H s), Hs. Qed.
Lemma and_count_le md H fuel : md_ord md = true -> forall s f g tf tg lb r k s', Inv md H s -> repr (s_heap s) f tf -> repr (s_heap s) g tg ->
  ordt lb tf -> ordt lb tg -> (2 * (ht tf + ht tg) + swp f g < fuel)%nat -> and_count fuel f g s = Ok (r, k) s' -> cb (nr_variables s) lb f g k.
Proof.
  intros Ho. induction fuel as [|fuel IH]; intros s f g tf tg lb r k s' HI Hf Hg Hof Hog Hfu Hs; [lia|]. cbn [and_count] in Hs.
  destruct (N.eqb_spec f g) as [->|Hfg]; [injection Hs as <- <- <-; apply cb_1|].
  destruct (N.ltb_spec g f) as [Hlt|Hge].
  { apply bind_okc in Hs as ([r' k']&s1&Hr&Hs). injection Hs as <- <- <-. apply (cb_swap _ _ _ _ _ Hlt).
    apply (IH s g f tg tf lb r' k' s1); auto. destruct (swp_swap _ _ Hlt). lia. }
  destruct (N.eqb_spec f topsink) as [->|Hft]; [injection Hs as <- <- <-; apply cb_1|].
  destruct (N.eqb_spec f botsink) as [->|Hfb]; [injection Hs as <- <- <-; apply cb_1|].
  destruct (N.eqb_spec g topsink) as [->|Hgt]; [injection Hs as <- <- <-; apply cb_1|].
  destruct (N.eqb_spec g botsink) as [->|Hgb]; [injection Hs as <- <- <-; apply cb_1|].
  destruct (cache_lookup_spec HE md H s f g and_symb tf tg HI Hf Hg) as (m&Hm&_).
  rewrite (bind_eq _ _ _ _ _ Hm) in Hs.
  destruct (negb (m =? 0)). { apply bind_okc in Hs as (r'&s1&Hr&Hs). injection Hs as <- <- <-. apply cb_1. }
  assert (Hsf : ~ sink f) by (unfold sink; tauto). assert (Hsg : ~ sink g) by (unfold sink; tauto).
  destruct (repr_nonsink _ _ _ Hf Hsf) as (nf&lf&hf&Hnf&->&Hlf&Hhf).
  destruct (repr_nonsink _ _ _ Hg Hsg) as (ng&lg&hg&Hng&->&Hlg&Hhg).
  pose proof (i_heap _ _ _ HI) as Hh.
  destruct (ho_node _ _ _ Hh _ _ Hnf Hsf) as [Hvf _]. destruct (ho_node _ _ _ Hh _ _ Hng Hsg) as [Hvg _].
  rewrite (bind_eq _ _ _ _ _ (variable_eq _ _ _ Hnf)), (bind_eq _ _ _ _ _ (variable_eq _ _ _ Hng)) in Hs.
  destruct (lookup_lt_is_Some_2 (s_vars s) (N.to_nat (n_idx nf))) as [vf Hvf']; [lia|].
  destruct (lookup_lt_is_Some_2 (s_vars s) (N.to_nat (n_idx ng))) as [vg Hvg']; [lia|].
  rewrite (bind_eq _ _ _ _ _ (getV_eq _ _ _ Hvf')), (bind_eq _ _ _ _ _ (getV_eq _ _ _ Hvg')) in Hs.
  apply (cb_mono _ _ (if n_idx nf <? n_idx ng then n_idx nf else n_idx ng)).
  { destruct Hof as [? _], Hog as [? _]. by destruct (n_idx nf <? n_idx ng). }
  eapply (shc_le md H s (and_count fuel) _ f g nf ng lf hf lg hg
    (fun r r0 r1 => assert_ (negb (r =? 0)) ;;* cache_insert f g and_symb r ;;* ret (r, 1 + r0.2 + r1.2))); [..|exact Hs]; auto.
  - destruct (n_idx nf <? n_idx ng); auto.
  - destruct (N.ltb_spec (n_idx nf) (n_idx ng)); lia.
  - destruct (N.ltb_spec (n_idx nf) (n_idx ng)); lia.
  - intros s0 f' g' tf' tg' HI0 He0 Hf0 Hg0 Hlt Ho1 Ho2 r1 k1 s1 Hr1.
    assert (Hfu' : (2 * (ht tf' + ht tg') + swp f' g' < fuel)%nat) by (clear Hs; pose proof (swp_le f' g'); lia).
    pose proof (and_fuel_spec HE md H fuel s0 f' g' tf' tg' HI0 Hf0 Hg0 Hfu') as Hok. unfold sat in Hok.
    rewrite (counted_ok _ _ _ _ _ _ (C78_and_counted fuel f' g') Hr1) in Hok. destruct Hok as (HI1&He1&_).
    split_and!; [done|done|]. replace (nr_variables s) with (nr_variables s0) by (unfold nr_variables; by rewrite (inv_nv_ext _ _ He0)).
    by apply (IH s0 f' g' tf' tg' _ r1 k1 s1).
  - intros r1 a b s2 x s3 Hx. apply bind_okc in Hx as (?&?&_&Hx). apply bind_okc in Hx as (?&?&_&Hx). by injection Hx as <- <-.
Qed.
Lemma or_count_le md H fuel : md_ord md = true -> forall s f g tf tg lb r k s', Inv md H s -> repr (s_heap s) f tf -> repr (s_heap s) g tg ->
  ordt lb tf -> ordt lb tg -> (2 * (ht tf + ht tg) + swp f g < fuel)%nat -> or_count fuel f g s = Ok (r, k) s' -> cb (nr_variables s) lb f g k.
Proof.
  intros Ho. assert (Hor : md_or md = true) by (by destruct md).
  induction fuel as [|fuel IH]; intros s f g tf tg lb r k s' HI Hf Hg Hof Hog Hfu Hs; [lia|]. cbn [or_count] in Hs.
  destruct (N.eqb_spec f g) as [->|Hfg]; [injection Hs as <- <- <-; apply cb_1|].
  destruct (N.ltb_spec g f) as [Hlt|Hge].
  { apply bind_okc in Hs as ([r' k']&s1&Hr&Hs). injection Hs as <- <- <-. apply (cb_swap _ _ _ _ _ Hlt).
    apply (IH s g f tg tf lb r' k' s1); auto. destruct (swp_swap _ _ Hlt). lia. }
  destruct (N.eqb_spec f topsink) as [->|Hft]; [injection Hs as <- <- <-; apply cb_1|].
  destruct (N.eqb_spec f botsink) as [->|Hfb]; [injection Hs as <- <- <-; apply cb_1|].
  destruct (N.eqb_spec g topsink) as [->|Hgt]; [injection Hs as <- <- <-; apply cb_1|].
  destruct (N.eqb_spec g botsink) as [->|Hgb]; [injection Hs as <- <- <-; apply cb_1|].
  destruct (cache_lookup_spec HE md H s f g or_symb tf tg HI Hf Hg) as (m&Hm&_).
  rewrite (bind_eq _ _ _ _ _ Hm) in Hs.
  destruct (negb (m =? 0)). { apply bind_okc in Hs as (r'&s1&Hr&Hs). injection Hs as <- <- <-. apply cb_1. }
  assert (Hsf : ~ sink f) by (unfold sink; tauto). assert (Hsg : ~ sink g) by (unfold sink; tauto).
  destruct (repr_nonsink _ _ _ Hf Hsf) as (nf&lf&hf&Hnf&->&Hlf&Hhf).
  destruct (repr_nonsink _ _ _ Hg Hsg) as (ng&lg&hg&Hng&->&Hlg&Hhg).
  pose proof (i_heap _ _ _ HI) as Hh.
  destruct (ho_node _ _ _ Hh _ _ Hnf Hsf) as [Hvf _]. destruct (ho_node _ _ _ Hh _ _ Hng Hsg) as [Hvg _].
  rewrite (bind_eq _ _ _ _ _ (variable_eq _ _ _ Hnf)), (bind_eq _ _ _ _ _ (variable_eq _ _ _ Hng)) in Hs.
  destruct (lookup_lt_is_Some_2 (s_vars s) (N.to_nat (n_idx nf))) as [vf Hvf']; [lia|].
  destruct (lookup_lt_is_Some_2 (s_vars s) (N.to_nat (n_idx ng))) as [vg Hvg']; [lia|].
  rewrite (bind_eq _ _ _ _ _ (getV_eq _ _ _ Hvf')), (bind_eq _ _ _ _ _ (getV_eq _ _ _ Hvg')) in Hs.
  apply (cb_mono _ _ (if n_idx nf <? n_idx ng then n_idx nf else n_idx ng)).
  { destruct Hof as [? _], Hog as [? _]. by destruct (n_idx nf <? n_idx ng). }
  eapply (shc_le md H s (or_count fuel) _ f g nf ng lf hf lg hg
    (fun r r0 r1 => (if negb (r =? 0) then cache_insert f g or_symb r else ret tt) ;;* ret (r, 1 + r0.2 + r1.2))); [..|exact Hs]; auto.
  - destruct (n_idx nf <? n_idx ng); auto.
  - destruct (N.ltb_spec (n_idx nf) (n_idx ng)); lia.
  - destruct (N.ltb_spec (n_idx nf) (n_idx ng)); lia.
  - intros s0 f' g' tf' tg' HI0 He0 Hf0 Hg0 Hlt Ho1 Ho2 r1 k1 s1 Hr1.
    assert (Hfu' : (2 * (ht tf' + ht tg') + swp f' g' < fuel)%nat) by (clear Hs; pose proof (swp_le f' g'); lia).
    pose proof (or_fuel_spec HE md H fuel Hor s0 f' g' tf' tg' HI0 Hf0 Hg0 Hfu') as Hok. unfold sat in Hok.
    rewrite (counted_ok _ _ _ _ _ _ (C78_or_counted fuel f' g') Hr1) in Hok. destruct Hok as (HI1&He1&_).
    split_and!; [done|done|]. replace (nr_variables s) with (nr_variables s0) by (unfold nr_variables; by rewrite (inv_nv_ext _ _ He0)).
    by apply (IH s0 f' g' tf' tg' _ r1 k1 s1).
  - intros r1 a b s2 x s3 Hx. apply bind_okc in Hx as (?&?&_&Hx). by injection Hx as <- <-.
Qed.
Lemma cb_lt nv f g k : cb nv 0 f g k -> k < 2 ^ (nv + 2).
Proof. unfold cb. rewrite N.sub_0_r, N.pow_add_r. pose proof (swp_le f g). change (2 ^ 2) with 4. lia. Qed.
Theorem C78_and_bound md w i j k r s' : md_ord md = true -> reach md w -> live w i -> live w j -> and_rec_calls w i j k r s' ->
  k < 2 ^ (nr_variables (w_s w) + 2).
Proof.
  intros Ho HR Hi Hj (p&q&Hp&Hq&Hk). pose proof (reach_inv HE _ _ HR) as HW. pose proof (i_heap _ _ _ HW) as Hh.
  destruct (live_hrep _ _ _ HW Hi) as (p'&t&Hr1). destruct (live_hrep _ _ _ HW Hj) as (q'&u&Hr2).
  assert (p' = p) as -> by (destruct Hr1; congruence). assert (q' = q) as -> by (destruct Hr2; congruence).
  destruct Hr1 as (_&_&Hr). destruct Hr2 as (_&_&Hru). apply (cb_lt _ p q).
  unfold with_fuel in Hk. eapply (and_count_le md _ _ Ho _ p q t u 0 r k s' HW Hr Hru); [exact (ho_ord _ _ _ Hh Ho _ _ Hr)|exact (ho_ord _ _ _ Hh Ho _ _ Hru)| |exact Hk].
  pose proof (fuel_ht _ _ _ Hr). pose proof (fuel_ht _ _ _ Hru). pose proof (swp_le p q). lia.
Qed.
Theorem C78_or_bound md w i j k r s' : md_ord md = true -> reach md w -> live w i -> live w j -> or_rec_calls w i j k r s' ->
  k < 2 ^ (nr_variables (w_s w) + 2).
Proof.
  intros Ho HR Hi Hj (p&q&Hp&Hq&Hk). pose proof (reach_inv HE _ _ HR) as HW. pose proof (i_heap _ _ _ HW) as Hh.
  destruct (live_hrep _ _ _ HW Hi) as (p'&t&Hr1). destruct (live_hrep _ _ _ HW Hj) as (q'&u&Hr2).
  assert (p' = p) as -> by (destruct Hr1; congruence). assert (q' = q) as -> by (destruct Hr2; congruence).
  destruct Hr1 as (_&_&Hr). destruct Hr2 as (_&_&Hru). apply (cb_lt _ p q).
  unfold with_fuel in Hk. eapply (or_count_le md _ _ Ho _ p q t u 0 r k s' HW Hr Hru); [exact (ho_ord _ _ _ Hh Ho _ _ Hr)|exact (ho_ord _ _ _ Hh Ho _ _ Hru)| |exact Hk].
  pose proof (fuel_ht _ _ _ Hr). pose proof (fuel_ht _ _ _ Hru). pose proof (swp_le p q). lia.
Qed.
(** ite_rec: each activation makes at most two more, and they are at most one deeper than the number of variables *)
Lemma ite_count_le n : forall f g h s r k s', ite_count n f g h s = Ok (r, k) s' -> k + 1 <= 2 ^ N.of_nat n.
Proof.
  induction n as [|n IH]; intros f g h s r k s' Hs; [done|]. cbn [ite_count] in Hs. cbv zeta in Hs.
  rewrite Nat2N.inj_succ, N.pow_succ_r'. pose proof (N.pow_nonzero 2 (N.of_nat n) ltac:(done)) as Hnz.
  repeat match type of Hs with
  | bind (ite_count n _ _ _) _ _ = _ => let H1 := fresh "Hr" in apply bind_okc in Hs as ([? ?]&?&H1&Hs); apply IH in H1
  | bind _ _ _ = _ => apply bind_okc in Hs as (?&?&_&Hs)
  | (if ?b then _ else _) _ = _ => destruct b
  | ret _ _ = _ => injection Hs as <- <- <-
  end; cbn [snd]; lia.
Qed.
Lemma ite_count_lef : forall n m, (n <= m)%nat -> forall f g h, lef (ite_count n f g h) (ite_count m f g h).
Proof.
  intros n; induction n as [|n IH]; intros [|m] Hle f g h; first [apply lef_loop|lia|idtac]. cbn [ite_count]. cbv zeta.
  repeat lazymatch goal with
  | |- lef (bind _ _) (bind _ _) => apply lef_bind; [|intros ?]
  | |- lef ?m ?m => apply lef_refl
  | |- lef (match ?x with _ => _ end) _ => destruct x
  | H : (forall m, _ -> forall f g h : ptr, lef _ _) |- lef _ _ => apply H; lia
  end.
Qed.
Theorem C78_ite_bound md w i j l k r s' : md_ord md = true -> reach md w -> live w i -> live w j -> live w l -> ite_rec_calls w i j l k r s' ->
  k < 2 ^ (nr_variables (w_s w) + 1).
Proof.
  intros Ho HR (p&Hp&H0) (q&Hq&H1) (o&Hol&H2) (p'&q'&o'&Hp'&Hq'&Ho'&Hk).
  assert (p' = p) as -> by congruence. assert (q' = q) as -> by congruence. assert (o' = o) as -> by congruence.
  unfold with_fuel in Hk. pose proof (C74_ite HE md w i j l p q o Ho HR Hp H0 Hq H1 Hol H2) as Hd.
  pose proof (counted_ok _ _ _ _ _ _ (C78_ite_counted _ p q o) Hk) as Hf. unfold ite_rec, with_fuel in Hd. rewrite Hf in Hd.
  set (D := (N.to_nat (nr_variables (w_s w)) + 1)%nat) in *.
  assert (Hc : exists k', ite_count D p q o (w_s w) = Ok (r, k') s').
  { rewrite (C78_ite_counted D p q o (w_s w)) in Hd. destruct (ite_count D p q o (w_s w)) as [[a k'] s1|]; [|done]. injection Hd as -> ->. by exists k'. }
  destruct Hc as (k'&Hc).
  assert (k' = k) as ->.
  { destruct (Nat.le_ge_cases D (fuel_of (w_s w))) as [Hle|Hle].
    - destruct (ite_count_lef _ _ Hle p q o (w_s w)) as [[s1 Hx]|Hx]; congruence.
    - destruct (ite_count_lef _ _ Hle p q o (w_s w)) as [[s1 Hx]|Hx]; congruence. }
  apply ite_count_le in Hc. replace (nr_variables (w_s w) + 1) with (N.of_nat D) by (unfold D; lia). lia.
Qed.

(** ** Repeating a call *)
(** the memo cache answers [r] for the operands and the tag [hh] *)
Definition hit (s : mstate) (f g hh r : ptr) : Prop := r <> 0 /\ exists x n, cache_hash (s_heap s) f g hh = inr x /\
  memo_slot (s_memo s) x = inr n /\ memo_get (s_memo s) n = Memo f g hh r.
Lemma hit_lookup md H s f g hh r : Inv md H s -> hit s f g hh r -> r ∈ dom (s_heap s) -> cache_lookup f g hh s = Ok r s.
Proof.
  intros HI (Hr0&x&n&Hx&Hn&Hm) Hd. unfold cache_lookup, bind, get, liftR. rewrite Hx, Hn, Hm. cbn [m_r m_f m_g m_h].
  apply N.eqb_neq in Hr0 as ->. rewrite !N.eqb_refl. cbn [andb]. apply elem_of_dom in Hd as [nr Hnr].
  rewrite (getN_eq _ _ _ Hnr). pose proof (inv_xref_nonneg _ _ _ _ _ HI Hnr) as Hx0.
  assert ((n_xref nr <? 0)%Z = false) as -> by (apply Z.ltb_ge; lia). done.
Qed.
Lemma lookup_hit md H s f g hh r s' : Inv md H s -> cache_lookup f g hh s = Ok r s' -> r <> 0 -> hit s f g hh r.
Proof.
  intros HI Hs Hr. unfold cache_lookup, bind, get, liftR in Hs.
  destruct (cache_hash (s_heap s) f g hh) as [|x] eqn:Hx; [done|]. destruct (memo_slot (s_memo s) x) as [|n] eqn:Hn; [done|].
  destruct (N.eqb_spec (m_r (memo_get (s_memo s) n)) 0) as [|H0]; [by injection Hs as <- <-|].
  destruct ((m_f _ =? f) && (m_g _ =? g) && (m_h _ =? hh)) eqn:Heq; [|by injection Hs as <- <-].
  rewrite !andb_true_iff, !N.eqb_eq in Heq. destruct Heq as [[Hf Hg] Hh].
  destruct (getN (m_r (memo_get (s_memo s) n)) s) as [nr s1|] eqn:Hg1; [|done].
  assert (Hd : s_heap s !! m_r (memo_get (s_memo s) n) = Some nr /\ s1 = s).
  { unfold getN, bind, get in Hg1. destruct (s_heap s !! _) as [n1|] eqn:Hl; [|done]. by injection Hg1 as <- <-. }
  destruct Hd as [Hd ->]. pose proof (inv_xref_nonneg _ _ _ _ _ HI Hd) as Hx0.
  assert ((n_xref nr <? 0)%Z = false) as Hz by (apply Z.ltb_ge; lia). rewrite Hz in Hs. injection Hs as <- <-.
  split; [done|]. exists x, n. split_and!; auto. destruct (memo_get (s_memo s) n) as [a b c d]. cbn in *. by subst.
Qed.
Lemma insert_hit f g hh r s u s' : cache_insert f g hh r s = Ok u s' -> r <> 0 -> hit s' f g hh r /\ s_heap s' = s_heap s.
Proof.
  intros Hs Hr. unfold cache_insert, bind, get, liftR in Hs. destruct (cache_hash (s_heap s) f g hh) as [|x] eqn:Hx; [done|].
  destruct (if _ <=? _ then _ else _) as [|mc]; [done|]. destruct (memo_slot mc x) as [|n] eqn:Hn; [done|].
  unfold set_memo in Hs. injection Hs as _ <-. split; [|done]. split; [done|]. exists x, n. split_and!; [done| |].
  - unfold memo_slot in *. cbn. by rewrite insert_length.
  - unfold memo_get. cbn. assert (Hlt : (N.to_nat n < length (mc_tab mc))%nat).
    { unfold memo_slot in Hn. destruct (assertR _); [done|]. cbn in Hn. destruct (assertR _); [done|]. cbn in Hn.
      destruct (N.ltb_spec (N.land x (mc_mask mc)) (N.of_nat (length (mc_tab mc)))); [|done]. injection Hn as <-. lia. }
    apply nth_lookup_Some. by apply list_lookup_insert.
Qed.
(** two states with the same cache and the same node hashes *)
Definition samek (s s' : mstate) : Prop := s_memo s' = s_memo s /\ forall p n, s_heap s !! p = Some n -> exists n', s_heap s' !! p = Some n' /\ n_key n' = n_key n.
Lemma hit_samek s s' f g hh r : samek s s' -> hit s f g hh r -> hit s' f g hh r.
Proof.
  intros [Hm Hk] (Hr&x&n&Hx&Hn&Hg). split; [done|]. exists x, n. rewrite Hm. split_and!; auto.
  revert Hx. unfold cache_hash, derefR. destruct (s_heap s !! f) as [nf|] eqn:Hf; [|done]. destruct (Hk _ _ Hf) as (nf'&->&Hkf). cbn.
  destruct (assertR _); [done|]. cbn. destruct (s_heap s !! g) as [ng|] eqn:Hg1; [|done]. destruct (Hk _ _ Hg1) as (ng'&->&Hkg). cbn. by rewrite Hkf, Hkg.
Qed.
Lemma acquire_samek p s u s' : ref_acquire p s = Ok u s' -> samek s s'.
Proof.
  unfold ref_acquire. destruct (p =? 0); [intros [= _ <-]; split; [done|eauto]|]. intros Hs.
  destruct (s_heap s !! p) as [n|] eqn:Hn; [|unfold xref_inc, modN, bind, getN, get in Hs; by rewrite Hn in Hs].
  rewrite (xref_inc_eq _ _ _ Hn) in Hs. injection Hs as _ <-. split; [done|]. intros q m Hq. cbn. unfold inc.
  destruct (decide (p = q)) as [->|Hne]; [|exists m; by rewrite lookup_alter_ne].
  rewrite lookup_alter, Hq. by eexists.
Qed.
(** and_rec(f, g) is answered with [r] by its first lines or by the cache *)
Definition and_known (s : mstate) (f g r : ptr) : Prop :=
  (f = g /\ r = f) \/ (f <> g /\ f = topsink /\ r = g) \/ (f <> g /\ f = botsink /\ r = botsink) \/
  (f <> g /\ ~ sink f /\ g = topsink /\ r = f) \/ (f <> g /\ ~ sink f /\ g = botsink /\ r = botsink) \/
  (f <> g /\ ~ sink f /\ ~ sink g /\ hit s f g and_symb r).
Lemma and_known_intro md H n s f g r s' tf tg : Inv md H s -> repr (s_heap s) f tf -> repr (s_heap s) g tg -> (2 * (ht tf + ht tg) + swp f g < S n)%nat -> f <= g ->
  and_fuel (S n) f g s = Ok r s' -> and_known s' f g r.
Proof.
  intros HI Hf Hg Hfu Hle Hs. pose proof (and_fuel_spec HE md H (S n) s f g tf tg HI Hf Hg Hfu) as Hok. unfold sat in Hok. rewrite Hs in Hok.
  destruct Hok as (HI'&_&tr&Htr&_). pose proof (inv_repr_addr HE _ _ _ _ _ HI' Htr) as Hr0.
  cbn [and_fuel] in Hs. unfold and_known. destruct (N.eqb_spec f g) as [->|Hfg]; [injection Hs as <- <-; by left|]. right.
  destruct (N.ltb_spec g f); [lia|].
  destruct (N.eqb_spec f topsink) as [->|Hft]; [injection Hs as <- <-; by left|]. right.
  destruct (N.eqb_spec f botsink) as [->|Hfb]; [injection Hs as <- <-; by left|]. right.
  assert (Hsf : ~ sink f) by (unfold sink; tauto).
  destruct (N.eqb_spec g topsink) as [->|Hgt]; [injection Hs as <- <-; by left|]. right.
  destruct (N.eqb_spec g botsink) as [->|Hgb]; [injection Hs as <- <-; by left|]. right.
  assert (Hsg : ~ sink g) by (unfold sink; tauto). split_and!; [done..|].
  destruct (cache_lookup_spec HE md H s f g and_symb tf tg HI Hf Hg) as (m&Hm&_). rewrite (bind_eq _ _ _ _ _ Hm) in Hs.
  destruct (N.eqb_spec m 0) as [Hm0|Hm0]; cbn [negb] in Hs.
  - repeat match type of Hs with bind _ _ _ = _ => let H1 := fresh "Hb" in apply bind_okc in Hs as (?&?&H1&Hs) end.
    injection Hs as <- <-. match goal with H1 : cache_insert _ _ _ _ _ = _ |- _ => apply insert_hit in H1; [by destruct H1|lia] end.
  - pose proof (lookup_hit _ _ _ _ _ _ _ _ HI Hm Hm0) as Hh. unfold touch in Hs. apply N.eqb_neq in Hm0. rewrite Hm0 in Hs.
    apply bind_okc in Hs as (nr&s1&Hn&Hs). injection Hs as <- <-. unfold getN, bind, get in Hn. destruct (s_heap s !! m); [|done]. by injection Hn as _ <-.
Qed.
Lemma and_known_count md H n s f g r : Inv md H s -> f <= g -> r ∈ dom (s_heap s) -> and_known s f g r -> and_count (S n) f g s = Ok (r, 1) s.
Proof.
  intros HI Hle Hd Hk. cbn [and_count]. destruct Hk as [[-> ->]|Hk]; [by rewrite N.eqb_refl|].
  assert (Hne : f <> g) by (destruct Hk as [Hk|[Hk|[Hk|[Hk|Hk]]]]; apply Hk). apply N.eqb_neq in Hne as Hne'. rewrite Hne'.
  destruct (N.ltb_spec g f); [lia|].
  assert (Hbt : botsink =? topsink = false) by (apply N.eqb_neq, bot_ne_top).
  destruct Hk as [(_&->&->)|[(_&->&->)|Hk]]; [by rewrite N.eqb_refl|by rewrite Hbt, N.eqb_refl|].
  assert (Hs : ~ sink f) by (destruct Hk as [Hk|[Hk|Hk]]; apply Hk).
  destruct (N.eqb_spec f topsink) as [->|_]; [destruct Hs; unfold sink; auto|]. destruct (N.eqb_spec f botsink) as [->|_]; [destruct Hs; unfold sink; auto|].
  destruct Hk as [(_&_&->&->)|[(_&_&->&->)|(_&_&Hsg&Hh)]]; [by rewrite N.eqb_refl|by rewrite Hbt, N.eqb_refl|].
  destruct (N.eqb_spec g topsink) as [->|_]; [destruct Hsg; unfold sink; auto|]. destruct (N.eqb_spec g botsink) as [->|_]; [destruct Hsg; unfold sink; auto|].
  rewrite (bind_eq _ _ _ _ _ (hit_lookup _ _ _ _ _ _ _ HI Hh Hd)). destruct Hh as [Hr0 _]. apply N.eqb_neq in Hr0 as Hr1. rewrite Hr1. cbn [negb].
  apply elem_of_dom in Hd as [nr Hnr]. unfold touch. rewrite Hr1. unfold bind. by rewrite (getN_eq _ _ _ Hnr).
Qed.

(** or_rec(f, g) is answered with [r] by its first lines or by the cache *)
Definition or_known (s : mstate) (f g r : ptr) : Prop :=
  (f = g /\ r = f) \/ (f <> g /\ f = topsink /\ r = topsink) \/ (f <> g /\ f = botsink /\ r = g) \/
  (f <> g /\ ~ sink f /\ g = topsink /\ r = topsink) \/ (f <> g /\ ~ sink f /\ g = botsink /\ r = f) \/
  (f <> g /\ ~ sink f /\ ~ sink g /\ hit s f g or_symb r).
Lemma or_known_intro md H n s f g r s' tf tg : md_or md = true -> Inv md H s -> repr (s_heap s) f tf -> repr (s_heap s) g tg -> (2 * (ht tf + ht tg) + swp f g < S n)%nat -> f <= g ->
  or_fuel (S n) f g s = Ok r s' -> or_known s' f g r.
Proof.
  intros Hor HI Hf Hg Hfu Hle Hs. pose proof (or_fuel_spec HE md H (S n) Hor s f g tf tg HI Hf Hg Hfu) as Hok. unfold sat in Hok. rewrite Hs in Hok.
  destruct Hok as (HI'&_&tr&Htr&_). pose proof (inv_repr_addr HE _ _ _ _ _ HI' Htr) as Hr0.
  cbn [or_fuel] in Hs. unfold or_known. destruct (N.eqb_spec f g) as [->|Hfg]; [injection Hs as <- <-; by left|]. right.
  destruct (N.ltb_spec g f); [lia|].
  destruct (N.eqb_spec f topsink) as [->|Hft]; [injection Hs as <- <-; by left|]. right.
  destruct (N.eqb_spec f botsink) as [->|Hfb]; [injection Hs as <- <-; by left|]. right.
  assert (Hsf : ~ sink f) by (unfold sink; tauto).
  destruct (N.eqb_spec g topsink) as [->|Hgt]; [injection Hs as <- <-; by left|]. right.
  destruct (N.eqb_spec g botsink) as [->|Hgb]; [injection Hs as <- <-; by left|]. right.
  assert (Hsg : ~ sink g) by (unfold sink; tauto). split_and!; [done..|].
  destruct (cache_lookup_spec HE md H s f g or_symb tf tg HI Hf Hg) as (m&Hm&_). rewrite (bind_eq _ _ _ _ _ Hm) in Hs.
  destruct (N.eqb_spec m 0) as [Hm0|Hm0]; cbn [negb] in Hs.
  - repeat match type of Hs with bind _ _ _ = _ => let H1 := fresh "Hb" in apply bind_okc in Hs as (?&?&H1&Hs) end.
    injection Hs as <- <-. match goal with H1 : (if negb (?x =? 0) then _ else _) _ = _ |- _ => destruct (N.eqb_spec x 0); [lia|]; cbn [negb] in H1; apply insert_hit in H1; [by destruct H1|lia] end.
  - pose proof (lookup_hit _ _ _ _ _ _ _ _ HI Hm Hm0) as Hh. unfold touch in Hs. apply N.eqb_neq in Hm0. rewrite Hm0 in Hs.
    apply bind_okc in Hs as (nr&s1&Hn&Hs). injection Hs as <- <-. unfold getN, bind, get in Hn. destruct (s_heap s !! m); [|done]. by injection Hn as _ <-.
Qed.
Lemma or_known_count md H n s f g r : Inv md H s -> f <= g -> r ∈ dom (s_heap s) -> or_known s f g r -> or_count (S n) f g s = Ok (r, 1) s.
Proof.
  intros HI Hle Hd Hk. cbn [or_count]. destruct Hk as [[-> ->]|Hk]; [by rewrite N.eqb_refl|].
  assert (Hne : f <> g) by (destruct Hk as [Hk|[Hk|[Hk|[Hk|Hk]]]]; apply Hk). apply N.eqb_neq in Hne as Hne'. rewrite Hne'.
  destruct (N.ltb_spec g f); [lia|].
  assert (Hbt : botsink =? topsink = false) by (apply N.eqb_neq, bot_ne_top).
  destruct Hk as [(_&->&->)|[(_&->&->)|Hk]]; [by rewrite N.eqb_refl|by rewrite Hbt, N.eqb_refl|].
  assert (Hs : ~ sink f) by (destruct Hk as [Hk|[Hk|Hk]]; apply Hk).
  destruct (N.eqb_spec f topsink) as [->|_]; [destruct Hs; unfold sink; auto|]. destruct (N.eqb_spec f botsink) as [->|_]; [destruct Hs; unfold sink; auto|].
  destruct Hk as [(_&_&->&->)|[(_&_&->&->)|(_&_&Hsg&Hh)]]; [by rewrite N.eqb_refl|by rewrite Hbt, N.eqb_refl|].
  destruct (N.eqb_spec g topsink) as [->|_]; [destruct Hsg; unfold sink; auto|]. destruct (N.eqb_spec g botsink) as [->|_]; [destruct Hsg; unfold sink; auto|].
  rewrite (bind_eq _ _ _ _ _ (hit_lookup _ _ _ _ _ _ _ HI Hh Hd)). destruct Hh as [Hr0 _]. apply N.eqb_neq in Hr0 as Hr1. rewrite Hr1. cbn [negb].
  apply elem_of_dom in Hd as [nr Hnr]. unfold touch. rewrite Hr1. unfold bind. by rewrite (getN_eq _ _ _ Hnr).
Qed.

Lemma newh_inv w m out w' : newh w m = WOk out w' -> exists r s1, m (w_s w) = Ok r s1 /\ out = OutP r /\ samek s1 (w_s w') /\ w_h w' = w_h w ++ [Some r].
Proof.
  unfold newh. destruct (m (w_s w)) as [r s1|]; [|done]. destruct (ref_acquire r s1) as [u s2|] eqn:Ha; [|done].
  intros [= <- <-]. exists r, s1. split_and!; auto. by eapply acquire_samek.
Qed.
Lemma hnd_old w w' r i p : w_h w' = w_h w ++ [Some r] -> hnd w i = Some p -> hnd w' i = Some p.
Proof.
  unfold hnd. intros ->. destruct (w_h w !! i) as [o|] eqn:Hi; [|done]. by rewrite (lookup_app_l_Some _ _ _ _ Hi).
Qed.
Lemma and_known_samek s s' f g r : samek s s' -> and_known s f g r -> and_known s' f g r.
Proof. unfold and_known. intros Hs [Hk|[Hk|[Hk|[Hk|[Hk|(?&?&?&?)]]]]]; [tauto..|]. do 5 right. split_and!; auto. by eapply hit_samek. Qed.
Lemma or_known_samek s s' f g r : samek s s' -> or_known s f g r -> or_known s' f g r.
Proof. unfold or_known. intros Hs [Hk|[Hk|[Hk|[Hk|[Hk|(?&?&?&?)]]]]]; [tauto..|]. do 5 right. split_and!; auto. by eapply hit_samek. Qed.
Lemma and_swap_fuel n f g s : g < f -> and_fuel (S n) f g s = and_fuel n g f s.
Proof. intros H. cbn [and_fuel]. destruct (N.eqb_spec f g); [lia|]. by destruct (N.ltb_spec g f); [|lia]. Qed.
Lemma or_swap_fuel n f g s : g < f -> or_fuel (S n) f g s = or_fuel n g f s.
Proof. intros H. cbn [or_fuel]. destruct (N.eqb_spec f g); [lia|]. by destruct (N.ltb_spec g f); [|lia]. Qed.
Lemma and_swap_count n f g s r : g < f -> and_count n g f s = Ok (r, 1) s -> and_count (S n) f g s = Ok (r, 2) s.
Proof. intros H Hc. cbn [and_count]. destruct (N.eqb_spec f g); [lia|]. destruct (N.ltb_spec g f); [|lia]. by rewrite (bind_eq _ _ _ _ _ Hc). Qed.
Lemma or_swap_count n f g s r : g < f -> or_count n g f s = Ok (r, 1) s -> or_count (S n) f g s = Ok (r, 2) s.
Proof. intros H Hc. cbn [or_count]. destruct (N.eqb_spec f g); [lia|]. destruct (N.ltb_spec g f); [|lia]. by rewrite (bind_eq _ _ _ _ _ Hc). Qed.
Lemma fuel_SS s : exists n, fuel_of s = S (S n).
Proof. unfold fuel_of. exists (6 * size (s_heap s) + 10)%nat. lia. Qed.
(** a conjunction that has just been computed is found again with one activation (two if the operands have
    to be exchanged), whichever way round it is asked for, and finding it changes nothing *)
Theorem C78_and_repeat md w i j out w' : reach md w -> allowed md w (OAnd i j) -> step (OAnd i j) w = WOk out w' ->
  exists r k k', out = OutP r /\ k <= 2 /\ k' <= 2 /\ and_rec_calls w' i j k r (w_s w') /\ and_rec_calls w' j i k' r (w_s w').
Proof.
  intros HR Ha Hs. pose proof (reach_inv HE _ _ HR) as HW. pose proof (reach_inv HE _ _ (reach_step _ _ _ _ _ HR Ha Hs)) as HW'.
  destruct Ha as [Hi Hj]. destruct (live_hrep _ _ _ HW Hi) as (p&t&Hr1). destruct (live_hrep _ _ _ HW Hj) as (q&u&Hr2).
  cbn [step] in Hs. rewrite (with2_hrep _ _ _ _ _ _ _ _ Hr1 Hr2) in Hs. destruct (newh_inv _ _ _ _ Hs) as (r&s1&Hm&->&Hk&Hh).
  destruct Hr1 as (Hp&Hp0&Hr1). destruct Hr2 as (Hq&Hq0&Hr2).
  assert (Hd : r ∈ dom (s_heap (w_s w'))).
  { assert (Hn : hnd w' (length (w_h w)) = Some r) by (unfold hnd; by rewrite Hh, list_lookup_middle).
    pose proof (and_spec HE _ _ _ _ _ _ _ HW Hr1 Hr2) as Hok. unfold sat in Hok. rewrite Hm in Hok. destruct Hok as (HI1&_&tr&Htr&_).
    destruct (repr_in _ _ _ _ _ (i_heap _ _ _ HI1) Htr) as [n Hn1]. destruct (proj2 Hk _ _ Hn1) as (n'&Hn'&_). by eapply elem_of_dom_2. }
  unfold and_rec, with_fuel in Hm. destruct (fuel_SS (w_s w)) as [n Hn]. pose proof (fuel_ht _ _ _ Hr1) as Hf1. pose proof (fuel_ht _ _ _ Hr2) as Hf2. rewrite Hn in *.
  exists r. unfold and_rec_calls, with_fuel. destruct (fuel_SS (w_s w')) as [n' ->].
  pose proof (hnd_old _ _ _ _ _ Hh Hp) as Hp'. pose proof (hnd_old _ _ _ _ _ Hh Hq) as Hq'.
  destruct (N.lt_total p q) as [Hlt|[->|Hlt]].
  - pose proof (swp_le p q) as Hsw.
    assert (Hkn : and_known (w_s w') p q r) by (eapply and_known_samek; [exact Hk|]; eapply (and_known_intro md _ (S n) (w_s w) p q r s1 t u HW Hr1 Hr2); [lia|lia|exact Hm]).
    exists 1, 2. split_and!; [done|lia|lia| |].
    + exists p, q. split_and!; [done|done|]. eapply and_known_count; eauto. lia.
    + exists q, p. split_and!; [done|done|]. apply and_swap_count; [done|]. eapply and_known_count; eauto. lia.
  - cbn [and_fuel] in Hm. rewrite N.eqb_refl in Hm. injection Hm as <- <-.
    exists 1, 1. split_and!; [done|lia|lia| |]; exists q, q; (split_and!; [done|done|]); cbn [and_count]; by rewrite N.eqb_refl.
  - rewrite (and_swap_fuel _ _ _ _ Hlt) in Hm. pose proof (swp_le q p) as Hsw.
    assert (Hkn : and_known (w_s w') q p r) by (eapply and_known_samek; [exact Hk|]; eapply (and_known_intro md _ n (w_s w) q p r s1 u t HW Hr2 Hr1); [lia|lia|exact Hm]).
    exists 2, 1. split_and!; [done|lia|lia| |].
    + exists p, q. split_and!; [done|done|]. apply and_swap_count; [done|]. eapply and_known_count; eauto. lia.
    + exists q, p. split_and!; [done|done|]. eapply and_known_count; eauto. lia.
Qed.
(** a disjunction that has just been computed is found again with one activation (two if the operands have
    to be exchanged), whichever way round it is asked for, and finding it changes nothing *)
Theorem C78_or_repeat md w i j out w' : reach md w -> allowed md w (OOr i j) -> step (OOr i j) w = WOk out w' ->
  exists r k k', out = OutP r /\ k <= 2 /\ k' <= 2 /\ or_rec_calls w' i j k r (w_s w') /\ or_rec_calls w' j i k' r (w_s w').
Proof.
  intros HR Ha Hs. pose proof (reach_inv HE _ _ HR) as HW. pose proof (reach_inv HE _ _ (reach_step _ _ _ _ _ HR Ha Hs)) as HW'.
  destruct Ha as (Hi&Hj&Hor). destruct (live_hrep _ _ _ HW Hi) as (p&t&Hr1). destruct (live_hrep _ _ _ HW Hj) as (q&u&Hr2).
  cbn [step] in Hs. rewrite (with2_hrep _ _ _ _ _ _ _ _ Hr1 Hr2) in Hs. destruct (newh_inv _ _ _ _ Hs) as (r&s1&Hm&->&Hk&Hh).
  destruct Hr1 as (Hp&Hp0&Hr1). destruct Hr2 as (Hq&Hq0&Hr2).
  assert (Hd : r ∈ dom (s_heap (w_s w'))).
  { assert (Hn : hnd w' (length (w_h w)) = Some r) by (unfold hnd; by rewrite Hh, list_lookup_middle).
    pose proof (or_spec HE md _ _ _ _ _ _ Hor HW Hr1 Hr2) as Hok. unfold sat in Hok. rewrite Hm in Hok. destruct Hok as (HI1&_&tr&Htr&_).
    destruct (repr_in _ _ _ _ _ (i_heap _ _ _ HI1) Htr) as [n Hn1]. destruct (proj2 Hk _ _ Hn1) as (n'&Hn'&_). by eapply elem_of_dom_2. }
  unfold or_rec, with_fuel in Hm. destruct (fuel_SS (w_s w)) as [n Hn]. pose proof (fuel_ht _ _ _ Hr1) as Hf1. pose proof (fuel_ht _ _ _ Hr2) as Hf2. rewrite Hn in *.
  exists r. unfold or_rec_calls, with_fuel. destruct (fuel_SS (w_s w')) as [n' ->].
  pose proof (hnd_old _ _ _ _ _ Hh Hp) as Hp'. pose proof (hnd_old _ _ _ _ _ Hh Hq) as Hq'.
  destruct (N.lt_total p q) as [Hlt|[->|Hlt]].
  - pose proof (swp_le p q) as Hsw.
    assert (Hkn : or_known (w_s w') p q r) by (eapply or_known_samek; [exact Hk|]; eapply (or_known_intro md _ (S n) (w_s w) p q r s1 t u Hor HW Hr1 Hr2); [lia|lia|exact Hm]).
    exists 1, 2. split_and!; [done|lia|lia| |].
    + exists p, q. split_and!; [done|done|]. eapply or_known_count; eauto. lia.
    + exists q, p. split_and!; [done|done|]. apply or_swap_count; [done|]. eapply or_known_count; eauto. lia.
  - cbn [or_fuel] in Hm. rewrite N.eqb_refl in Hm. injection Hm as <- <-.
    exists 1, 1. split_and!; [done|lia|lia| |]; exists q, q; (split_and!; [done|done|]); cbn [or_count]; by rewrite N.eqb_refl.
  - rewrite (or_swap_fuel _ _ _ _ Hlt) in Hm. pose proof (swp_le q p) as Hsw.
    assert (Hkn : or_known (w_s w') q p r) by (eapply or_known_samek; [exact Hk|]; eapply (or_known_intro md _ n (w_s w) q p r s1 u t Hor HW Hr2 Hr1); [lia|lia|exact Hm]).
    exists 2, 1. split_and!; [done|lia|lia| |].
    + exists p, q. split_and!; [done|done|]. apply or_swap_count; [done|]. eapply or_known_count; eauto. lia.
    + exists q, p. split_and!; [done|done|]. eapply or_known_count; eauto. lia.
Qed.

End cost2.
