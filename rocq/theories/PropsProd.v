(** * PropsProd.v -- the work of and_rec and or_rec when the memo cache loses nothing (C79) *)
From Verif Require Export PropsSlot PropsSize.
Open Scope N_scope.

Section prod.
Context {E : Env} (HE : env_ok E).

(** ** functions that do not touch the memo cache *)
Definition km {A} (m : M A) : Prop := forall s a s', m s = Ok a s' -> s_memo s' = s_memo s.
Lemma km_bind {A B} (m : M A) (k : A -> M B) : km m -> (forall a, km (k a)) -> km (bind m k).
Proof. intros Hm Hk s b s' (a&s1&H1&H2)%bind_okc. rewrite (Hk _ _ _ _ H2). by eapply Hm. Qed.
Lemma km_ret {A} (a : A) : km (ret a). Proof. by intros s b s' [= _ <-]. Qed.
Lemma km_fail {A} e : km (fail (A := A) e). Proof. done. Qed.
Lemma km_get : km get. Proof. by intros s b s' [= _ <-]. Qed.
Lemma km_liftR {A} (r : R A) : km (liftR r). Proof. intros s a s' [_ ->]%liftR_ok. done. Qed.
Lemma km_assert b : km (assert_ b). Proof. apply km_liftR. Qed.
Lemma km_getN p : km (getN p). Proof. intros s a s'. unfold getN. destruct (_ !! _); [|done]. by intros [= _ <-]. Qed.
Lemma km_getV v : km (getV v). Proof. intros s a s'. unfold getV. destruct (_ !! _); [|done]. by intros [= _ <-]. Qed.
Lemma km_set_vars f : km (set_vars f). Proof. by intros s b s' [= _ <-]. Qed.
Lemma km_set_pcs f : km (set_pcs f). Proof. by intros s b s' [= _ <-]. Qed.
Lemma km_set_nc f : km (set_nc f). Proof. by intros s b s' [= _ <-]. Qed.
Lemma km_set_rnd f : km (set_rnd f). Proof. by intros s b s' [= _ <-]. Qed.
Lemma km_set_heap f : km (set_heap f). Proof. by intros s b s' [= _ <-]. Qed.
Lemma km_assertM m : km m -> km (assertM m).
Proof. intros Hm. unfold assertM. destruct e_ndebug; [apply km_ret|]. apply km_bind; [done|]. intros. apply km_assert. Qed.
Ltac kmt := repeat first [apply km_bind; [|intros ?] | apply km_ret | apply km_fail | apply km_get | apply km_assert | apply km_assertM | apply km_liftR | apply km_getN | apply km_getV
  | apply km_set_vars | apply km_set_pcs | apply km_set_nc | apply km_set_rnd | apply km_set_heap | progress cbv zeta | solve [eauto 2 with km nocore]
  | lazymatch goal with |- km (match ?x with _ => _ end) => destruct x end ].
Create HintDb km discriminated.
Lemma km_modN p f : km (modN p f). Proof. unfold modN. kmt. Qed.
Hint Resolve km_modN : km.
Lemma km_reserve_page c : km (reserve_page c). Proof. unfold reserve_page. kmt. Qed.
Hint Resolve km_reserve_page : km.
Lemma km_new_page m : km (new_page m). Proof. unfold new_page. kmt. Qed.
Lemma km_free_page pg m : km (free_page pg m). Proof. unfold free_page, push_page. kmt. Qed.
Hint Resolve km_new_page km_free_page : km.
Lemma km_double v : km (double_cache v). Proof. unfold double_cache, setV. kmt. Qed.
Lemma km_reserve_fuel n : km (reserve_node_fuel n). Proof. induction n as [|n IH]; cbn [reserve_node_fuel]; kmt. Qed.
Lemma km_reserve : km reserve_node. Proof. apply km_reserve_fuel. Qed.
Lemma km_init p v l h : km (init_new_node p v l h). Proof. unfold init_new_node, xref_inc. kmt. Qed.
Hint Resolve km_double km_reserve km_init : km.
Lemma km_uf n : forall v l h, km (unique_find_fuel n v l h).
Proof. induction n as [|n IH]; intros v l h; cbn [unique_find_fuel]; unfold setV; kmt. Qed.
Lemma km_ufv v l h : km (unique_find_v v l h). Proof. apply km_uf. Qed.

(** ** known pairs *)
Section tag.
Context (tag : ptr) (K : list (ptr * ptr)) (P : ptr -> ptr -> Prop).
Definition knownb (s : mstate) (q : ptr * ptr) : bool :=
  existsb (fun m => negb (m_r m =? 0) && (m_f m =? q.1) && (m_g m =? q.2) && (m_h m =? tag)) (mc_tab (s_memo s)).
Lemma knownb_true s a b : knownb s (a, b) = true <-> exists r, lives (s_memo s) (Memo a b tag r).
Proof.
  unfold knownb, lives. rewrite existsb_exists. cbn [fst snd]. split.
  - intros (m&Hm&Hx). rewrite !andb_true_iff, !N.eqb_eq, negb_true_iff, N.eqb_neq in Hx. destruct Hx as [[[Hr <-] <-] <-].
    exists (m_r m). apply elem_of_list_In in Hm. destruct m. done.
  - intros (r&Hm&Hr). exists (Memo a b tag r). apply elem_of_list_In in Hm. split; [done|]. cbn. rewrite !N.eqb_refl. cbn in Hr. apply N.eqb_neq in Hr as ->. done.
Qed.
Definition cnt (s : mstate) : N := N.of_nat (length (List.filter (knownb s) K)).
Definition Kok (s : mstate) : Prop :=
  (forall a b, (a, b) ∈ K -> exists x, cache_hash (s_heap s) a b tag = inr x) /\
  (forall a b c d x y, (a, b) ∈ K -> (c, d) ∈ K -> cache_hash (s_heap s) a b tag = inr x -> cache_hash (s_heap s) c d tag = inr y ->
     N.land x (mc_mask (s_memo s)) = N.land y (mc_mask (s_memo s)) -> a = c /\ b = d).
Lemma Kok_keeps s s' : skel (s_heap s) (s_heap s') -> finer (s_memo s) (s_memo s') -> Kok s -> Kok s'.
Proof.
  intros Hk Hf [H1 H2]. split.
  - intros a b Hab. destruct (H1 a b Hab) as [x Hx]. exists x. by eapply hash_skel.
  - intros a b c d x y Hab Hcd Hx Hy Hxy. destruct (H1 a b Hab) as [x' Hx']. destruct (H1 c d Hcd) as [y' Hy'].
    pose proof (hash_skel _ _ _ _ _ _ Hk Hx') as Hx2. pose proof (hash_skel _ _ _ _ _ _ Hk Hy') as Hy2.
    apply (H2 a b c d x' y'); auto. apply Hf. congruence.
Qed.
Lemma finer_refl a : finer a a. Proof. by intros x y. Qed.
Lemma finer_trans a b c : finer a b -> finer b c -> finer a c. Proof. intros H1 H2 x y H. by apply H1, H2. Qed.
(** closed under the calls the recursion makes *)
Definition Pcl (h : heap) : Prop := forall f g, P f g -> f ∈ dom h /\ g ∈ dom h /\
  (forall n, ~ sink f -> h !! f = Some n -> P (n_lo n) g /\ P (n_hi n) g) /\ (forall n, ~ sink g -> h !! g = Some n -> P f (n_lo n) /\ P f (n_hi n)).
Lemma Pcl_keeps h h' : skel h h' -> Pcl h -> Pcl h'.
Proof.
  intros Hk Hp f g Hfg. destruct (Hp f g Hfg) as ([nf Hf]%elem_of_dom&[ng Hg]%elem_of_dom&H1&H2).
  destruct (Hk _ _ Hf) as (nf'&Hf'&A1&A2&_). destruct (Hk _ _ Hg) as (ng'&Hg'&B1&B2&_). split_and!; [by eapply elem_of_dom_2|by eapply elem_of_dom_2|..].
  - intros n Hs Hn. assert (n = nf') as -> by congruence. rewrite A1, A2. by apply (H1 nf).
  - intros n Hs Hn. assert (n = ng') as -> by congruence. rewrite B1, B2. by apply (H2 ng).
Qed.
Record G (s s' : mstate) (M : nat) : Prop := {
  g_msl : msl s'; g_skel : skel (s_heap s) (s_heap s'); g_fin : finer (s_memo s) (s_memo s');
  g_keep : forall a b, (a, b) ∈ K -> knownb s (a, b) = true -> knownb s' (a, b) = true;
  g_new : forall a b ta tb, (a, b) ∈ K -> repr (s_heap s) a ta -> repr (s_heap s) b tb -> (M < ht ta + ht tb)%nat -> knownb s' (a, b) = true -> knownb s (a, b) = true }.
Lemma repr_skel h h' p t : skel h h' -> repr h p t -> repr h' p t.
Proof.
  intros Hk. induction 1 as [| |q n tl th Hs Hn Hl IHl Hh IHh]; [constructor|constructor|]. destruct (Hk _ _ Hn) as (n'&Hn'&H1&H2&H3&_).
  rewrite <- H3. constructor; [done|done|by rewrite H1|by rewrite H2].
Qed.
Lemma G_refl s M : msl s -> G s s M.
Proof. intros Hm. split; auto using skel_refl, finer_refl. Qed.
Lemma G_trans s s1 s2 M1 M2 M : (M1 <= M)%nat -> (M2 <= M)%nat -> G s s1 M1 -> G s1 s2 M2 -> G s s2 M.
Proof.
  intros H1 H2 [A1 A2 A3 A4 A5] [B1 B2 B3 B4 B5]. split; auto.
  - by eapply skel_trans.
  - by eapply finer_trans.
  - intros a b ta tb Hab Ha Hb Hlt Hk. eapply A5; [done|done|done|lia|]. eapply (B5 a b ta tb); [done|by eapply repr_skel|by eapply repr_skel|lia|done].
Qed.
Lemma filter_mono (p q : ptr * ptr -> bool) l : (forall x, x ∈ l -> p x = true -> q x = true) -> (length (List.filter p l) <= length (List.filter q l))%nat.
Proof.
  induction l as [|x l IH]; intros H; [done|]. cbn [List.filter].
  assert (IH' : (length (List.filter p l) <= length (List.filter q l))%nat) by (apply IH; intros y Hy; apply H; by right).
  pose proof (H x ltac:(by left)) as Hx. destruct (p x), (q x); cbn [length]; try lia; by specialize (Hx eq_refl).
Qed.
Lemma filter_strict (p q : ptr * ptr -> bool) l z : (forall x, x ∈ l -> p x = true -> q x = true) -> z ∈ l -> p z = false -> q z = true ->
  (length (List.filter p l) < length (List.filter q l))%nat.
Proof.
  intros H Hz Hp Hq. induction l as [|x l IH]; [by apply elem_of_nil in Hz|]. cbn [List.filter].
  assert (Hl : forall y, y ∈ l -> p y = true -> q y = true) by (intros y Hy; apply H; by right).
  pose proof (filter_mono p q l Hl) as Hm. apply elem_of_cons in Hz as [->|Hz].
  - rewrite Hp, Hq. cbn [length]. lia.
  - specialize (IH Hl Hz). pose proof (H x ltac:(by left)) as Hx. destruct (p x), (q x); cbn [length]; try lia; by specialize (Hx eq_refl).
Qed.
Lemma cnt_mono s s' M : G s s' M -> cnt s <= cnt s'.
Proof. intros HG. unfold cnt. assert (length (List.filter (knownb s) K) <= length (List.filter (knownb s') K))%nat; [|lia]. apply filter_mono. intros [a b]. apply (g_keep _ _ _ HG). Qed.
Lemma G_insert f g r s u s' tf tg : msl s -> Kok s -> (f, g) ∈ K -> repr (s_heap s) f tf -> repr (s_heap s) g tg -> r <> 0 ->
  cache_insert f g tag r s = Ok u s' -> G s s' (ht tf + ht tg) /\ knownb s' (f, g) = true.
Proof.
  intros Hm [HK1 HK2] Hin Hf Hg Hr Hs. destruct (insert_keeps _ _ _ _ _ _ _ Hm Hs) as (x&Hx&Hh&_&Hm'&Hfin&Hnew&Hl&Hold).
  assert (Hkn : knownb s' (f, g) = true) by (apply knownb_true; exists r; by apply Hl).
  split; [|done]. split; auto.
  - rewrite Hh. apply skel_refl.
  - intros a b Hab (r'&Hr')%knownb_true. destruct (Hold _ Hr') as [Hlv|(y&Hy&Hxy)]; [apply knownb_true; eauto|]. cbn [m_f m_g m_h] in Hy.
    destruct (HK2 f g a b x y) as [<- <-]; auto.
  - intros a b ta tb Hab Ha Hb Hlt (r'&Hr')%knownb_true. destruct (Hnew _ Hr') as [[= -> -> _]|Hlv]; [|apply knownb_true; eauto].
    rewrite (repr_fun _ _ _ _ Ha Hf), (repr_fun _ _ _ _ Hb Hg) in Hlt. lia.
Qed.
Lemma shc_pot md H s rec v f g nf ng lf hf lg hg kf r k s' : Inv md H s -> ~ sink f -> ~ sink g ->
  s_heap s !! f = Some nf -> s_heap s !! g = Some ng ->
  repr (s_heap s) (n_lo nf) lf -> repr (s_heap s) (n_hi nf) hf ->
  repr (s_heap s) (n_lo ng) lg -> repr (s_heap s) (n_hi ng) hg ->
  let tf := Br (n_idx nf) lf hf in let tg := Br (n_idx ng) lg hg in
  (v = n_idx nf \/ v = n_idx ng) -> msl s -> Kok s -> Pcl (s_heap s) -> P f g -> (f, g) ∈ K -> knownb s (f, g) = false ->
  (forall s0 f' g' tf' tg', Inv md H s0 -> msl s0 -> Kok s0 -> Pcl (s_heap s0) -> P f' g' -> repr (s_heap s0) f' tf' -> repr (s_heap s0) g' tg' ->
     (ht tf' + ht tg' < ht tf + ht tg)%nat ->
     forall r k s1, rec f' g' s0 = Ok (r, k) s1 -> Inv md H s1 /\ ext s0 s1 /\ G s0 s1 (ht tf' + ht tg') /\ k + 4 * cnt s0 <= 2 + 4 * cnt s1) ->
  (forall r a b s2 x s3, kf r a b s2 = Ok x s3 -> x = (r, 1 + a.2 + b.2) /\ (r <> 0 -> exists u, cache_insert f g tag r s2 = Ok u s3)) ->
  shc rec v (n_idx nf) (n_idx ng) f g kf s = Ok (r, k) s' -> r <> 0 -> G s s' (ht tf + ht tg) /\ k + 4 * cnt s <= 1 + 4 * cnt s'.
Proof.
  intros HI Hsf Hsg Hnf Hng Hlf Hhf Hlg Hhg tf tg Hv Hms HK HP HPfg Hin Hunk Hrec Hk Hs Hr.
  set (cp := fun b (p : ptr) (n : node) => if v =? n_idx n then (if b : bool then n_hi n else n_lo n) else p).
  assert (Hrf : repr (s_heap s) f tf) by (by constructor).
  assert (Hrg : repr (s_heap s) g tg) by (by constructor).
  assert (Hcf : forall b, repr (s_heap s) (cp b f nf) (cof v b tf)).
  { intros b. unfold cp, tf; simpl. destruct (v =? n_idx nf); [by destruct b|done]. }
  assert (Hcg : forall b, repr (s_heap s) (cp b g ng) (cof v b tg)).
  { intros b. unfold cp, tg; simpl. destruct (v =? n_idx ng); [by destruct b|done]. }
  assert (Hht : forall b, (ht (cof v b tf) + ht (cof v b tg) < ht tf + ht tg)%nat).
  { intros b. pose proof (ht_cof v b tf). pose proof (ht_cof v b tg).
    destruct Hv as [Hv|Hv].
    - pose proof (ht_cof_lt v b lf hf) as Hlt. unfold tf in *. rewrite <- Hv in *. lia.
    - pose proof (ht_cof_lt v b lg hg) as Hlt. unfold tg in *. rewrite <- Hv in *. lia. }
  assert (HPc : forall b, P (cp b f nf) (cp b g ng)).
  { intros b. assert (H1 : P (cp b f nf) g).
    { unfold cp. destruct (v =? n_idx nf); [|done]. destruct (HP f g HPfg) as (_&_&Hx&_). destruct (Hx nf Hsf Hnf). by destruct b. }
    unfold cp at 2. destruct (v =? n_idx ng); [|done]. destruct (HP _ _ H1) as (_&_&_&Hx). destruct (Hx ng Hsg Hng). by destruct b. }
  unfold shc in Hs.
  rewrite (bind_eq _ _ _ _ _ (low_cof md H s f nf lf hf v HI Hnf Hlf Hhf)) in Hs.
  rewrite (bind_eq _ _ _ _ _ (low_cof md H s g ng lg hg v HI Hng Hlg Hhg)) in Hs.
  apply bind_okc in Hs as ([r0 k0]&s1&Hr0&Hs).
  destruct (Hrec s _ _ _ _ HI Hms HK HP (HPc false) (Hcf false) (Hcg false) (Hht false) _ _ _ Hr0) as (HI1&He1&HG1&Hk0).
  apply bind_okc in Hs as (u1&s1'&Hu1&Hs). apply liftR_ok in Hu1 as [_ ->].
  destruct (proj1 He1 _ _ Hnf) as (nf1&Hnf1&Hc1&Hc2&Hc3&_). destruct (proj1 He1 _ _ Hng) as (ng1&Hng1&Hd1&Hd2&Hd3&_).
  assert (Hhi : forall p n n1 tl th, s_heap s1 !! p = Some n1 -> n_idx n = n_idx n1 -> n_hi n = n_hi n1 -> n_lo n = n_lo n1 ->
      repr (s_heap s) (n_lo n) tl -> repr (s_heap s) (n_hi n) th ->
      (if v =? n_idx n then high p else ret p) s1 = Ok (cp true p n) s1).
  { intros p n n1 tl th Hp Hi Hhi Hlo Htl Hth. unfold cp. rewrite Hi, Hhi.
    eapply high_cof; [exact HI1|exact Hp|rewrite <- Hlo|rewrite <- Hhi]; eapply repr_ext_s; eauto. }
  rewrite (bind_eq _ _ _ _ _ (Hhi f nf nf1 _ _ Hnf1 Hc3 Hc2 Hc1 Hlf Hhf)) in Hs.
  rewrite (bind_eq _ _ _ _ _ (Hhi g ng ng1 _ _ Hng1 Hd3 Hd2 Hd1 Hlg Hhg)) in Hs.
  apply bind_okc in Hs as ([r1 k1]&s2&Hr1&Hs).
  destruct (Hrec s1 _ _ _ _ HI1 (g_msl _ _ _ HG1) (Kok_keeps _ _ (g_skel _ _ _ HG1) (g_fin _ _ _ HG1) HK) (Pcl_keeps _ _ (g_skel _ _ _ HG1) HP) (HPc true)
    (repr_ext_s _ _ _ _ He1 (Hcf true)) (repr_ext_s _ _ _ _ He1 (Hcg true)) (Hht true) _ _ _ Hr1) as (HI2&He2&HG2&Hk1).
  pose proof (Hht false) as Hh0. pose proof (Hht true) as Hh1.
  assert (HG12 : G s s2 (Nat.max (ht (cof v false tf) + ht (cof v false tg)) (ht (cof v true tf) + ht (cof v true tg)))).
  { eapply G_trans; [| |exact HG1|exact HG2]; lia. }
  apply bind_okc in Hs as (u2&s3&Hu2&Hs). apply liftR_ok in Hu2 as [_ ->]. apply bind_okc in Hs as (r2&s4&Hr2&Hs).
  apply Hk in Hs as [[= -> ->] Hins]. cbn [fst snd] in *. destruct (Hins Hr) as [u Hi].
  pose proof (km_ufv _ _ _ _ _ _ Hr2) as Hmem. pose proof (kp_ufv HE v r0 r1 s2 (i_nc _ _ _ HI2)) as Hkp. rewrite Hr2 in Hkp. destruct Hkp as [_ Hsk].
  set (M0 := Nat.max _ _) in HG12.
  assert (HG4 : G s s4 M0).
  { destruct HG12 as [A1 A2 A3 A4 A5]. split; unfold msl, knownb in *; rewrite ?Hmem; auto.
    - by eapply mtab_skel.
    - by eapply skel_trans. }
  assert (Hc4 : cnt s4 = cnt s2) by (unfold cnt, knownb; by rewrite Hmem).
  assert (Hunk4 : knownb s4 (f, g) = false).
  { destruct (knownb s4 (f, g)) eqn:Hk4; [|done]. rewrite <- Hunk. symmetry. apply (g_new _ _ _ HG4 f g tf tg); [done|done|done|unfold M0; lia|done]. }
  destruct (G_insert f g r2 s4 u s' tf tg (g_msl _ _ _ HG4) (Kok_keeps _ _ (g_skel _ _ _ HG4) (g_fin _ _ _ HG4) HK) Hin
    (repr_skel _ _ _ _ (g_skel _ _ _ HG4) Hrf) (repr_skel _ _ _ _ (g_skel _ _ _ HG4) Hrg) Hr Hi) as [HG5 Hkn].
  split; [eapply G_trans; [| |exact HG4|exact HG5]; unfold M0; lia|].
  assert (cnt s4 + 1 <= cnt s').
  { unfold cnt. assert (length (List.filter (knownb s4) K) < length (List.filter (knownb s') K))%nat; [|lia].
    apply (filter_strict _ _ _ (f, g)); auto. intros [a b] Hab. by apply (g_keep _ _ _ HG5). }
  lia.
Qed.

(** a lookup that finds nothing: the pair is not known *)
Lemma lookup_miss md H s f g r s' : Inv md H s -> msl s -> cache_lookup f g tag s = Ok r s' -> r = 0 -> knownb s (f, g) = false.
Proof.
  intros HI Hms Hs Hr. destruct (knownb s (f, g)) eqn:Hk; [exfalso|done]. apply knownb_true in Hk as (r'&Hi&Hr').
  destruct (i_memo _ _ _ HI) as [Hmask Hent]. pose proof (Hent _ Hi Hr') as (tf'&tg'&tr&_&_&Hrr&_). cbn [m_f m_g m_h m_r] in *.
  destruct (repr_in _ _ _ _ _ (i_heap _ _ _ HI) Hrr) as [nr Hnr].
  destruct Hms as (j&_&_&Hsl). apply elem_of_list_lookup in Hi as [k Hk]. destruct (Hsl k _ Hk Hr') as (x&Hx&Hc). cbn [m_f m_g m_h] in Hx.
  destruct (memo_slot_spec (s_memo s) x Hmask) as (n&Hn&_). pose proof (slot_inv _ _ _ Hn) as [-> _].
  assert (Hh : hit s f g tag r').
  { split; [done|]. exists x, (N.land x (mc_mask (s_memo s))). split_and!; [done|done|]. unfold memo_get. rewrite Hc. by apply nth_lookup_Some. }
  rewrite (hit_lookup _ _ _ _ _ _ _ HI Hh) in Hs; [|by eapply elem_of_dom_2]. injection Hs as -> _. done.
Qed.
End tag.

Lemma touch_same p s r s' : touch p s = Ok r s' -> s' = s.
Proof. unfold touch. destruct (p =? 0); [by intros [= _ <-]|]. intros (n&s1&Hn&Hs)%bind_okc. injection Hs as _ <-. unfold getN, bind, get in Hn. destruct (_ !! _); [|done]. by injection Hn as _ <-. Qed.

Lemma and_pot md H K (P : ptr -> ptr -> Prop) fuel : (forall f g, P f g -> P g f) -> (forall f g, P f g -> ~ sink f -> ~ sink g -> f < g -> (f, g) ∈ K) ->
  forall s f g tf tg r k s', Inv md H s -> msl s -> Kok and_symb K s -> Pcl P (s_heap s) -> P f g -> repr (s_heap s) f tf -> repr (s_heap s) g tg ->
  (2 * (ht tf + ht tg) + swp f g < fuel)%nat -> and_count fuel f g s = Ok (r, k) s' ->
  G and_symb K s s' (ht tf + ht tg) /\ k + 4 * cnt and_symb K s <= 1 + N.of_nat (swp f g) + 4 * cnt and_symb K s'.
Proof.
  intros Hsym HinK. induction fuel as [|fuel IH]; intros s f g tf tg r k s' HI Hms HK HP HPfg Hf Hg Hfu Hs; [lia|].
  pose proof Hs as Hs0. cbn [and_count] in Hs.
  assert (Hone : s' = s -> k = 1 -> G and_symb K s s' (ht tf + ht tg) /\ k + 4 * cnt and_symb K s <= 1 + N.of_nat (swp f g) + 4 * cnt and_symb K s').
  { intros -> ->. split; [by apply G_refl|lia]. }
  destruct (N.eqb_spec f g) as [->|Hfg]; [injection Hs as <- <- <-; by apply Hone|].
  destruct (N.ltb_spec g f) as [Hlt|Hge].
  { apply bind_okc in Hs as ([r' k']&s1&Hr&Hs). injection Hs as <- <- <-. cbn [snd]. destruct (swp_swap _ _ Hlt) as [Hw1 Hw2].
    destruct (IH s g f tg tf r' k' s1 HI Hms HK HP (Hsym _ _ HPfg) Hg Hf ltac:(lia) Hr) as [HG Hk].
    rewrite (Nat.add_comm (ht tf)). split; [done|]. lia. }
  destruct (N.eqb_spec f topsink) as [->|Hft]; [injection Hs as <- <- <-; by apply Hone|].
  destruct (N.eqb_spec f botsink) as [->|Hfb]; [injection Hs as <- <- <-; by apply Hone|].
  destruct (N.eqb_spec g topsink) as [->|Hgt]; [injection Hs as <- <- <-; by apply Hone|].
  destruct (N.eqb_spec g botsink) as [->|Hgb]; [injection Hs as <- <- <-; by apply Hone|].
  destruct (cache_lookup_spec HE md H s f g and_symb tf tg HI Hf Hg) as (m&Hm&_).
  rewrite (bind_eq _ _ _ _ _ Hm) in Hs.
  destruct (N.eqb_spec m 0) as [Hm0|Hm0]; cbn [negb] in Hs.
  2:{ apply bind_okc in Hs as (r'&s1&Hr&Hs). injection Hs as <- <- <-. apply Hone; [|done]. by apply touch_same in Hr. }
  pose proof (lookup_miss and_symb md H s f g m s HI Hms Hm Hm0) as Hunk.
  assert (Hsf : ~ sink f) by (unfold sink; tauto). assert (Hsg : ~ sink g) by (unfold sink; tauto).
  destruct (repr_nonsink _ _ _ Hf Hsf) as (nf&lf&hf&Hnf&->&Hlf&Hhf).
  destruct (repr_nonsink _ _ _ Hg Hsg) as (ng&lg&hg&Hng&->&Hlg&Hhg).
  pose proof (i_heap _ _ _ HI) as Hh.
  destruct (ho_node _ _ _ Hh _ _ Hnf Hsf) as [Hvf _]. destruct (ho_node _ _ _ Hh _ _ Hng Hsg) as [Hvg _].
  rewrite (bind_eq _ _ _ _ _ (variable_eq _ _ _ Hnf)), (bind_eq _ _ _ _ _ (variable_eq _ _ _ Hng)) in Hs.
  destruct (lookup_lt_is_Some_2 (s_vars s) (N.to_nat (n_idx nf))) as [vf Hvf']; [lia|].
  destruct (lookup_lt_is_Some_2 (s_vars s) (N.to_nat (n_idx ng))) as [vg Hvg']; [lia|].
  rewrite (bind_eq _ _ _ _ _ (getV_eq _ _ _ Hvf')), (bind_eq _ _ _ _ _ (getV_eq _ _ _ Hvg')) in Hs.
  assert (Hr0 : r <> 0).
  { pose proof (and_fuel_spec HE md H (S fuel) s f g _ _ HI Hf Hg Hfu) as Hok. unfold sat in Hok.
    rewrite (counted_ok _ _ _ _ _ _ (C78_and_counted (S fuel) f g) Hs0) in Hok. destruct Hok as (HI'&_&tr&Htr&_).
    pose proof (inv_repr_addr HE _ _ _ _ _ HI' Htr). lia. }
  clear Hs0 Hone.
  assert (Hsh : G and_symb K s s' (ht (Br (n_idx nf) lf hf) + ht (Br (n_idx ng) lg hg)) /\ k + 4 * cnt and_symb K s <= 1 + 4 * cnt and_symb K s'); [|split; [apply Hsh|lia]].
  eapply (shc_pot and_symb K P md H s (and_count fuel) (if n_idx nf <? n_idx ng then n_idx nf else n_idx ng) f g nf ng lf hf lg hg
    (fun r r0 r1 => assert_ (negb (r =? 0)) ;;* cache_insert f g and_symb r ;;* ret (r, 1 + r0.2 + r1.2))); [..|exact Hs|exact Hr0]; auto.
  - destruct (n_idx nf <? n_idx ng); auto.
  - apply HinK; auto. lia.
  - intros s0 f' g' tf' tg' HI0 Hms0 HK0 HP0 HPf' Hf0 Hg0 Hlt r1 k1 s1 Hr1.
    assert (Hfu' : (2 * (ht tf' + ht tg') + swp f' g' < fuel)%nat) by (clear Hs; pose proof (swp_le f' g'); lia).
    pose proof (and_fuel_spec HE md H fuel s0 f' g' tf' tg' HI0 Hf0 Hg0 Hfu') as Hok. unfold sat in Hok.
    rewrite (counted_ok _ _ _ _ _ _ (C78_and_counted fuel f' g') Hr1) in Hok. destruct Hok as (HI1&He1&_).
    destruct (IH s0 f' g' tf' tg' r1 k1 s1 HI0 Hms0 HK0 HP0 HPf' Hf0 Hg0 Hfu' Hr1) as [HG Hk1].
    split_and!; [done|done|done|]. pose proof (swp_le f' g'). lia.
  - intros r1 a b s2 x s3 Hx. apply bind_okc in Hx as (?&?&Hu&Hx). apply liftR_ok in Hu as [_ ->]. apply bind_okc in Hx as (u&?&Hu&Hx). injection Hx as <- <-. split; [done|]. intros _. by exists u.
Qed.

Lemma or_pot md H K (P : ptr -> ptr -> Prop) fuel : md_or md = true -> (forall f g, P f g -> P g f) -> (forall f g, P f g -> ~ sink f -> ~ sink g -> f < g -> (f, g) ∈ K) ->
  forall s f g tf tg r k s', Inv md H s -> msl s -> Kok or_symb K s -> Pcl P (s_heap s) -> P f g -> repr (s_heap s) f tf -> repr (s_heap s) g tg ->
  (2 * (ht tf + ht tg) + swp f g < fuel)%nat -> or_count fuel f g s = Ok (r, k) s' ->
  G or_symb K s s' (ht tf + ht tg) /\ k + 4 * cnt or_symb K s <= 1 + N.of_nat (swp f g) + 4 * cnt or_symb K s'.
Proof.
  intros Hor Hsym HinK. induction fuel as [|fuel IH]; intros s f g tf tg r k s' HI Hms HK HP HPfg Hf Hg Hfu Hs; [lia|].
  pose proof Hs as Hs0. cbn [or_count] in Hs.
  assert (Hone : s' = s -> k = 1 -> G or_symb K s s' (ht tf + ht tg) /\ k + 4 * cnt or_symb K s <= 1 + N.of_nat (swp f g) + 4 * cnt or_symb K s').
  { intros -> ->. split; [by apply G_refl|lia]. }
  destruct (N.eqb_spec f g) as [->|Hfg]; [injection Hs as <- <- <-; by apply Hone|].
  destruct (N.ltb_spec g f) as [Hlt|Hge].
  { apply bind_okc in Hs as ([r' k']&s1&Hr&Hs). injection Hs as <- <- <-. cbn [snd]. destruct (swp_swap _ _ Hlt) as [Hw1 Hw2].
    destruct (IH s g f tg tf r' k' s1 HI Hms HK HP (Hsym _ _ HPfg) Hg Hf ltac:(lia) Hr) as [HG Hk].
    rewrite (Nat.add_comm (ht tf)). split; [done|]. lia. }
  destruct (N.eqb_spec f topsink) as [->|Hft]; [injection Hs as <- <- <-; by apply Hone|].
  destruct (N.eqb_spec f botsink) as [->|Hfb]; [injection Hs as <- <- <-; by apply Hone|].
  destruct (N.eqb_spec g topsink) as [->|Hgt]; [injection Hs as <- <- <-; by apply Hone|].
  destruct (N.eqb_spec g botsink) as [->|Hgb]; [injection Hs as <- <- <-; by apply Hone|].
  destruct (cache_lookup_spec HE md H s f g or_symb tf tg HI Hf Hg) as (m&Hm&_).
  rewrite (bind_eq _ _ _ _ _ Hm) in Hs.
  destruct (N.eqb_spec m 0) as [Hm0|Hm0]; cbn [negb] in Hs.
  2:{ apply bind_okc in Hs as (r'&s1&Hr&Hs). injection Hs as <- <- <-. apply Hone; [|done]. by apply touch_same in Hr. }
  pose proof (lookup_miss or_symb md H s f g m s HI Hms Hm Hm0) as Hunk.
  assert (Hsf : ~ sink f) by (unfold sink; tauto). assert (Hsg : ~ sink g) by (unfold sink; tauto).
  destruct (repr_nonsink _ _ _ Hf Hsf) as (nf&lf&hf&Hnf&->&Hlf&Hhf).
  destruct (repr_nonsink _ _ _ Hg Hsg) as (ng&lg&hg&Hng&->&Hlg&Hhg).
  pose proof (i_heap _ _ _ HI) as Hh.
  destruct (ho_node _ _ _ Hh _ _ Hnf Hsf) as [Hvf _]. destruct (ho_node _ _ _ Hh _ _ Hng Hsg) as [Hvg _].
  rewrite (bind_eq _ _ _ _ _ (variable_eq _ _ _ Hnf)), (bind_eq _ _ _ _ _ (variable_eq _ _ _ Hng)) in Hs.
  destruct (lookup_lt_is_Some_2 (s_vars s) (N.to_nat (n_idx nf))) as [vf Hvf']; [lia|].
  destruct (lookup_lt_is_Some_2 (s_vars s) (N.to_nat (n_idx ng))) as [vg Hvg']; [lia|].
  rewrite (bind_eq _ _ _ _ _ (getV_eq _ _ _ Hvf')), (bind_eq _ _ _ _ _ (getV_eq _ _ _ Hvg')) in Hs.
  assert (Hr0 : r <> 0).
  { pose proof (or_fuel_spec HE md H (S fuel) Hor s f g _ _ HI Hf Hg Hfu) as Hok. unfold sat in Hok.
    rewrite (counted_ok _ _ _ _ _ _ (C78_or_counted (S fuel) f g) Hs0) in Hok. destruct Hok as (HI'&_&tr&Htr&_).
    pose proof (inv_repr_addr HE _ _ _ _ _ HI' Htr). lia. }
  clear Hs0 Hone.
  assert (Hsh : G or_symb K s s' (ht (Br (n_idx nf) lf hf) + ht (Br (n_idx ng) lg hg)) /\ k + 4 * cnt or_symb K s <= 1 + 4 * cnt or_symb K s'); [|split; [apply Hsh|lia]].
  eapply (shc_pot or_symb K P md H s (or_count fuel) (if n_idx nf <? n_idx ng then n_idx nf else n_idx ng) f g nf ng lf hf lg hg
    (fun r r0 r1 => (if negb (r =? 0) then cache_insert f g or_symb r else ret tt) ;;* ret (r, 1 + r0.2 + r1.2))); [..|exact Hs|exact Hr0]; auto.
  - destruct (n_idx nf <? n_idx ng); auto.
  - apply HinK; auto. lia.
  - intros s0 f' g' tf' tg' HI0 Hms0 HK0 HP0 HPf' Hf0 Hg0 Hlt r1 k1 s1 Hr1.
    assert (Hfu' : (2 * (ht tf' + ht tg') + swp f' g' < fuel)%nat) by (clear Hs; pose proof (swp_le f' g'); lia).
    pose proof (or_fuel_spec HE md H fuel Hor s0 f' g' tf' tg' HI0 Hf0 Hg0 Hfu') as Hok. unfold sat in Hok.
    rewrite (counted_ok _ _ _ _ _ _ (C78_or_counted fuel f' g') Hr1) in Hok. destruct Hok as (HI1&He1&_).
    destruct (IH s0 f' g' tf' tg' r1 k1 s1 HI0 Hms0 HK0 HP0 HPf' Hf0 Hg0 Hfu' Hr1) as [HG Hk1].
    split_and!; [done|done|done|]. pose proof (swp_le f' g'). lia.
  - intros r1 a b s2 x s3 Hx. apply bind_okc in Hx as (u&?&Hu&Hx). injection Hx as <- <-. split; [done|]. intros Hr1. apply N.eqb_neq in Hr1. rewrite Hr1 in Hu. by exists u.
Qed.

(** ** Specification *)
(** the memo cache keeps a result of operation [tag] for the operands [f], [g] in slot [n] *)
Definition slot_of (s : mstate) (f g tag n : N) : Prop := exists x, cache_hash (s_heap s) f g tag = inr x /\ memo_slot (s_memo s) x = inr n.
(** no two different pairs of a node of [p] and a node of [q] share a slot (the operation swaps its operands if the first has the larger address) *)
Definition apart (s : mstate) (p q tag : ptr) : Prop := forall a b c d n, subnode s p a -> subnode s q b -> subnode s p c -> subnode s q d -> a <> b -> c <> d ->
  slot_of s (N.min a b) (N.max a b) tag n -> slot_of s (N.min c d) (N.max c d) tag n -> N.min a b = N.min c d /\ N.max a b = N.max c d.
(** the entry [m] is in slot [k] of the cache *)
Definition stored (s : mstate) (k : nat) (m : memo) : Prop := mc_tab (s_memo s) !! k = Some m /\ m_r m <> 0.

(** ** Theorems *)
Theorem C79_slots md w k m : reach md w -> stored (w_s w) k m -> slot_of (w_s w) (m_f m) (m_g m) (m_h m) (N.of_nat k).
Proof.
  intros HR [Hk Hr]. destruct (reach_msl HE _ _ HR) as (j&_&_&Hsl). destruct (Hsl k m Hk Hr) as (x&Hx&Hc). exists x. split; [done|].
  destruct (i_memo _ _ _ (reach_inv HE _ _ HR)) as [Hmask _]. destruct (memo_slot_spec (s_memo (w_s w)) x Hmask) as (n&Hn&_).
  rewrite Hn. destruct (slot_inv _ _ _ Hn) as [-> _]. by rewrite <- Hc, N2Nat.id.
Qed.
Theorem C79_found md w k m : reach md w -> stored (w_s w) k m -> cache_lookup (m_f m) (m_g m) (m_h m) (w_s w) = Ok (m_r m) (w_s w).
Proof.
  intros HR Hst. pose proof (C79_slots _ _ _ _ HR Hst) as (x&Hx&Hn). destruct Hst as [Hk Hr]. pose proof (reach_inv HE _ _ HR) as HW.
  destruct (i_memo _ _ _ HW) as [_ Hent]. destruct (Hent m ltac:(by eapply elem_of_list_lookup_2) Hr) as (tf&tg&tr&_&_&Hrr&_).
  destruct (repr_in _ _ _ _ _ (i_heap _ _ _ HW) Hrr) as [nr Hnr].
  eapply hit_lookup; [exact HW| |by eapply elem_of_dom_2]. split; [done|]. exists x, (N.of_nat k). split_and!; [done|done|].
  unfold memo_get. rewrite Nat2N.id. rewrite (nth_lookup_Some _ _ _ _ Hk). by destruct m.
Qed.
(** the cache after double_cache: the same entries, and each is where a lookup searches it *)
Theorem C79_enlarge md w mc : reach md w -> memo_double (s_heap (w_s w)) (s_memo (w_s w)) = inr mc ->
  (forall m, m_r m <> 0 -> m ∈ mc_tab mc <-> m ∈ mc_tab (s_memo (w_s w))) /\
  (forall k m, mc_tab mc !! k = Some m -> m_r m <> 0 -> exists x, cache_hash (s_heap (w_s w)) (m_f m) (m_g m) (m_h m) = inr x /\ memo_slot mc x = inr (N.of_nat k)).
Proof.
  intros HR Hd. destruct (double_keeps _ _ _ (reach_msl HE _ _ HR) Hd) as ((j&H1&H2&Hsl)&Hl&_). split.
  - intros m Hr. pose proof (Hl m) as Hm. unfold lives in Hm. tauto.
  - intros k m Hk Hr. destruct (Hsl k m Hk Hr) as (x&Hx&Hc). exists x. split; [done|].
    assert (Hmask : mc_mask mc + 1 = N.of_nat (length (mc_tab mc))). { pose proof (N.pow_nonzero 2 j ltac:(done)). rewrite H1, H2. lia. }
    destruct (memo_slot_spec mc x Hmask) as (n&Hn&_). rewrite Hn. destruct (slot_inv _ _ _ Hn) as [-> _]. by rewrite <- Hc, N2Nat.id.
Qed.

(** ** the pairs *)
Definition okeys (lp lq : list ptr) : list (ptr * ptr) :=
  List.filter (fun x => x.1 <? x.2) (map (fun x => (N.min x.1 x.2, N.max x.1 x.2)) (list_prod lp lq)).
Lemma okeys_in lp lq f g : (f, g) ∈ okeys lp lq <-> f < g /\ exists a b, a ∈ lp /\ b ∈ lq /\ f = N.min a b /\ g = N.max a b.
Proof.
  unfold okeys. rewrite elem_of_list_In, filter_In, in_map_iff. cbn [fst snd]. rewrite N.ltb_lt. split.
  - intros [([a b]&[= <- <-]&Hi) Hlt]. apply in_prod_iff in Hi as [Ha%elem_of_list_In Hb%elem_of_list_In]. eauto 10.
  - intros (Hlt&a&b&Ha&Hb&->&->). split; [|done]. exists (a, b). split; [done|]. apply in_prod_iff. by rewrite <- !elem_of_list_In.
Qed.
Lemma filter_len_le {A} (f : A -> bool) l : (length (List.filter f l) <= length l)%nat.
Proof. induction l as [|a l IH]; cbn; [done|]. destruct (f a); cbn; lia. Qed.
Lemma okeys_len lp lq : (length (okeys lp lq) <= length lp * length lq)%nat.
Proof. unfold okeys. etransitivity; [apply filter_len_le|]. by rewrite map_length, prod_length. Qed.

Definition part (s : mstate) (p x : ptr) : Prop := sink x \/ subnode s p x.
Definition pairs (s : mstate) (p q f g : ptr) : Prop := part s p f /\ part s q g \/ part s q f /\ part s p g.
Lemma sink_dom md w x : WInv md w -> sink x -> x ∈ dom (s_heap (w_s w)).
Proof. intros HW Hs. destruct (ho_sink _ _ _ (i_heap _ _ _ HW)) as [[a Ha] [b Hb]]. destruct Hs as [-> | ->]; by eapply elem_of_dom_2. Qed.
Lemma part_dom md w p x : WInv md w -> part (w_s w) p x -> x ∈ dom (s_heap (w_s w)).
Proof.
  intros HW [Hs|Hs]; [by eapply sink_dom|]. apply subnode_reach in Hs. apply elem_of_dom. by eapply reach_node.
Qed.
Lemma part_child md w p x n : WInv md w -> part (w_s w) p x -> ~ sink x -> s_heap (w_s w) !! x = Some n -> part (w_s w) p (n_lo n) /\ part (w_s w) p (n_hi n).
Proof.
  intros HW [Hs|Hs] Hns Hn; [done|]. destruct (ho_node _ _ _ (i_heap _ _ _ HW) _ _ Hn Hns) as (_&_&_&t&Ht).
  destruct (repr_nonsink _ _ _ Ht Hns) as (n'&tl&th&Hn'&_&Hl&Hh). assert (n' = n) as -> by congruence.
  destruct (repr_in _ _ _ _ _ (i_heap _ _ _ HW) Hl) as [nl Hnl]. destruct (repr_in _ _ _ _ _ (i_heap _ _ _ HW) Hh) as [nh Hnh].
  apply subnode_reach in Hs. unfold part. rewrite !subnode_reach.
  split; [destruct (decide (sink (n_lo n))) as [|Hs']|destruct (decide (sink (n_hi n))) as [|Hs']]; auto; right; eapply reach_snoc; eauto.
Qed.
Lemma pairs_Pcl md w p q : WInv md w -> Pcl (pairs (w_s w) p q) (s_heap (w_s w)).
Proof.
  intros HW f g Hfg. split_and!.
  - destruct Hfg as [[H1 H2]|[H1 H2]]; by eapply part_dom.
  - destruct Hfg as [[H1 H2]|[H1 H2]]; by eapply part_dom.
  - intros n Hs Hn. destruct Hfg as [[H1 H2]|[H1 H2]]; destruct (part_child _ _ _ _ _ HW H1 Hs Hn) as [Ha Hb]; split; [left|left|right|right]; done.
  - intros n Hs Hn. destruct Hfg as [[H1 H2]|[H1 H2]]; destruct (part_child _ _ _ _ _ HW H2 Hs Hn) as [Ha Hb]; split; [left|left|right|right]; done.
Qed.
Lemma pairs_key s p q lp lq f g : (forall x, x ∈ lp <-> subnode s p x) -> (forall x, x ∈ lq <-> subnode s q x) -> pairs s p q f g -> ~ sink f -> ~ sink g -> f < g -> (f, g) ∈ okeys lp lq.
Proof.
  intros Hp Hq Hpr Hf Hg Hlt. apply okeys_in. split; [done|]. destruct Hpr as [[[?|H1] [?|H2]]|[[?|H1] [?|H2]]]; try done.
  - exists f, g. rewrite Hp, Hq. split_and!; [done|done|lia|lia].
  - exists g, f. rewrite Hp, Hq. split_and!; [done|done|lia|lia].
Qed.
Lemma keys_Kok md w p q lp lq tag : WInv md w -> (forall x, x ∈ lp <-> subnode (w_s w) p x) -> (forall x, x ∈ lq <-> subnode (w_s w) q x) ->
  apart (w_s w) p q tag -> Kok tag (okeys lp lq) (w_s w).
Proof.
  intros HW Hp Hq Hap.
  assert (Hd : forall f g, (f, g) ∈ okeys lp lq -> f ∈ dom (s_heap (w_s w)) /\ g ∈ dom (s_heap (w_s w))).
  { intros f g (_&a&b&Ha&Hb&->&->)%okeys_in. apply Hp in Ha. apply Hq in Hb.
    assert (a ∈ dom (s_heap (w_s w))) by (eapply part_dom; [exact HW|right; exact Ha]).
    assert (b ∈ dom (s_heap (w_s w))) by (eapply part_dom; [exact HW|right; exact Hb]).
    destruct (N.min_spec a b) as [[? ->]|[? ->]], (N.max_spec a b) as [[? ->]|[? ->]]; done. }
  split.
  - intros f g Hi. destruct (Hd _ _ Hi) as [Hf Hg]. apply elem_of_dom in Hf, Hg. apply cache_hash_spec; [done|done|].
    destruct Hg as [n Hn]. pose proof (inv_addr HE _ _ _ _ _ HW Hn). lia.
  - intros f g f' g' x y Hi Hi' Hx Hy Hxy. apply okeys_in in Hi as (Hlt&a&b&Ha&Hb&->&->). apply okeys_in in Hi' as (Hlt'&c&d&Hc&Hd'&->&->).
    apply Hp in Ha, Hc. apply Hq in Hb, Hd'. destruct (i_memo _ _ _ HW) as [Hmask _].
    destruct (memo_slot_spec (s_memo (w_s w)) x Hmask) as (n&Hn&_). destruct (memo_slot_spec (s_memo (w_s w)) y Hmask) as (n'&Hn'&_).
    assert (n' = n) as ->. { destruct (slot_inv _ _ _ Hn) as [-> _]. destruct (slot_inv _ _ _ Hn') as [-> _]. done. }
    apply (Hap a b c d n); auto; [lia|lia|by exists x|by exists y].
Qed.
Theorem C79_and_product md w i j p q n m k r s' : reach md w -> hnd w i = Some p -> hnd w j = Some q -> nnodes w i n -> nnodes w j m ->
  apart (w_s w) p q and_symb -> and_rec_calls w i j k r s' -> k <= 4 * N.of_nat n * N.of_nat m + 2.
Proof.
  intros HR Hp Hq (p'&lp&Hp'&Hp0&_&Hlp&<-) (q'&lq&Hq'&Hq0&_&Hlq&<-) Hap (p1&q1&Hp1&Hq1&Hk).
  assert (p' = p) as -> by congruence. assert (q' = q) as -> by congruence. assert (p1 = p) as -> by congruence. assert (q1 = q) as -> by congruence.
  pose proof (reach_inv HE _ _ HR) as HW. destruct (winv_repr _ _ _ _ HW Hp Hp0) as [t Ht]. destruct (winv_repr _ _ _ _ HW Hq Hq0) as [u Hu].
  unfold with_fuel in Hk.
  assert (Hpart : forall y t', repr (s_heap (w_s w)) y t' -> part (w_s w) y y).
  { intros y t' Hr. destruct (decide (sink y)) as [|Hs]; [by left|]. right. apply subnode_reach.
    destruct (repr_in _ _ _ _ _ (i_heap _ _ _ HW) Hr) as [ny Hny]. by econstructor. }
  destruct (and_pot md _ (okeys lp lq) (pairs (w_s w) p q) (fuel_of (w_s w))
    ltac:(intros f g [[? ?]|[? ?]]; [right|left]; done) (fun f g => pairs_key _ _ _ _ _ f g Hlp Hlq)
    (w_s w) p q t u r k s' HW (reach_msl HE _ _ HR) (keys_Kok _ _ _ _ _ _ _ HW Hlp Hlq Hap) (pairs_Pcl _ _ _ _ HW)) as [_ Hb]; auto.
  - left. split; [by apply (Hpart p t)|by apply (Hpart q u)].
  - pose proof (fuel_ht _ _ _ Ht). pose proof (fuel_ht _ _ _ Hu). pose proof (swp_le p q). lia.
  - pose proof (swp_le p q). pose proof (okeys_len lp lq) as Hlen.
    assert (cnt and_symb (okeys lp lq) s' <= N.of_nat (length lp * length lq)%nat).
    { unfold cnt. pose proof (filter_len_le (knownb and_symb s') (okeys lp lq)). lia. }
    rewrite <- N.mul_assoc, <- Nat2N.inj_mul. lia.
Qed.
Theorem C79_or_product md w i j p q n m k r s' : md_or md = true -> reach md w -> hnd w i = Some p -> hnd w j = Some q -> nnodes w i n -> nnodes w j m ->
  apart (w_s w) p q or_symb -> or_rec_calls w i j k r s' -> k <= 4 * N.of_nat n * N.of_nat m + 2.
Proof.
  intros Hor HR Hp Hq (p'&lp&Hp'&Hp0&_&Hlp&<-) (q'&lq&Hq'&Hq0&_&Hlq&<-) Hap (p1&q1&Hp1&Hq1&Hk).
  assert (p' = p) as -> by congruence. assert (q' = q) as -> by congruence. assert (p1 = p) as -> by congruence. assert (q1 = q) as -> by congruence.
  pose proof (reach_inv HE _ _ HR) as HW. destruct (winv_repr _ _ _ _ HW Hp Hp0) as [t Ht]. destruct (winv_repr _ _ _ _ HW Hq Hq0) as [u Hu].
  unfold with_fuel in Hk.
  assert (Hpart : forall y t', repr (s_heap (w_s w)) y t' -> part (w_s w) y y).
  { intros y t' Hr. destruct (decide (sink y)) as [|Hs]; [by left|]. right. apply subnode_reach.
    destruct (repr_in _ _ _ _ _ (i_heap _ _ _ HW) Hr) as [ny Hny]. by econstructor. }
  destruct (or_pot md _ (okeys lp lq) (pairs (w_s w) p q) (fuel_of (w_s w)) Hor
    ltac:(intros f g [[? ?]|[? ?]]; [right|left]; done) (fun f g => pairs_key _ _ _ _ _ f g Hlp Hlq)
    (w_s w) p q t u r k s' HW (reach_msl HE _ _ HR) (keys_Kok _ _ _ _ _ _ _ HW Hlp Hlq Hap) (pairs_Pcl _ _ _ _ HW)) as [_ Hb]; auto.
  - left. split; [by apply (Hpart p t)|by apply (Hpart q u)].
  - pose proof (fuel_ht _ _ _ Ht). pose proof (fuel_ht _ _ _ Hu). pose proof (swp_le p q). lia.
  - pose proof (swp_le p q). pose proof (okeys_len lp lq) as Hlen.
    assert (cnt or_symb (okeys lp lq) s' <= N.of_nat (length lp * length lq)%nat).
    { unfold cnt. pose proof (filter_len_le (knownb or_symb s') (okeys lp lq)). lia. }
    rewrite <- N.mul_assoc, <- Nat2N.inj_mul. lia.
Qed.
End prod.
