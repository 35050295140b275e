(** * Probe.v -- the open-addressing unique table with linear probing *)
From Verif Require Export Wp.
Open Scope N_scope.

Section probe.
Context {E : Env}.

Definition pos (k x : N) : nat := N.to_nat (x mod 2 ^ k).
Definition tsize (k : N) : nat := N.to_nat (2 ^ k).

Definition hkey (h : heap) (l r : ptr) : option N :=
  match h !! l, h !! r with
  | Some a, Some b => Some (N.lxor (n_key a) (2 * n_key b)) | _, _ => None end.
Definition hcode (h : heap) (p : ptr) : option N :=
  match h !! p with Some n => hkey h (n_lo n) (n_hi n) | None => None end.

Definition zeros (k : N) (l : list ptr) : nat := length (filter (fun p => p = 0%N) (take (tsize k) l)).

(** the first [2^k] cells of [l] are a linear-probing table holding exactly [S] *)
Record ptab (h : heap) (k : N) (l : list ptr) (S : ptr -> Prop) : Prop := {
  pt_len : (tsize k <= length l)%nat;
  pt_in : forall i p, (i < tsize k)%nat -> l !! i = Some p -> p <> 0 -> S p;
  pt_all : forall p, S p -> p <> 0 /\ exists i, (i < tsize k)%nat /\ l !! i = Some p;
  pt_inj : forall i j p, (i < tsize k)%nat -> (j < tsize k)%nat -> p <> 0 ->
             l !! i = Some p -> l !! j = Some p -> i = j;
  pt_probe : forall i p, (i < tsize k)%nat -> l !! i = Some p -> p <> 0 ->
     exists hc d, hcode h p = Some hc /\ d < 2 ^ k /\ i = pos k (hc + d) /\
       forall d', d' < d -> l !! pos k (hc + d') <> Some 0
}.

Lemma pow_pos k : 0 < 2 ^ k.
Proof. apply N.neq_0_lt_0, N.pow_nonzero. lia. Qed.
Lemma pos_lt k x : (pos k x < tsize k)%nat.
Proof. unfold pos, tsize. pose proof (N.mod_lt x (2 ^ k) ltac:(pose proof (pow_pos k); lia)). lia. Qed.
Lemma tsize_pos k : (0 < tsize k)%nat.
Proof. unfold tsize. pose proof (pow_pos k). lia. Qed.

Lemma pos_surj k x i : (i < tsize k)%nat -> exists d, d < 2 ^ k /\ pos k (x + d) = i.
Proof.
  intros Hi. unfold tsize in Hi. pose proof (pow_pos k) as Hp.
  pose proof (N.mod_lt x (2 ^ k) ltac:(lia)) as Hx.
  exists ((N.of_nat i + (2 ^ k - x mod 2 ^ k)) mod 2 ^ k). split; [apply N.mod_lt; lia|].
  unfold pos. rewrite N.add_mod_idemp_r by lia.
  rewrite <- N.add_mod_idemp_l by lia.
  replace (x mod 2 ^ k + (N.of_nat i + (2 ^ k - x mod 2 ^ k))) with (N.of_nat i + 1 * 2 ^ k) by lia.
  rewrite N.mod_add by lia. rewrite N.mod_small by lia. lia.
Qed.

Lemma pos_inj k x d d' : d < 2 ^ k -> d' < 2 ^ k -> pos k (x + d) = pos k (x + d') -> d = d'.
Proof.
  unfold pos. intros Hd Hd' He. apply N2Nat.inj in He. pose proof (pow_pos k) as Hp.
  pose proof (N.div_mod (x + d) (2 ^ k) ltac:(lia)). pose proof (N.div_mod (x + d') (2 ^ k) ltac:(lia)).
  rewrite He in H. set (a := (x + d) / 2 ^ k) in *. set (b := (x + d') / 2 ^ k) in *.
  set (m := 2 ^ k) in *. assert (a = b \/ a < b \/ b < a) as [?|[?|?]] by lia.
  - subst a b. nia.
  - nia.
  - nia.
Qed.

Lemma land_ones_pos k x : N.to_nat (N.land x (N.ones k)) = pos k x.
Proof. unfold pos. by rewrite N.land_ones. Qed.
Lemma land_ones_le k x : N.land x (N.ones k) <= N.ones k.
Proof.
  rewrite N.land_ones, N.ones_equiv. pose proof (N.mod_lt x (2 ^ k) ltac:(pose proof (pow_pos k); lia)). lia.
Qed.

(** ** counting nulls *)
Lemma zeros_pos_ex k l : (tsize k <= length l)%nat -> (0 < zeros k l)%nat ->
  exists i, (i < tsize k)%nat /\ l !! i = Some 0.
Proof.
  unfold zeros. intros Hlen Hz.
  destruct (filter (fun p => p = 0%N) (take (tsize k) l)) as [|x xs] eqn:Hf; [simpl in Hz; lia|].
  assert (Hx : x ∈ filter (fun p => p = 0%N) (take (tsize k) l)) by (rewrite Hf; constructor).
  apply elem_of_list_filter in Hx as [-> Hx]. apply elem_of_list_lookup in Hx as [i Hi].
  apply lookup_take_Some in Hi as [Hi ?]. eauto.
Qed.

Lemma filter_len_insert (l : list ptr) i p : l !! i = Some 0 -> p <> 0 ->
  S (length (filter (fun p => p = 0%N) (<[i := p]> l))) = length (filter (fun p => p = 0%N) l).
Proof.
  revert i; induction l as [|x l IH]; intros [|i] Hi Hp; try done.
  - injection Hi as ->. change (<[0%nat := p]> (0 :: l)) with (p :: l).
    rewrite (filter_cons_False (fun p0 => p0 = 0)) by done.
    rewrite (filter_cons_True (fun p0 => p0 = 0)) by done. done.
  - change (<[S i := p]> (x :: l)) with (x :: <[i := p]> l). pose proof (IH i Hi Hp).
    rewrite !filter_cons. repeat case_decide; cbn [length]; try lia; done.
Qed.
Lemma zeros_insert k l i p : (i < tsize k)%nat -> l !! i = Some 0 -> p <> 0 ->
  S (zeros k (<[i := p]> l)) = zeros k l.
Proof.
  intros Hi Hl Hp. unfold zeros. rewrite take_insert_lt by done.
  apply filter_len_insert; [|done]. by rewrite lookup_take.
Qed.
Lemma zeros_le k l : (zeros k l <= tsize k)%nat.
Proof.
  unfold zeros. etrans; [apply filter_length|]. rewrite take_length. lia.
Qed.
Lemma zeros_repeat k n : (tsize k <= n)%nat -> zeros k (repeat 0 n) = tsize k.
Proof.
  intros Hn. unfold zeros. change (repeat 0 n) with (repeat 0 n).
  assert (Htk : take (tsize k) (repeat 0 n) = replicate (tsize k) 0).
  { rewrite <- (firstn_skipn (tsize k) (repeat 0 n)) at 1.
    apply list_eq. intros i. destruct (decide (i < tsize k)%nat) as [Hi|Hi].
    - rewrite take_drop. rewrite lookup_take by done. rewrite lookup_replicate_2 by done.
      destruct (repeat 0 n !! i) as [x|] eqn:Hx.
      + apply elem_of_list_lookup_2 in Hx. apply elem_of_list_In, repeat_spec in Hx. congruence.
      + apply lookup_ge_None in Hx. rewrite repeat_length in Hx. lia.
    - rewrite take_drop. rewrite lookup_take_ge by lia.
      symmetry. apply lookup_ge_None. rewrite replicate_length. lia. }
  rewrite Htk. clear. induction (tsize k) as [|m IH]; [done|].
  cbn [replicate]. rewrite (filter_cons_True (fun p => p = 0)) by done. cbn [length]. by rewrite IH.
Qed.

Lemma repeat_lookup_0 n i p : repeat 0 n !! i = Some p -> p = 0.
Proof.
  intros Hx. apply elem_of_list_lookup_2 in Hx. by apply elem_of_list_In, repeat_spec in Hx.
Qed.

(** number of non-null cells = number of stored nodes *)
Lemma filter_neg_len (l : list ptr) :
  (length (filter (fun p => p = 0%N) l) + length (filter (fun p => p <> 0%N) l) = length l)%nat.
Proof.
  induction l as [|x l IH]; [done|]. rewrite !filter_cons.
  destruct (decide (x = 0)), (decide (x <> 0)); simpl; try lia; tauto.
Qed.

Lemma used_le_size h k l S (X : gset N) : ptab h k l S -> (forall p, S p -> p ∈ X) ->
  (tsize k - zeros k l <= size X)%nat.
Proof.
  intros HT HX. unfold zeros. pose proof (filter_neg_len (take (tsize k) l)) as Hn.
  rewrite take_length, Nat.min_l in Hn by apply HT.
  enough (length (filter (fun p => p <> 0%N) (take (tsize k) l)) <= size X)%nat by lia.
  assert (Hnd : NoDup (filter (fun p => p <> 0%N) (take (tsize k) l))).
  { assert (Hg : forall (m : list ptr), (forall i j p, p <> 0 -> m !! i = Some p -> m !! j = Some p -> i = j) ->
       NoDup (filter (fun p => p <> 0%N) m)).
    { induction m as [|x m IH]; intros Hinj; [constructor|]. rewrite filter_cons.
      assert (Hm : NoDup (filter (fun p => p <> 0%N) m)).
      { apply IH. intros i j p Hp Hi Hj. assert (Datatypes.S i = Datatypes.S j); [|lia]. eapply (Hinj (Datatypes.S i) (Datatypes.S j) p); eauto. }
      destruct (decide (x <> 0)) as [Hx|]; [|done]. apply NoDup_cons; split; [|done].
      intros [_ Hin]%elem_of_list_filter. apply elem_of_list_lookup in Hin as [j Hj].
      assert (0 = Datatypes.S j)%nat; [|lia]. eapply (Hinj 0%nat (Datatypes.S j) x); eauto. }
    apply Hg. intros i j p Hp Hi%lookup_take_Some Hj%lookup_take_Some.
    eapply (pt_inj _ _ _ _ HT); [| |exact Hp| |]; tauto. }
  rewrite <- (size_list_to_set (C := gset N)) by done. apply subseteq_size.
  intros p Hp%elem_of_list_to_set. apply elem_of_list_filter in Hp as [Hp Hin].
  apply elem_of_list_lookup in Hin as [i Hi]. apply lookup_take_Some in Hi as [Hi Hlt].
  apply HX. eapply pt_in; eauto.
Qed.

(** ** next_free_slot *)
Definition vt_shape (k : N) (t : vtab) : Prop :=
  vt_mask t = N.ones k /\ 6 <= k /\ (tsize k <= length (pg_slots (vt_page t)))%nat.

Lemma ones_ge_63 k : 6 <= k -> 63 <= N.ones k.
Proof.
  intros Hk. rewrite N.ones_equiv. pose proof (N.pow_le_mono_r 2 6 k ltac:(lia) Hk). change (2 ^ 6) with 64 in H. lia.
Qed.
Lemma vt_size_shape k t : vt_mask t = N.ones k -> N.to_nat (vt_size t) = tsize k.
Proof. unfold vt_size, tsize. intros ->. rewrite N.ones_equiv. pose proof (pow_pos k). f_equal. lia. Qed.
Lemma base_index_eq k t x : vt_shape k t -> base_index t x = inr (N.land x (N.ones k)).
Proof.
  intros (Hm&Hk&_). unfold base_index. rewrite Hm.
  rewrite assertR_true; [done|]. apply N.leb_le. by apply ones_ge_63.
Qed.
Lemma fetch_node_eq k t x : vt_shape k t ->
  exists p, pg_slots (vt_page t) !! pos k x = Some p /\ fetch_node t (N.land x (N.ones k)) = inr p.
Proof.
  intros (Hm&Hk&Hl). unfold fetch_node. rewrite Hm.
  rewrite assertR_true by (apply N.leb_le, land_ones_le). simpl. rewrite land_ones_pos.
  destruct (lookup_lt_is_Some_2 (pg_slots (vt_page t)) (pos k x)) as [p Hp].
  { pose proof (pos_lt k x). lia. }
  exists p. by rewrite Hp.
Qed.

Lemma next_free_loop_spec k t fuel x d0 : vt_shape k t ->
  pg_slots (vt_page t) !! pos k (x + d0) = Some 0 -> (N.to_nat d0 < fuel)%nat ->
  exists d, d <= d0 /\ next_free_loop fuel t x = inr (N.land (x + d) (N.ones k)) /\
    pg_slots (vt_page t) !! pos k (x + d) = Some 0 /\
    forall d', d' < d -> pg_slots (vt_page t) !! pos k (x + d') <> Some 0.
Proof.
  intros Hs. revert x d0. induction fuel as [|fuel IH]; intros x d0 Hz Hd; [lia|].
  simpl. rewrite (base_index_eq k) by done. simpl.
  destruct (fetch_node_eq k t x Hs) as (p&Hp&->). simpl.
  destruct (N.eqb_spec p 0) as [->|Hne].
  - exists 0. rewrite N.add_0_r. split_and!; [lia|done|done|]. intros; lia.
  - assert (d0 <> 0). { intros ->. rewrite N.add_0_r in Hz. congruence. }
    destruct (IH (x + 1) (d0 - 1)) as (d&Hle&Heq&Hz'&Hall).
    { by replace (x + 1 + (d0 - 1)) with (x + d0) by lia. } { lia. }
    exists (d + 1). replace (x + (d + 1)) with (x + 1 + d) by lia. split_and!; [lia|done|done|].
    intros d' Hd'. destruct (decide (d' = 0)) as [->|].
    + rewrite N.add_0_r. congruence.
    + replace (x + d') with (x + 1 + (d' - 1)) by lia. apply Hall. lia.
Qed.

Lemma next_free_slot_spec k t x : vt_shape k t -> (0 < zeros k (pg_slots (vt_page t)))%nat ->
  exists d, d < 2 ^ k /\ next_free_slot t x = inr (N.land (x + d) (N.ones k)) /\
    pg_slots (vt_page t) !! pos k (x + d) = Some 0 /\
    forall d', d' < d -> pg_slots (vt_page t) !! pos k (x + d') <> Some 0.
Proof.
  intros Hs Hz. destruct (zeros_pos_ex _ _ (proj2 (proj2 Hs)) Hz) as (i&Hi&Hi0).
  destruct (pos_surj k x i Hi) as (d0&Hd0&Hp). unfold next_free_slot.
  destruct (next_free_loop_spec k t (S (N.to_nat (vt_size t))) x d0 Hs) as (d&Hle&?&?&?).
  - by rewrite Hp.
  - rewrite (vt_size_shape k) by apply Hs. unfold tsize. lia.
  - exists d. split_and!; auto. lia.
Qed.

Lemma store_node_eq k t x p : vt_shape k t ->
  store_node t (N.land x (N.ones k)) p =
  inr (with_page (Page (pg_id (vt_page t)) (<[pos k x := p]> (pg_slots (vt_page t)))) t).
Proof.
  intros (Hm&Hk&Hl). unfold store_node. rewrite Hm.
  rewrite assertR_true by (apply N.leb_le, land_ones_le). simpl. rewrite land_ones_pos.
  pose proof (pos_lt k x). destruct (Nat.ltb_spec (pos k x) (length (pg_slots (vt_page t)))); [done|lia].
Qed.

(** inserting a new node where next_free_slot says keeps the table invariant *)
Lemma ptab_insert h k l S hc d p : ptab h k l S ->
  p <> 0 -> ~ S p -> hcode h p = Some hc -> d < 2 ^ k ->
  l !! pos k (hc + d) = Some 0 ->
  (forall d', d' < d -> l !! pos k (hc + d') <> Some 0) ->
  ptab h k (<[pos k (hc + d) := p]> l) (fun q => q = p \/ S q).
Proof.
  intros HT Hp HnS Hhc Hd Hz Hall. pose proof (pos_lt k (hc + d)) as Hpl.
  pose proof (pt_len _ _ _ _ HT) as Hlen.
  assert (Hnz : forall i, l !! i <> Some 0 -> <[pos k (hc + d) := p]> l !! i <> Some 0).
  { intros i Hi Hc. destruct (decide (i = pos k (hc + d))) as [->|Hne].
    - rewrite list_lookup_insert in Hc by lia. congruence.
    - rewrite list_lookup_insert_ne in Hc by done. done. }
  constructor.
  - by rewrite insert_length.
  - intros i q Hi Hq Hq0. destruct (decide (i = pos k (hc + d))) as [->|Hne].
    + rewrite list_lookup_insert in Hq by lia. left. congruence.
    + rewrite list_lookup_insert_ne in Hq by done. right. eapply pt_in; eauto.
  - intros q [->|Hq].
    + split; [done|]. exists (pos k (hc + d)). split; [done|]. apply list_lookup_insert. lia.
    + destruct (pt_all _ _ _ _ HT q Hq) as (Hq0&i&Hi&Hli). split; [done|]. exists i. split; [done|].
      rewrite list_lookup_insert_ne; [done|]. intros Heq; subst i. congruence.
  - intros i j q Hi Hj Hq Hqi Hqj.
    destruct (decide (i = pos k (hc + d))) as [->|Hnei], (decide (j = pos k (hc + d))) as [->|Hnej]; [done| | |].
    + rewrite list_lookup_insert in Hqi by lia. rewrite list_lookup_insert_ne in Hqj by done.
      exfalso. apply HnS. injection Hqi as <-. by apply (pt_in _ _ _ _ HT j).
    + rewrite list_lookup_insert in Hqj by lia. rewrite list_lookup_insert_ne in Hqi by done.
      exfalso. apply HnS. injection Hqj as <-. by apply (pt_in _ _ _ _ HT i).
    + rewrite list_lookup_insert_ne in Hqi, Hqj by done. eapply pt_inj; eauto.
  - intros i q Hi Hq Hq0. destruct (decide (i = pos k (hc + d))) as [->|Hne].
    + rewrite list_lookup_insert in Hq by lia. simplify_eq. exists hc, d. split_and!; auto.
    + rewrite list_lookup_insert_ne in Hq by done.
      destruct (pt_probe _ _ _ _ HT i q Hi Hq Hq0) as (hq&dq&Hhq&Hdq&->&Hpr).
      exists hq, dq. split_and!; auto.
Qed.

(** ** lookup *)
Lemma lookup_loop_spec h k t S fuel l r x d0 : vt_shape k t ->
  ptab h k (pg_slots (vt_page t)) S ->
  (forall p, S p -> exists n, h !! p = Some n) ->
  pg_slots (vt_page t) !! pos k (x + d0) = Some 0 -> (N.to_nat d0 < fuel)%nat ->
  exists p, lookup_loop fuel h t l r x = inr p /\
    ((p <> 0 /\ S p /\ exists n, h !! p = Some n /\ n_lo n = l /\ n_hi n = r) \/
     (p = 0 /\ exists d, d <= d0 /\ pg_slots (vt_page t) !! pos k (x + d) = Some 0 /\
        forall d' q, d' < d -> pg_slots (vt_page t) !! pos k (x + d') = Some q ->
           forall n, h !! q = Some n -> ~ (n_lo n = l /\ n_hi n = r))).
Proof.
  intros Hs HT HS. revert x d0. induction fuel as [|fuel IH]; intros x d0 Hz Hd; [lia|].
  simpl. rewrite (base_index_eq k) by done. simpl.
  destruct (fetch_node_eq k t x Hs) as (p&Hp&->). simpl.
  destruct (N.eqb_spec p 0) as [->|Hne].
  { exists 0. split; [done|]. right. split; [done|]. exists 0. rewrite N.add_0_r.
    split_and!; [lia|done|]. intros; lia. }
  assert (Sp : S p) by (eapply pt_in; eauto using pos_lt).
  destruct (HS p Sp) as [n Hn]. unfold derefR. rewrite Hn. simpl.
  destruct ((n_lo n =? l) && (n_hi n =? r)) eqn:Hk.
  { apply andb_true_iff in Hk as [?%N.eqb_eq ?%N.eqb_eq]. exists p. split; [done|]. left. eauto 10. }
  assert (d0 <> 0). { intros ->. rewrite N.add_0_r in Hz. congruence. }
  destruct (IH (x + 1) (d0 - 1)) as (p'&Heq&Hcase).
  { by replace (x + 1 + (d0 - 1)) with (x + d0) by lia. } { lia. }
  exists p'. split; [done|]. destruct Hcase as [?|(->&d&Hle&Hz'&Hall)]; [by left|right].
  split; [done|]. exists (d + 1). replace (x + (d + 1)) with (x + 1 + d) by lia. split_and!; [lia|done|].
  intros d' q Hd' Hq m Hm. destruct (decide (d' = 0)) as [->|].
  - rewrite N.add_0_r in Hq. simplify_eq. apply andb_false_iff in Hk as [?%N.eqb_neq|?%N.eqb_neq]; tauto.
  - eapply (Hall (d' - 1) q); [lia| |done]. by replace (x + 1 + (d' - 1)) with (x + d') by lia.
Qed.

Lemma lookup_spec h k t S l r hc : vt_shape k t ->
  ptab h k (pg_slots (vt_page t)) S -> (0 < zeros k (pg_slots (vt_page t)))%nat ->
  (forall p, S p -> exists n, h !! p = Some n) ->
  l <> r -> hkey h l r = Some hc ->
  exists p, unique_table_lookup h t l r = inr p /\
    ((p <> 0 /\ S p /\ exists n, h !! p = Some n /\ n_lo n = l /\ n_hi n = r) \/
     (p = 0 /\ forall q n, S q -> h !! q = Some n -> ~ (n_lo n = l /\ n_hi n = r))).
Proof.
  intros Hs HT Hz HS Hlr Hhc. unfold unique_table_lookup.
  rewrite assertR_true by (by apply negb_true_iff, N.eqb_neq). simpl.
  assert (Hh2 : hash_code2 h l r = inr hc).
  { unfold hkey in Hhc. unfold hash_code2, derefR. destruct (h !! l), (h !! r); simplify_eq. done. }
  rewrite Hh2. simpl.
  destruct (zeros_pos_ex _ _ (proj2 (proj2 Hs)) Hz) as (i&Hi&Hi0).
  destruct (pos_surj k hc i Hi) as (d0&Hd0&Hpd).
  destruct (lookup_loop_spec h k t S (Datatypes.S (N.to_nat (vt_size t))) l r hc d0 Hs HT HS) as (p&Heq&Hcase).
  { by rewrite Hpd. } { rewrite (vt_size_shape k) by apply Hs. unfold tsize. lia. }
  simpl in Heq. exists p. split; [done|]. destruct Hcase as [?|(->&d&Hle&Hzd&Hall)]; [by left|right].
  split; [done|]. intros q n Hq Hn [Hl Hr].
  destruct (pt_all _ _ _ _ HT q Hq) as (Hq0&j&Hj&Hlj).
  destruct (pt_probe _ _ _ _ HT j q Hj Hlj Hq0) as (hq&dq&Hhq&Hdq&->&Hpr).
  assert (hq = hc) as ->. { unfold hcode in Hhq. rewrite Hn, Hl, Hr in Hhq. congruence. }
  destruct (N.lt_trichotomy d dq) as [?|[->|?]].
  - apply (Hpr d); auto.
  - congruence.
  - eapply Hall; eauto.
Qed.

(** ** rehash: bdd_var.cpp:77-82 *)
Lemma rehash_spec h k old : forall t S,
  vt_shape k t -> ptab h k (pg_slots (vt_page t)) S ->
  (forall p, p ∈ old -> p <> 0 -> ~ S p /\ exists hc, hcode h p = Some hc) ->
  (forall i j p, p <> 0 -> old !! i = Some p -> old !! j = Some p -> i = j) ->
  (length (filter (fun p => p <> 0%N) old) < zeros k (pg_slots (vt_page t)))%nat ->
  exists l', rehash h old t = inr (with_page (Page (pg_id (vt_page t)) l') t) /\
    length l' = length (pg_slots (vt_page t)) /\
    ptab h k l' (fun q => S q \/ (q ∈ old /\ q <> 0)) /\
    (zeros k l' + length (filter (fun p => p <> 0%N) old) = zeros k (pg_slots (vt_page t)))%nat.
Proof.
  induction old as [|p old IH]; intros t S Hs HT Hnew Hinj Hz.
  { exists (pg_slots (vt_page t)). simpl. split_and!.
    - destruct t as [[]]; done.
    - done.
    - destruct HT as [? Hin Hall ? ?]; constructor; auto.
      + intros. left. eauto.
      + intros q [?|[Hq _]]; [auto|]. by apply elem_of_nil in Hq.
    - cbn. lia. }
  simpl. rewrite filter_cons in Hz |- *.
  assert (Hinj' : forall i j q, q <> 0 -> old !! i = Some q -> old !! j = Some q -> i = j).
  { intros i j q Hq Hi Hj. assert (Datatypes.S i = Datatypes.S j); [|lia]. eapply Hinj; eauto. }
  destruct (N.eqb_spec p 0) as [->|Hp].
  { rewrite decide_False in Hz |- * by tauto.
    destruct (IH t S Hs HT) as (l'&Hl'&Hlen&HT'&Hz'); auto.
    { intros q Hq. apply Hnew. by right. }
    exists l'. split_and!; auto. destruct HT' as [? Hin Hall ? ?]; constructor; auto.
    - intros i q ???. destruct (Hin i q) as [?|[??]]; auto. right. split; [by right|done].
    - intros q [?|[Hq ?]]; [auto|]. apply elem_of_cons in Hq as [->|Hq]; [done|]. auto. }
  rewrite decide_True in Hz |- * by done. simpl in Hz |- *.
  destruct (Hnew p) as (HnS&hc&Hhc); [by left|done|].
  assert (Hh : hash_code h p = inr hc).
  { unfold hcode, hkey in Hhc. unfold hash_code, hash_code2, derefR.
    destruct (h !! p) as [n|]; [|done]. simpl. destruct (h !! n_lo n), (h !! n_hi n); simplify_eq. done. }
  rewrite Hh. simpl. rewrite (base_index_eq k) by done. simpl.
  destruct (next_free_slot_spec k t (N.land hc (N.ones k)) Hs) as (d&Hd&Heq&Hz0&Hall); [lia|].
  rewrite Heq. simpl. rewrite (store_node_eq k) by done. simpl.
  (* positions from the reduced hash equal positions from the hash *)
  assert (Hpos : forall e, pos k (N.land hc (N.ones k) + e) = pos k (hc + e)).
  { intros e. unfold pos. rewrite N.land_ones, N.add_mod_idemp_l by (pose proof (pow_pos k); lia). done. }
  rewrite Hpos in *.
  assert (Hall' : forall d', d' < d -> pg_slots (vt_page t) !! pos k (hc + d') <> Some 0).
  { intros d' Hd'. rewrite <- Hpos. by apply Hall. }
  set (t1 := with_page (Page (pg_id (vt_page t)) (<[pos k (hc + d) := p]> (pg_slots (vt_page t)))) t).
  destruct (IH t1 (fun q => q = p \/ S q)) as (l'&Hl'&Hlen&HT'&Hz').
  - destruct Hs as (?&?&?). split_and!; auto. simpl. by rewrite insert_length.
  - simpl. apply ptab_insert; auto.
  - intros q Hq Hq0. destruct (Hnew q) as (HnSq&?); [by right|done|]. split; [|done].
    intros [->|?]; [|done]. apply elem_of_list_lookup in Hq as [j Hj].
    assert (0 = Datatypes.S j)%nat; [|lia]. eapply (Hinj _ _ p); eauto.
  - done.
  - simpl. pose proof (zeros_insert k (pg_slots (vt_page t)) (pos k (hc + d)) p (pos_lt _ _) Hz0 Hp). lia.
  - exists l'. split_and!.
    + rewrite Hl'. destruct t as [[]]; done.
    + rewrite Hlen. simpl. by rewrite insert_length.
    + destruct HT' as [? Hin Hall2 ? ?]; constructor; auto.
      * intros i q ???. destruct (Hin i q) as [[->|?]|[??]]; auto; right; (split; [|done]); [by left|by right].
      * intros q [?|[Hq ?]]; [auto|]. apply elem_of_cons in Hq as [->|Hq]; auto.
    + pose proof (zeros_insert k (pg_slots (vt_page t)) (pos k (hc + d)) p (pos_lt _ _) Hz0 Hp). simpl in Hz'. lia.
Qed.

Lemma ptab_empty h k n : (tsize k <= n)%nat -> ptab h k (repeat 0 n) (fun _ => False).
Proof.
  intros Hn. constructor.
  - by rewrite repeat_length.
  - intros i p _ Hp Hp0. apply repeat_lookup_0 in Hp. done.
  - done.
  - intros i j p _ _ Hp0 Hp. apply repeat_lookup_0 in Hp. done.
  - intros i p _ Hp Hp0. apply repeat_lookup_0 in Hp. done.
Qed.

Lemma ptab_proper h k l (S S' : ptr -> Prop) : (forall p, S p <-> S' p) -> ptab h k l S -> ptab h k l S'.
Proof.
  intros HS [? Hin Hall ? ?]; constructor; auto.
  - intros. apply HS. eauto.
  - intros p Hp. apply Hall. by apply HS.
Qed.

Lemma hcode_ext h h' p hc : hext h h' -> hcode h p = Some hc -> hcode h' p = Some hc.
Proof.
  intros He. unfold hcode. destruct (h !! p) as [n|] eqn:Hp; [|done].
  destruct (He _ _ Hp) as (n'&->&Hlo&Hhi&_). unfold hkey. rewrite <- Hlo, <- Hhi.
  destruct (h !! n_lo n) as [a|] eqn:Ha; [|done]. destruct (h !! n_hi n) as [b|] eqn:Hb; [|done].
  destruct (He _ _ Ha) as (a'&->&_&_&_&Hka&_). destruct (He _ _ Hb) as (b'&->&_&_&_&Hkb&_).
  by rewrite Hka, Hkb.
Qed.
Lemma ptab_ext h h' k l S : hext h h' -> ptab h k l S -> ptab h' k l S.
Proof.
  intros He [? ? ? ? Hpr]; constructor; auto. intros i p Hi Hp Hp0.
  destruct (Hpr i p Hi Hp Hp0) as (hc&d&?&?&?&?). exists hc, d. split_and!; auto. by eapply hcode_ext.
Qed.
End probe.
