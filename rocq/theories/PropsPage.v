(** * PropsPage.v -- every history of reserve_page / free_page and writes to pages in use (C70) *)
From Verif Require Export PageModel.
Open Scope N_scope.

Section spec.
Context {P : PEnv}.
(** the size classes: bdd_var.h:54-68 *)
Definition pclass (c : N) : Prop := exists k, 6 <= k <= 20 /\ c = 2 ^ k.
(** [phist K s H m]: a history using classes in [K] has led to state [s]; the pages in use and the
    words their users last wrote to them are [H]; at most [m] pages were ever in use at a time.
    A page may be given back to any class not larger than what was asked for, as var_struct does
    (bdd_var.cpp:37-58, 89-114). *)
Inductive phist (K : N -> Prop) : pst -> gmap N (list N) -> nat -> Prop :=
| ph_init : phist K p_init ∅ 0
| ph_take s H m c p s' : phist K s H m -> pclass c -> K c -> take_page c s = POk p s' ->
    phist K s' (<[p := replicate (N.to_nat c) 0]> H) (m `max` S (size H))
| ph_write s H m p ct i v : phist K s H m -> H !! p = Some ct -> (i < length ct)%nat ->
    phist K (write_cell p (N.of_nat i) v s) (<[p := <[i := v]> ct]> H) m
| ph_give s H m c p ct s' : phist K s H m -> pclass c -> K c -> H !! p = Some ct -> c <= N.of_nat (length ct) ->
    give_page c p s = POk tt s' -> phist K s' (delete p H) m.
(** the memory [a, a + 8 n) and [b, b + 8 k) *)
Definition apart (a n b k : N) : Prop := a + word * n <= b \/ b + word * k <= a.
End spec.

Section page.
Context {P : PEnv} (HP : penv_ok P).

Lemma pclass_mul c : pclass c -> 0 < c /\ c * nr_simul c = blk_words /\ 0 < nr_simul c.
Proof.
  intros (k&Hk&->). unfold nr_simul, blk_words. change 1048576 with (2 ^ 20).
  replace (2 ^ 20) with (2 ^ (20 - k) * 2 ^ k) by (rewrite <- N.pow_add_r; f_equal; lia).
  pose proof (N.pow_nonzero 2 k ltac:(lia)). pose proof (N.pow_nonzero 2 (20 - k) ltac:(lia)).
  rewrite N.div_mul by done. lia.
Qed.

Lemma zero_in n : forall a m i, (i < n)%nat -> zero_words n a m (a + word * N.of_nat i) = 0.
Proof.
  induction n as [|n IH]; intros a m i Hi; [lia|]. cbn [zero_words]. destruct i as [|i].
  - replace (a + word * N.of_nat 0) with a by lia. clear Hi IH. assert (Hm : set_word a 0 m a = 0) by (unfold set_word; by rewrite N.eqb_refl).
    revert Hm. generalize (set_word a 0 m). assert (Hlt : a < a + word) by (unfold word; lia). revert Hlt. generalize (a + word).
    induction n as [|n IH]; intros b Hb m0 Hm; cbn [zero_words]; [done|]. apply IH; [unfold word; lia|].
    unfold set_word. destruct (N.eqb_spec a b); [lia|done].
  - replace (a + word * N.of_nat (S i)) with (a + word + word * N.of_nat i) by lia. apply IH. lia.
Qed.
Lemma zero_out n : forall a m x, (forall i, (i < n)%nat -> x <> a + word * N.of_nat i) -> zero_words n a m x = m x.
Proof.
  induction n as [|n IH]; intros a m x Hx; [done|]. cbn [zero_words]. rewrite IH.
  - unfold set_word. destruct (N.eqb_spec x a) as [->|]; [|done]. destruct (Hx 0%nat); lia.
  - intros i Hi. specialize (Hx (S i)). lia.
Qed.
Lemma null_out n c : forall a m x, (forall i, (i < n)%nat -> x <> a + word * c * N.of_nat i) -> null_pages n a c m x = m x.
Proof.
  induction n as [|n IH]; intros a m x Hx; [done|]. cbn [null_pages]. rewrite IH.
  - unfold set_word. destruct (N.eqb_spec x a) as [->|]; [|done]. destruct (Hx 0%nat); lia.
  - intros i Hi. specialize (Hx (S i)). lia.
Qed.
Lemma null_in n c : 0 < c -> forall a m i, (i < n)%nat -> null_pages n a c m (a + word * c * N.of_nat i) = 0.
Proof.
  intros Hc. induction n as [|n IH]; intros a m i Hi; [lia|]. cbn [null_pages]. destruct i as [|i].
  - rewrite null_out. + replace (a + word * c * N.of_nat 0) with a by lia. unfold set_word. by rewrite N.eqb_refl.
    + intros j Hj. unfold word. lia.
  - replace (a + word * c * N.of_nat (S i)) with (a + word * c + word * c * N.of_nat i) by lia. apply IH. lia.
Qed.
Lemma link_out n c : forall a m x, (forall i, (i < n)%nat -> x <> a + word * c * N.of_nat i) -> link_pages n a c m x = m x.
Proof.
  induction n as [|n IH]; intros a m x Hx; [done|]. cbn [link_pages]. rewrite IH.
  - unfold set_word. destruct (N.eqb_spec x a) as [->|]; [|done]. destruct (Hx 0%nat); lia.
  - intros i Hi. specialize (Hx (S i)). lia.
Qed.
Lemma link_in n c : 0 < c -> forall a m i, (i < n)%nat -> link_pages n a c m (a + word * c * N.of_nat i) = a + word * c * N.of_nat (S i).
Proof.
  intros Hc. induction n as [|n IH]; intros a m i Hi; [lia|]. cbn [link_pages]. destruct i as [|i].
  - rewrite link_out.
    + replace (a + word * c * N.of_nat 0) with a by lia. unfold set_word. rewrite N.eqb_refl. lia.
    + intros j Hj. unfold word. lia.
  - replace (a + word * c * N.of_nat (S i)) with (a + word * c + word * c * N.of_nat i) by lia. rewrite IH by lia. lia.
Qed.

Inductive pchain (m : N -> N) : N -> list N -> Prop :=
| pc_nil : pchain m 0 []
| pc_cons p l : p <> 0 -> pchain m (m p) l -> pchain m p (p :: l).
Lemma pchain_ext m m' p l : pchain m p l -> (forall q, q ∈ l -> m' q = m q) -> pchain m' p l.
Proof.
  induction 1 as [|p l H0 Hc IH]; intros He; [constructor|]. constructor; [done|]. rewrite He by (by left). apply IH. intros q Hq. apply He. by right.
Qed.

(** the pieces of memory in play: in use ([None]) or free in a class *)
Definition ext (H : gmap N (list N)) (fr : N -> list N) (p len : N) (o : option N) : Prop :=
  match o with
  | None => exists ct, H !! p = Some ct /\ len = N.of_nat (length ct)
  | Some c => p ∈ fr c /\ len = c
  end.
Definition inblk (nb : nat) (p len : N) : Prop :=
  exists k, (k < nb)%nat /\ pe_blk k <= p /\ p + word * len <= pe_blk k + word * blk_words.

Record PI (K : N -> Prop) (s : pst) (H : gmap N (list N)) (m : nat) (fr : N -> list N) : Prop := {
  q_chain : forall c, pchain (p_mem s) (pavail c s) (fr c);
  q_nodup : forall c, NoDup (fr c);
  q_ext : forall p l o, ext H fr p l o -> p <> 0 /\ 0 < l /\ inblk (p_nblk s) p l;
  q_apart : forall p l o q k o', ext H fr p l o -> ext H fr q k o' -> p = q /\ o = o' \/ apart p l q k;
  q_cont : forall p ct i v, H !! p = Some ct -> ct !! i = Some v -> p_mem s (p + word * N.of_nat i) = v;
  q_count : forall c, pclass c -> (forall c', K c' -> c' = c) -> nr_pages c s = N.of_nat (size H + length (fr c)) /\
     nr_pages c s <= N.of_nat m + nr_simul c - 1;
  q_peak : (size H <= m)%nat
}.

Lemma inblk_mono n k p l : inblk n p l -> (n <= k)%nat -> inblk k p l.
Proof. intros (j&Hj&?&?) Hk. exists j. split_and!; auto. lia. Qed.
Lemma inblk_alloc s p l : inblk (p_nblk s) p l -> allocb s p l = true.
Proof.
  intros (k&Hk&Ha&Hb). apply existsb_exists. exists k. split; [apply in_seq; lia|].
  apply andb_true_iff. split; by apply N.leb_le.
Qed.

Lemma pi_init K : PI K p_init ∅ 0 (fun _ => []).
Proof.
  split; cbn [p_init p_mem p_nblk].
  - intros c. unfold pavail; cbn [p_init p_avail]. rewrite lookup_empty. constructor.
  - intros c. constructor.
  - intros p l [c|]; cbn [ext].
    + intros [H _]. by apply elem_of_nil in H.
    + intros (ct&H&_). by rewrite lookup_empty in H.
  - intros p l [c|] q k o'; cbn [ext].
    + intros [H _]. by apply elem_of_nil in H.
    + intros (ct&H&_). by rewrite lookup_empty in H.
  - intros p ct i v H. by rewrite lookup_empty in H.
  - intros c Hc _. unfold nr_pages, ppages; cbn [p_init p_pages]. rewrite lookup_empty, map_size_empty. cbn [default length]. lia.
  - done.
Qed.

Lemma pavail_set m nb av pg c c' x : pavail c (PSt m nb (<[c' := x]> av) pg) = if decide (c' = c) then x else default 0 (av !! c).
Proof. unfold pavail; cbn [p_avail]. case_decide; [subst; by rewrite lookup_insert|by rewrite lookup_insert_ne]. Qed.

Definition upd (fr : N -> list N) (c : N) (l : list N) : N -> list N := fun c' => if decide (c = c') then l else fr c'.

(** increase_cache *)
Lemma pi_increase K s H m fr c : PI K s H m fr -> pclass c -> pavail c s = 0 ->
  exists s1 l, increase_pages c s = POk tt s1 /\ l <> [] /\ p_nblk s1 = S (p_nblk s) /\
    (forall c', pchain (p_mem s1) (pavail c' s1) (upd fr c l c')) /\ NoDup l /\ pavail c s1 = default 0 (head l) /\
    (forall p k o, ext H (upd fr c l) p k o -> p <> 0 /\ 0 < k /\ inblk (p_nblk s1) p k) /\
    (forall p k o q j o', ext H (upd fr c l) p k o -> ext H (upd fr c l) q j o' -> p = q /\ o = o' \/ apart p k q j) /\
    (forall p ct i v, H !! p = Some ct -> ct !! i = Some v -> p_mem s1 (p + word * N.of_nat i) = v) /\
    N.of_nat (length l) = nr_simul c /\ ppages c s1 = ppages c s ++ [pe_blk (p_nblk s)] /\ fr c = [].
Proof.
  intros HI Hc Hav. destruct (pclass_mul c Hc) as (Hc0&Hcn&Hn0).
  assert (Hfrc : fr c = []). { pose proof (q_chain _ _ _ _ _ HI c) as Hch. rewrite Hav in Hch. by inversion Hch. }
  unfold increase_pages. rewrite Hav. cbn [N.eqb orb negb]. set (b := pe_blk (p_nblk s)). set (n := N.to_nat (nr_simul c)).
  assert (Hn : (0 < n)%nat) by (unfold n; lia).
  set (mem := link_pages (n - 1) b c (null_pages n b c (p_mem s))).
  set (l := map (fun i => b + word * c * N.of_nat i) (seq 0 n)).
  assert (Hb0 : b <> 0) by apply HP.
  assert (Hll : length l = n) by (unfold l; by rewrite map_length, seq_length).
  assert (Hlin : forall p, p ∈ l <-> exists i, (i < n)%nat /\ p = b + word * c * N.of_nat i).
  { intros p. unfold l. rewrite elem_of_list_fmap. split; [intros (i&->&Hi%elem_of_seq); exists i; split; [lia|done]|].
    intros (i&Hi&->). exists i. split; [done|]. apply elem_of_seq. lia. }
  assert (Hfit : forall i, (i < n)%nat -> word * c * N.of_nat i + word * c <= word * blk_words).
  { intros i Hi. assert (N.of_nat i + 1 <= nr_simul c) by (unfold n in Hi; lia). rewrite <- Hcn.
    transitivity (word * (c * (N.of_nat i + 1))); [lia|]. apply N.mul_le_mono_l, N.mul_le_mono_l. done. }
  assert (Hout : forall x, (x < b \/ b + word * blk_words <= x) -> mem x = p_mem s x).
  { intros x Hx. unfold mem. rewrite link_out, null_out; [done| |].
    - intros i Hi. specialize (Hfit i Hi). unfold word in *. lia.
    - intros i Hi. specialize (Hfit i ltac:(lia)). unfold word in *. lia. }
  assert (Hold : forall p k, inblk (p_nblk s) p k -> apart p k b blk_words).
  { intros p k (j&Hj&H1&H2). destruct HP as (_&Hd). unfold b, apart. destruct (Hd j (p_nblk s)); [lia|left|right]; lia. }
  assert (Hnx : forall i, (i < n)%nat -> mem (b + word * c * N.of_nat i) = if decide (S i = n) then 0 else b + word * c * N.of_nat (S i)).
  { intros i Hi. unfold mem. case_decide as Hin.
    - rewrite link_out; [by apply null_in|]. intros j Hj He. assert (word * c <> 0) by (unfold word; lia).
      assert (word * c * N.of_nat i = word * c * N.of_nat j) as He2 by lia. apply N.mul_cancel_l in He2; [lia|done].
    - rewrite link_in by lia. done. }
  assert (Hlch : pchain mem b l).
  { unfold l. assert (Hgen : forall k i, (i + k = n)%nat -> (0 < k)%nat -> pchain mem (b + word * c * N.of_nat i) (map (fun i => b + word * c * N.of_nat i) (seq i k))).
    { induction k as [|k IH]; intros i Hik Hk; [lia|]. cbn [seq map]. constructor; [lia|]. rewrite Hnx by lia. case_decide as Hin.
      - replace k with 0%nat by lia. constructor.
      - apply IH; lia. }
    specialize (Hgen n 0%nat). replace (b + word * c * N.of_nat 0) with b in Hgen by lia. apply Hgen; lia. }
  eexists _, l. split; [reflexivity|]. cbn [p_nblk p_mem].
  assert (Hext : forall p k o, ext H (upd fr c l) p k o -> (ext H fr p k o /\ inblk (p_nblk s) p k /\ p <> 0 /\ 0 < k) \/
    (o = Some c /\ k = c /\ exists i, (i < n)%nat /\ p = b + word * c * N.of_nat i)).
  { intros p k [c'|] He; cbn [ext] in He |- *.
    - unfold upd in He. destruct (decide (c = c')) as [<-|Hne].
      + right. destruct He as [He ->]. apply Hlin in He. auto.
      + left. split; [done|]. destruct (q_ext _ _ _ _ _ HI p k (Some c')) as (?&?&?); [done|]. done.
    - left. split; [done|]. destruct (q_ext _ _ _ _ _ HI p k None) as (?&?&?); [done|]. done. }
  split_and!.
  - intros ->. cbn in Hll. lia.
  - done.
  - intros c'. rewrite pavail_set. unfold upd. destruct (decide (c = c')) as [<-|Hne]; [done|].
    eapply pchain_ext; [apply (q_chain _ _ _ _ _ HI c')|]. intros q Hq. apply Hout.
    destruct (q_ext _ _ _ _ _ HI q c' (Some c')) as (_&H0&Hi); [done|]. destruct (Hold _ _ Hi); unfold word in *; [left; lia|right; lia].
  - unfold l. apply NoDup_fmap_2_strong; [|apply NoDup_seq]. intros x y _ _ He. assert (word * c <> 0) by (unfold word; lia).
    assert (word * c * N.of_nat x = word * c * N.of_nat y) as He2 by lia. apply N.mul_cancel_l in He2; [lia|done].
  - rewrite pavail_set, decide_True by done. unfold l. destruct n; [lia|]. cbn [seq map head default]. cbn. lia.
  - intros p k o He. destruct (Hext p k o He) as [(_&Hi&?&?)|(_&->&i&Hi&->)].
    + split_and!; auto. eapply inblk_mono; [done|lia].
    + split_and!; [lia|done|]. exists (p_nblk s). fold b. specialize (Hfit i Hi). split_and!; lia.
  - intros p k o q j o' He He'. destruct (Hext p k o He) as [(Ho&Hi&?&?)|(->&->&i&Hi&->)], (Hext q j o' He') as [(Ho'&Hi'&?&?)|(->&->&i'&Hi'&->)].
    + by apply (q_apart _ _ _ _ _ HI p k o q j o').
    + right. specialize (Hfit i' Hi'). destruct (Hold _ _ Hi); unfold apart in *; lia.
    + right. specialize (Hfit i Hi). destruct (Hold _ _ Hi'); unfold apart in *; lia.
    + destruct (decide (i = i')) as [->|Hne]; [by left|]. right. unfold apart. destruct (decide (i < i')%nat).
      * left. transitivity (b + word * c * (N.of_nat i + 1)); [lia|]. apply N.add_le_mono_l, N.mul_le_mono_l. lia.
      * right. transitivity (b + word * c * (N.of_nat i' + 1)); [lia|]. apply N.add_le_mono_l, N.mul_le_mono_l. lia.
  - intros p ct i v Hp Hi. rewrite Hout; [by eapply (q_cont _ _ _ _ _ HI)|].
    destruct (q_ext _ _ _ _ _ HI p (N.of_nat (length ct)) None) as (_&H0&Hin); [by exists ct|]. apply lookup_lt_Some in Hi.
    destruct (Hold _ _ Hin); unfold word in *; [left|right]; lia.
  - rewrite Hll. unfold n. lia.
  - unfold ppages; cbn [p_pages]. by rewrite lookup_insert.
  - done.
Qed.

Lemma nr_pages_eq c s s' : ppages c s' = ppages c s -> nr_pages c s' = nr_pages c s.
Proof. unfold nr_pages. by intros ->. Qed.

Lemma pi_increase2 K s H m fr c : PI K s H m fr -> pclass c -> K c -> pavail c s = 0 ->
  exists s1 fr1, increase_pages c s = POk tt s1 /\ pavail c s1 <> 0 /\ PI K s1 H (m `max` S (size H)) fr1 /\
    nr_pages c s1 = nr_pages c s + nr_simul c.
Proof.
  intros HI Hc HK Hav. destruct (pclass_mul c Hc) as (Hc0&Hcn&Hn0).
  destruct (pi_increase K s H m fr c HI Hc Hav) as (s1&l&Hs1&Hl&Hnb&Hch&Hnd&Hav1&Hext&Hap&Hct&Hlen&Hpg&Hfr).
  assert (Hnr : nr_pages c s1 = nr_pages c s + nr_simul c). { unfold nr_pages. rewrite Hpg, app_length. cbn [length]. lia. }
  exists s1, (upd fr c l). split_and!; [done| | |done].
  - specialize (Hch c). unfold upd in Hch. rewrite decide_True in Hch by done. destruct l as [|a l]; [done|]. inversion Hch; subst. congruence.
  - split; [done| |done|done|done| |].
    + intros c'. unfold upd. case_decide; [done|apply (q_nodup _ _ _ _ _ HI)].
    + intros c' Hc' HK'. assert (c = c') as <- by (by apply HK'). destruct (q_count _ _ _ _ _ HI c Hc HK') as [Hq1 Hq2].
      unfold upd. rewrite decide_True by done. rewrite Hnr, Hq1, Hfr. cbn [length]. lia.
    + pose proof (q_peak _ _ _ _ _ HI). lia.
Qed.

Lemma pi_pop K s H m fr c : PI K s H m fr -> pclass c -> K c -> pavail c s <> 0 ->
  exists p s' rest, take_page_fuel 1 c s = POk p s' /\ fr c = p :: rest /\ p = pavail c s /\
    PI K s' (<[p := replicate (N.to_nat c) 0]> H) (m `max` S (size H)) (upd fr c rest) /\ nr_pages c s' = nr_pages c s.
Proof.
  intros HI Hc HK Hav. destruct (pclass_mul c Hc) as (Hc0&Hcn&Hn0).
  pose proof (q_chain _ _ _ _ _ HI c) as Hch.
  assert (exists p rest, fr c = p :: rest /\ p = pavail c s /\ pchain (p_mem s) (p_mem s p) rest) as (p&rest&Hfr&Hp&Hrest).
  { inversion Hch as [|p l H0 Hc' Hpe]; [congruence|]. eexists _, _. split_and!; done. }
  assert (Hep : ext H fr p c (Some c)). { split; [rewrite Hfr; by left|done]. }
  destruct (q_ext _ _ _ _ _ HI _ _ _ Hep) as (Hp0&_&Hin).
  exists p. cbn [take_page_fuel]. rewrite <- Hp. assert (p =? 0 = false) as -> by (by apply N.eqb_neq). cbn [negb].
  rewrite (inblk_alloc s p c Hin). eexists _, rest. split; [reflexivity|]. split; [done|]. split; [done|].
  pose proof (q_nodup _ _ _ _ _ HI c) as Hnd. rewrite Hfr in Hnd. apply NoDup_cons in Hnd as [Hpr Hnd].
  assert (Hext : forall q k o, ext (<[p := replicate (N.to_nat c) 0]> H) (upd fr c rest) q k o ->
     (o = None /\ q = p /\ k = c) \/ ext H fr q k o /\ (o <> Some c \/ q <> p)).
  { intros q k [c'|]; cbn [ext].
    - unfold upd. destruct (decide (c = c')) as [<-|Hne]; intros [Hq ->]; right.
      + split; [split; [rewrite Hfr; by right|done]|]. right. by intros ->.
      + split; [done|]. left. congruence.
    - intros (ct&Hct&->). destruct (decide (p = q)) as [<-|Hne].
      + rewrite lookup_insert in Hct. injection Hct as <-. left. rewrite replicate_length. split_and!; [done|done|lia].
      + rewrite lookup_insert_ne in Hct by done. right. split; [by exists ct|]. by left. }
  assert (Happ : forall q k o, ext H fr q k o -> (o <> Some c \/ q <> p) -> apart p c q k).
  { intros q k o He Ho. destruct (q_apart _ _ _ _ _ HI p c (Some c) q k o Hep He) as [[-> <-]|?]; [|done]. by destruct Ho. }
  assert (Hmem : forall q k o x, ext H fr q k o -> (o <> Some c \/ q <> p) -> q <= x < q + word * k ->
     zero_words (N.to_nat c) p (p_mem s) x = p_mem s x).
  { intros q k o x He Ho Hx. apply zero_out. intros i Hi. destruct (Happ _ _ _ He Ho); unfold word in *; lia. }
  split; [|by apply nr_pages_eq].
  split; cbn [p_mem p_nblk].
  - intros c'. rewrite pavail_set. unfold upd. destruct (decide (c = c')) as [<-|Hne].
    + eapply pchain_ext; [exact Hrest|]. intros q Hq. apply (Hmem q c (Some c)); [|right; by intros ->|unfold word; lia].
      split; [rewrite Hfr; by right|done].
    + eapply pchain_ext; [apply (q_chain _ _ _ _ _ HI c')|]. intros q Hq. assert (Heq : ext H fr q c' (Some c')) by done.
      destruct (q_ext _ _ _ _ _ HI _ _ _ Heq) as (_&?&_). apply (Hmem q c' (Some c')); [done|left; congruence|unfold word; lia].
  - intros c'. unfold upd. case_decide; [done|apply (q_nodup _ _ _ _ _ HI)].
  - intros q k o [(->&->&->)|[He _]]%Hext; [done|]. by apply (q_ext _ _ _ _ _ HI q k o).
  - intros q k o r j o' [(->&->&->)|[He Hne]]%Hext [(->&->&->)|[He' Hne']]%Hext.
    + by left.
    + right. by eapply Happ.
    + right. destruct (Happ _ _ _ He Hne); unfold apart; tauto.
    + by apply (q_apart _ _ _ _ _ HI q k o r j o').
  - intros q ct i v Hq Hi. destruct (decide (p = q)) as [<-|Hne].
    + rewrite lookup_insert in Hq. injection Hq as <-. apply lookup_replicate in Hi as [-> Hi]. by apply zero_in.
    + rewrite lookup_insert_ne in Hq by done. rewrite (Hmem q (N.of_nat (length ct)) None).
      * by eapply (q_cont _ _ _ _ _ HI).
      * by exists ct.
      * by left.
      * apply lookup_lt_Some in Hi. unfold word. lia.
  - intros c' Hc' HK'. assert (c = c') as <- by (by apply HK'). destruct (q_count _ _ _ _ _ HI c Hc HK') as [Hq1 Hq2].
    assert (HpH : H !! p = None).
    { apply eq_None_not_Some. intros [ct Hct]. assert (He : ext H fr p (N.of_nat (length ct)) None) by (by exists ct).
      destruct (q_ext _ _ _ _ _ HI _ _ _ He) as (_&?&_).
      destruct (Happ _ _ _ He ltac:(by left)); unfold word in *; lia. }
    match goal with |- context [nr_pages c ?x] => assert (nr_pages c x = nr_pages c s) as -> by (by apply nr_pages_eq) end.
    unfold upd. rewrite decide_True by done. rewrite map_size_insert_None by done. rewrite Hq1, Hfr in *. cbn [length] in *. lia.
  - rewrite map_size_insert. pose proof (q_peak _ _ _ _ _ HI). destruct (H !! p); cbn; lia.
Qed.

Lemma take_succ n c s : pavail c s <> 0 -> take_page_fuel (S n) c s = take_page_fuel 1 c s.
Proof. intros Ha. cbn [take_page_fuel]. assert (pavail c s =? 0 = false) as -> by (by apply N.eqb_neq). done. Qed.

Lemma pi_take K s H m fr c : PI K s H m fr -> pclass c -> K c ->
  exists p s' fr', take_page c s = POk p s' /\ PI K s' (<[p := replicate (N.to_nat c) 0]> H) (m `max` S (size H)) fr' /\ H !! p = None /\
    nr_pages c s' = nr_pages c s + (if decide (pavail c s = 0) then nr_simul c else 0) /\
    (pavail c s <> 0 -> p = pavail c s).
Proof.
  intros HI Hc HK.
  assert (HpH : forall s m fr p rest, PI K s H m fr -> fr c = p :: rest -> H !! p = None).
  { clear s m fr HI. intros s m fr p rest HI Hfr. apply eq_None_not_Some. intros [ct Hct]. assert (He : ext H fr p (N.of_nat (length ct)) None) by (by exists ct).
    assert (Hep : ext H fr p c (Some c)). { split; [rewrite Hfr; by left|done]. }
    destruct (q_ext _ _ _ _ _ HI _ _ _ He) as (_&?&_). destruct (q_ext _ _ _ _ _ HI _ _ _ Hep) as (_&?&_).
    destruct (q_apart _ _ _ _ _ HI _ _ _ _ _ _ Hep He) as [[_ ?]|[?|?]]; [done|unfold word in *; lia|unfold word in *; lia]. }
  unfold take_page. destruct (decide (pavail c s = 0)) as [Hz|Hnz].
  - destruct (pi_increase2 K s H m fr c HI Hc HK Hz) as (s1&fr1&Hs1&Hav1&HI1&Hnr).
    destruct (pi_pop K s1 H _ fr1 c HI1 Hc HK Hav1) as (p&s'&rest&Ht&Hfr&_&HI'&Hnr').
    exists p, s', (upd fr1 c rest). split_and!; [|by replace (m `max` S (size H))%nat with ((m `max` S (size H)) `max` S (size H))%nat by lia|by eapply HpH|by rewrite Hnr'|done].
    cbn [take_page_fuel]. rewrite Hz. cbn [N.eqb negb]. rewrite Hs1. by cbn [take_page_fuel] in Ht.
  - destruct (pi_pop K s H m fr c HI Hc HK Hnz) as (p&s'&rest&Ht&Hfr&Hp&HI'&Hnr).
    exists p, s', (upd fr c rest). split_and!; [by rewrite take_succ|done|by eapply HpH|rewrite Hnr; lia|done].
Qed.

Lemma pi_write K s H m fr p ct i v : PI K s H m fr -> H !! p = Some ct -> (i < length ct)%nat ->
  PI K (write_cell p (N.of_nat i) v s) (<[p := <[i := v]> ct]> H) m fr.
Proof.
  intros HI Hp Hi. assert (Hep : ext H fr p (N.of_nat (length ct)) None) by (by exists ct).
  assert (Hext : forall q k o, ext (<[p := <[i := v]> ct]> H) fr q k o -> ext H fr q k o).
  { intros q k [c|]; cbn [ext]; [done|]. intros (ct'&Hct&->). destruct (decide (p = q)) as [<-|Hne].
    - rewrite lookup_insert in Hct. injection Hct as <-. exists ct. by rewrite insert_length.
    - rewrite lookup_insert_ne in Hct by done. by exists ct'. }
  assert (Hmem : forall q k o x, ext H fr q k o -> (o <> None \/ q <> p) -> q <= x < q + word * k ->
     set_word (p + word * N.of_nat i) v (p_mem s) x = p_mem s x).
  { intros q k o x He Ho Hx. unfold set_word. destruct (N.eqb_spec x (p + word * N.of_nat i)) as [->|]; [|done].
    destruct (q_apart _ _ _ _ _ HI _ _ _ _ _ _ Hep He) as [[-> <-]|Ha]; [by destruct Ho|]. destruct Ha; unfold word in *; lia. }
  unfold write_cell. split; cbn [p_mem p_nblk].
  - intros c. eapply pchain_ext; [apply (q_chain _ _ _ _ _ HI c)|]. intros q Hq. assert (He : ext H fr q c (Some c)) by done.
    destruct (q_ext _ _ _ _ _ HI _ _ _ He) as (_&?&_). apply (Hmem q c (Some c)); [done|by left|unfold word; lia].
  - apply (q_nodup _ _ _ _ _ HI).
  - intros q k o He%Hext. by apply (q_ext _ _ _ _ _ HI q k o).
  - intros q k o r j o' He%Hext He'%Hext. by apply (q_apart _ _ _ _ _ HI q k o r j o').
  - intros q ct' j u Hq Hj. destruct (decide (p = q)) as [<-|Hne].
    + rewrite lookup_insert in Hq. injection Hq as <-. destruct (decide (i = j)) as [<-|Hij].
      * rewrite list_lookup_insert in Hj by done. injection Hj as <-. unfold set_word. by rewrite N.eqb_refl.
      * rewrite list_lookup_insert_ne in Hj by done. unfold set_word. destruct (N.eqb_spec (p + word * N.of_nat j) (p + word * N.of_nat i)) as [He|].
        { unfold word in He. lia. } by eapply (q_cont _ _ _ _ _ HI).
    + rewrite lookup_insert_ne in Hq by done. rewrite (Hmem q (N.of_nat (length ct')) None).
      * by eapply (q_cont _ _ _ _ _ HI).
      * by exists ct'.
      * right. congruence.
      * apply lookup_lt_Some in Hj. unfold word. lia.
  - intros c Hc HK. rewrite map_size_insert_Some by (by eexists). apply (q_count _ _ _ _ _ HI c Hc HK).
  - rewrite map_size_insert_Some by (by eexists). apply (q_peak _ _ _ _ _ HI).
Qed.

Lemma pi_give K s H m fr c p ct : PI K s H m fr -> pclass c -> K c -> H !! p = Some ct -> c <= N.of_nat (length ct) ->
  exists s', give_page c p s = POk tt s' /\ pavail c s' = p /\ PI K s' (delete p H) m (upd fr c (p :: fr c)) /\ forall c', nr_pages c' s' = nr_pages c' s.
Proof.
  intros HI Hc HK Hp Hlen. destruct (pclass_mul c Hc) as (Hc0&_&_).
  assert (Hep : ext H fr p (N.of_nat (length ct)) None) by (by exists ct).
  destruct (q_ext _ _ _ _ _ HI _ _ _ Hep) as (Hp0&_&(k0&Hk0&Hb1&Hb2)).
  assert (Hin : forall l, l <= N.of_nat (length ct) -> inblk (p_nblk s) p l). { intros l Hl. exists k0. unfold word in *. split_and!; lia. }
  unfold give_page. rewrite (inblk_alloc s p 1) by (apply Hin; lia). eexists. split; [reflexivity|].
  assert (Happ : forall q k o, ext H fr q k o -> (o <> None \/ q <> p) -> apart p (N.of_nat (length ct)) q k).
  { intros q k o He Ho. destruct (q_apart _ _ _ _ _ HI _ _ _ _ _ _ Hep He) as [[-> <-]|?]; [|done]. by destruct Ho. }
  assert (Hpf : forall c', p ∉ fr c').
  { intros c' Hf. assert (He : ext H fr p c' (Some c')) by done. destruct (q_ext _ _ _ _ _ HI _ _ _ He) as (_&?&_).
    destruct (Happ _ _ _ He ltac:(by left)); unfold word in *; lia. }
  assert (Hext : forall q k o, ext (delete p H) (upd fr c (p :: fr c)) q k o ->
     (o = Some c /\ q = p /\ k = c) \/ ext H fr q k o /\ (o <> None \/ q <> p)).
  { intros q k [c'|]; cbn [ext].
    - unfold upd. destruct (decide (c = c')) as [<-|Hne]; intros [Hq ->].
      + apply elem_of_cons in Hq as [->|Hq]; [by left|]. right. split; [done|]. by left.
      + right. split; [done|]. by left.
    - intros (ct'&Hct&->). apply lookup_delete_Some in Hct as [Hne Hct]. right. split; [by exists ct'|]. right. congruence. }
  assert (Hmem : forall q k o x, ext H fr q k o -> (o <> None \/ q <> p) -> q <= x < q + word * k -> forall v,
     set_word p v (p_mem s) x = p_mem s x).
  { intros q k o x He Ho Hx v. unfold set_word. destruct (N.eqb_spec x p) as [->|]; [|done].
    destruct (Happ _ _ _ He Ho); unfold word in *; lia. }
  split; [rewrite pavail_set; by rewrite decide_True|]. split; [|done].
  split; cbn [p_mem p_nblk].
  - intros c'. rewrite pavail_set. unfold upd.
    assert (Hch : pchain (set_word p (pavail c s) (p_mem s)) (pavail c' s) (fr c')).
    { eapply pchain_ext; [apply (q_chain _ _ _ _ _ HI c')|]. intros q Hq. assert (He : ext H fr q c' (Some c')) by done.
      destruct (q_ext _ _ _ _ _ HI _ _ _ He) as (_&?&_). apply (Hmem q c' (Some c')); [done|by left|unfold word; lia]. }
    destruct (decide (c = c')) as [<-|Hne]; [|done]. constructor; [done|]. unfold set_word at 2. by rewrite N.eqb_refl.
  - intros c'. unfold upd. case_decide; [|apply (q_nodup _ _ _ _ _ HI)]. constructor; [apply Hpf|apply (q_nodup _ _ _ _ _ HI)].
  - intros q k o [(->&->&->)|[He _]]%Hext; [split_and!; auto|]. by apply (q_ext _ _ _ _ _ HI q k o).
  - intros q k o r j o' [(->&->&->)|[He Hne]]%Hext [(->&->&->)|[He' Hne']]%Hext.
    + by left.
    + right. destruct (Happ _ _ _ He' Hne'); unfold apart, word in *; lia.
    + right. destruct (Happ _ _ _ He Hne); unfold apart, word in *; lia.
    + by apply (q_apart _ _ _ _ _ HI q k o r j o').
  - intros q ct' j u Hq Hj. apply lookup_delete_Some in Hq as [Hne Hq]. rewrite (Hmem q (N.of_nat (length ct')) None).
    * by eapply (q_cont _ _ _ _ _ HI).
    * by exists ct'.
    * right. congruence.
    * apply lookup_lt_Some in Hj. unfold word. lia.
  - intros c' Hc' HK'. assert (c = c') as <- by (by apply HK'). destruct (q_count _ _ _ _ _ HI c Hc HK') as [Hq1 Hq2].
    match goal with |- context [nr_pages c ?x] => assert (nr_pages c x = nr_pages c s) as -> by (by apply nr_pages_eq) end.
    split; [|done]. rewrite Hq1. unfold upd. rewrite decide_True by done. rewrite map_size_delete, Hp. cbn [length].
    assert (size H <> 0)%nat; [|lia]. intros H0. apply map_size_empty_inv in H0. subst H. by rewrite lookup_empty in Hp.
  - rewrite map_size_delete. pose proof (q_peak _ _ _ _ _ HI). destruct (H !! p); cbn; lia.
Qed.

Lemma phist_pi K s H m : phist K s H m -> exists fr, PI K s H m fr.
Proof.
  induction 1 as [|s H m c p s' _ [fr IH] Hc HK Ht|s H m p ct i v _ [fr IH] Hp Hi|s H m c p ct s' _ [fr IH] Hc HK Hp Hl Hg].
  - eexists. apply pi_init.
  - destruct (pi_take K s H m fr c IH Hc HK) as (p'&s2&fr'&Ht'&HI&_). assert (p' = p /\ s2 = s') as [-> ->] by (split; congruence). by exists fr'.
  - exists fr. by apply pi_write.
  - destruct (pi_give K s H m fr c p ct IH Hc HK Hp Hl) as (s2&Hg'&_&HI&_). assert (s2 = s') as -> by congruence. eauto.
Qed.

(** reserve_page always succeeds with memory that overlaps no page in use and lies inside one
    allocated block *)
Theorem C70_reserve K s H m c : phist K s H m -> pclass c -> K c ->
  exists p s', take_page c s = POk p s' /\ p <> 0 /\
    (exists k, (k < p_nblk s')%nat /\ pe_blk k <= p /\ p + word * c <= pe_blk k + word * blk_words) /\
    forall q ct, H !! q = Some ct -> apart p c q (N.of_nat (length ct)).
Proof.
  intros [fr HI]%phist_pi Hc HK. destruct (pi_take K s H m fr c HI Hc HK) as (p&s'&fr'&Ht&HI'&HpH&_). exists p, s'. split; [done|].
  assert (He : ext (<[p := replicate (N.to_nat c) 0]> H) fr' p c None). { eexists. rewrite lookup_insert. split; [done|]. rewrite replicate_length. lia. }
  destruct (q_ext _ _ _ _ _ HI' _ _ _ He) as (Hp0&_&Hin). split_and!; [done|done|]. intros q ct Hq.
  assert (p <> q) by congruence.
  assert (He' : ext (<[p := replicate (N.to_nat c) 0]> H) fr' q (N.of_nat (length ct)) None). { exists ct. by rewrite lookup_insert_ne. }
  destruct (q_apart _ _ _ _ _ HI' _ _ _ _ _ _ He He') as [[? _]|?]; [done|done].
Qed.
(** the words of a page in use are what its user last wrote, and 0 at first *)
Theorem C70_contents K s H m p ct i v : phist K s H m -> H !! p = Some ct -> ct !! i = Some v -> p_mem s (p + word * N.of_nat i) = v.
Proof. intros [fr HI]%phist_pi. apply (q_cont _ _ _ _ _ HI). Qed.
(** free_page succeeds, and reserve_page on the same class returns this page again *)
Theorem C70_free K s H m c p ct : phist K s H m -> pclass c -> K c -> H !! p = Some ct -> c <= N.of_nat (length ct) ->
  exists s', give_page c p s = POk tt s' /\ exists s'', take_page c s' = POk p s''.
Proof.
  intros [fr HI]%phist_pi Hc HK Hp Hl. destruct (pi_give K s H m fr c p ct HI Hc HK Hp Hl) as (s'&Hg&Hav&HI'&_). exists s'. split; [done|].
  destruct (q_ext _ _ _ _ _ HI p (N.of_nat (length ct)) None) as (Hp0&_); [by exists ct|].
  destruct (pi_take K s' _ m _ c HI' Hc HK) as (p'&s2&fr'&Ht&_&_&_&Hpp). rewrite Hav in Hpp. rewrite (Hpp Hp0) in Ht. eauto.
Qed.
(** memory use: if all pages are taken from and given back to one class, nr_pages() is at least
    the number of pages in use and less than the largest number ever in use plus one batch *)
Theorem C70_nr_pages c s H m : pclass c -> phist (eq c) s H m ->
  N.of_nat (size H) <= nr_pages c s /\ nr_pages c s < N.of_nat m + nr_simul c.
Proof.
  intros Hc [fr HI]%phist_pi. destruct (pclass_mul c Hc) as (_&_&Hn). destruct (q_count _ _ _ _ _ HI c Hc) as [H1 H2]; [by intros c' ->|]. lia.
Qed.
End page.
