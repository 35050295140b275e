(** * CollAnd2.v -- bdd_collection::bdd_and: storing the result *)
From Verif Require Export CollAnd World.
Open Scope N_scope.

Lemma crep_ht ins i t : crep ins i t -> (ht t + N.to_nat i < length ins)%nat.
Proof.
  induction 1 as [i x b Hi Hb|i x tl th Hi Hne Hv Hl Hh Hrl IHl Hrh IHh]; simpl.
  - apply lookup_lt_Some in Hi. lia.
  - lia.
Qed.

(** ** the stack is injective, hence reduced *)
Lemma srep_inj stk red t : SInv stk red -> forall i j, srep stk i t -> srep stk j t -> i = j.
Proof.
  intros HS. induction t as [b|v l IHl h IHh]; intros i j H1 H2.
  - destruct b; inversion H1; inversion H2; subst; done.
  - inversion H1 as [| |i' x tl th Hi Hx Hl Hh Hne Hv Hrl Hrh]; subst. inversion H2 as [| |j' y tl' th' Hj Hy Hl' Hh' Hne' Hv' Hrl' Hrh']; subst.
    destruct x as [xl xh xv], y as [yl yh yv]; simpl in *. rewrite (IHl _ _ Hrl Hrl') in *. rewrite (IHh _ _ Hrh Hrh') in *. subst yv.
    assert (H : red !! (yl, yh, xv) = Some i) by (apply (si_red _ _ HS); auto).
    assert (H' : red !! (yl, yh, xv) = Some j) by (apply (si_red _ _ HS); auto). congruence.
Qed.
Lemma srep_redt stk red i t : SInv stk red -> srep stk i t -> redt t.
Proof.
  intros HS. induction 1 as [| |i x tl th Hi Hx Hl Hh Hne Hv Hrl IHl Hrh IHh]; simpl; [done|done|]. split_and!; auto.
  intros ->. apply Hne. by eapply srep_inj.
Qed.

Section flush.
Context (ins : list instr) (stk : list instr) (red : gmap (N * N * N) N) (HS : SInv stk red).
Notation off := (N.of_nat (length ins)).
Notation n := (N.of_nat (length stk)).
Context (Hsm : off + n < 2 ^ 63).
Notation P i := (off + n - 1 - i).
Notation out := (ins ++ flush off stk).
Lemma flush_len : length (flush off stk) = length stk.
Proof. unfold flush. by rewrite map_length, reverse_length. Qed.
Lemma flush_at i x : i < n -> ix stk i = Some x ->
  ix out (P i) = Some (Instr (sub64 (sub64 (add64 off n) (i_lo x)) 1) (sub64 (sub64 (add64 off n) (i_hi x)) 1) (i_idx x)).
Proof.
  intros Hi Hx. rewrite lookup_app_r by lia. unfold flush. rewrite list_lookup_fmap.
  replace (N.to_nat (P i) - length ins)%nat with (length stk - S (N.to_nat i))%nat by lia.
  rewrite reverse_lookup by lia. replace (length stk - S (length stk - S (N.to_nat i)))%nat with (N.to_nat i) by lia.
  by rewrite Hx.
Qed.
Lemma flush_node i x : 2 <= i < n -> ix stk i = Some x -> ix out (P i) = Some (Instr (P (i_lo x)) (P (i_hi x)) (i_idx x)).
Proof.
  intros Hi Hx. rewrite (flush_at i x) by (done || lia). destruct (si_node _ _ HS i x) as (?&?&_); [lia|done|].
  assert (two64 = 2 ^ 63 * 2) by done.
  rewrite add64_small by lia. rewrite !(sub64_small (off + n)) by lia. rewrite !sub64_small by lia. do 2 f_equal; lia.
Qed.
Lemma flush_term (b : bool) : exists x, ix out (P (if b then 1 else 0)) = Some x /\ cterm b x.
Proof.
  pose proof (si_len _ _ HS).
  destruct b; (eexists; split; [eapply flush_at; [lia|apply HS]|]); done.
Qed.
Lemma flush_crep i t : srep stk i t -> crep out (P i) t.
Proof.
  pose proof (si_len _ _ HS).
  induction 1 as [| |i x tl th Hi Hx Hl Hh Hne Hv Hrl IHl Hrh IHh].
  - destruct (flush_term false) as (x&Hx&Ht). by eapply crep_leaf.
  - destruct (flush_term true) as (x&Hx&Ht). by eapply crep_leaf.
  - assert (Hin : i < n) by (apply lookup_lt_Some in Hx; lia).
    pose proof (flush_node i x ltac:(lia) Hx) as Hy.
    apply (crep_node _ _ (Instr (P (i_lo x)) (P (i_hi x)) (i_idx x))); simpl; try done; lia.
Qed.
Lemma flush_seg : 3 <= n -> (forall k, 2 <= k < n - 1 -> exists j x, k < j /\ ix stk j = Some x /\ (i_lo x = k \/ i_hi x = k)) ->
  seg out off (N.of_nat (length ins + length (flush off stk))) /\ sup out off (N.of_nat (length ins + length (flush off stk))).
Proof.
  intros Hn Hup. rewrite flush_len.
  assert (Hsn : forall i x, off <= i < off + n - 2 -> ix out i = Some x -> exists y, ix stk (P i) = Some y /\
     i_lo y < P i /\ i_hi y < P i /\ i_lo y <> i_hi y /\ i_idx y < cbot /\ x = Instr (P (i_lo y)) (P (i_hi y)) (i_idx y)).
  { intros i x Hi Hx. destruct (lookup_lt_is_Some_2 stk (N.to_nat (P i))) as [y Hy]; [lia|]. exists y.
    pose proof (flush_node (P i) y ltac:(lia) Hy) as H. replace (P (P i)) with i in H by lia. rewrite Hx in H. injection H as ->.
    destruct (si_node _ _ HS (P i) y) as (?&?&?&?); [lia|done|]. done. }
  assert (Hb : N.of_nat (length ins + length stk) = off + n) by lia. rewrite Hb.
  split; [split|].
  - lia.
  - rewrite app_length, flush_len. lia.
  - destruct (flush_term true) as (x&Hx&Tx). destruct (flush_term false) as (y&Hy&Ty).
    exists true, x, y. split_and!; auto; [rewrite <- Hx|rewrite <- Hy]; f_equal; lia.
  - intros i x Hi Hx. destruct (Hsn i x Hi Hx) as (y&Hy&?&?&?&?&->). simpl. split_and!; try done; lia.
  - intros i j x Hi Hj Hx Hx'. destruct (Hsn i x Hi Hx) as (y&Hy&?&?&?&?&E1). destruct (Hsn j x Hj Hx') as (z&Hz&?&?&?&?&E2).
    rewrite E1 in E2. injection E2 as El Eh Ev. destruct y as [yl yh yv], z as [zl zh zv]; simpl in *.
    assert (yl = zl) as -> by lia. assert (yh = zh) as -> by lia. subst zv.
    assert (G : red !! (zl, zh, yv) = Some (P i)) by (apply (si_red _ _ HS); split; [lia|done]).
    assert (G' : red !! (zl, zh, yv) = Some (P j)) by (apply (si_red _ _ HS); split; [lia|done]).
    rewrite G in G'. injection G'. lia.
  - intros i Hi. destruct (Hup (P i)) as (j&x&Hj&Hx&Hor); [lia|].
    assert (Hjn : j < n) by (apply lookup_lt_Some in Hx; lia).
    exists (P j), (Instr (P (i_lo x)) (P (i_hi x)) (i_idx x)). split; [lia|]. split; [apply flush_node; [lia|done]|]. simpl.
    destruct Hor as [->| ->]; [left|right]; lia.
Qed.
End flush.

Section cand2.
Context {E : Env}.

(** what bdd_and delivers for the operands [ts] *)
Definition AndOut (c : coll) (ts : list bdd) (l : list instr) : Prop :=
  CInv (Coll (c_ins c ++ l) (c_del c ++ [N.of_nat (length (c_ins c ++ l))])) /\
  exists t, crep (c_ins c ++ l) (N.of_nat (length (c_ins c))) t /\ (forall r, evalt t r = conjf ts r) /\
    (forall lb, Forall (ordt lb) ts -> ordt lb t) /\ (forall v, occurs v t -> Exists (occurs v) ts) /\
    exists x y, l !! (length l - 2)%nat = Some x /\ l !! (length l - 1)%nat = Some y /\ cterm true x /\ cterm false y /\
    sup (c_ins c ++ l) (N.of_nat (length (c_ins c))) (N.of_nat (length (c_ins c) + length l)).

Lemma and_finish_spec c limit ts r st : CInv c -> N.of_nat (length (c_ins c)) + N.of_nat (length (st_stack st)) < 2 ^ 63 ->
  CPost c limit ts st_init r st -> r <> size_max -> 2 <= r ->
  let l := flush (N.of_nat (length (c_ins c))) (st_stack st) in
  and_finish c (r, st) = inr (nr_bdds c, Coll (c_ins c ++ l) (c_del c ++ [N.of_nat (length (c_ins c ++ l))])) /\
  AndOut c ts l /\ length l = length (st_stack st).
Proof.
  intros HI Hsm HP Hr H2 l. pose proof (cp_S _ _ _ _ _ _ HP) as HS.
  destruct (cp_t _ _ _ _ _ _ HP) as (t&Hrep&Hev&_&Hord&Hocc).
  pose proof (srep_lt _ _ _ (si_len _ _ HS) Hrep) as Hlt.
  destruct (cp_last _ _ _ _ _ _ HP) as [Hst|Hlast]; [rewrite Hst in Hlt; simpl in Hlt; lia|].
  assert (seg (c_ins c ++ l) (N.of_nat (length (c_ins c))) (N.of_nat (length (c_ins c) + length l)) /\ sup (c_ins c ++ l) (N.of_nat (length (c_ins c))) (N.of_nat (length (c_ins c) + length l))) as [Hseg Hsup].
  { eapply flush_seg; [exact HS|done|lia|]. intros k Hk. apply (cp_up _ _ _ _ _ _ HP); [simpl; lia|lia]. }
  pose proof (CInv_app _ _ HI Hseg) as HI'.
  assert (Hlen : length l = length (st_stack st)) by apply flush_len.
  split_and!; [|split|done].
  - unfold and_finish. rewrite (proj2 (N.eqb_neq _ _) Hr), assertR_true by (apply N.ltb_lt; lia). cbn [bindR].
    rewrite (back_del_len _ HI). fold l. rewrite assertRR_true; [done|].
    apply is_bdd_true; [done|unfold nr_bdds; simpl; rewrite app_length; pose proof (nr_bdds_len _ HI); simpl; lia|].
    intros a b [_ Hb]. simpl in Hb. pose proof (nr_bdds_len _ HI).
    rewrite lookup_app_r in Hb by lia. replace (N.to_nat (nr_bdds c + 1) - length (c_del c))%nat with 0%nat in Hb by lia.
    simpl in Hb. injection Hb as <-. rewrite app_length. assert (two64 = 2 ^ 63 * 2) by done. lia.
  - done.
  - exists t. split_and!.
    + pose proof (flush_crep (c_ins c) _ _ HS Hsm _ _ Hrep) as Hc.
      replace (N.of_nat (length (c_ins c)) + N.of_nat (length (st_stack st)) - 1 - r) with (N.of_nat (length (c_ins c))) in Hc by lia. done.
    + done.
    + done.
    + done.
    + destruct (flush_term (c_ins c) _ _ HS Hsm true) as (x&Hx&Tx). destruct (flush_term (c_ins c) _ _ HS Hsm false) as (y&Hy&Ty).
      fold l in Hx, Hy. cbv iota in Hx, Hy. pose proof (si_len _ _ HS).
      exists x, y. split_and!; auto.
      * rewrite lookup_app_r in Hx by lia. rewrite <- Hx. f_equal. lia.
      * rewrite lookup_app_r in Hy by lia. rewrite <- Hy. f_equal. lia.
Qed.

(** the operands are roots of stored BDDs *)
Definition roots (c : coll) (bs : list N) (ts : list bdd) : Prop :=
  Forall2 (fun b t => exists a, ix (c_del c) b = Some a /\ crep (c_ins c) a t) bs ts.
Lemma roots_ex c bs : CInv c -> Forall (fun b => b < nr_bdds c) bs -> exists ts, roots c bs ts.
Proof.
  intros HI. induction 1 as [|b bs Hb _ [ts IH]]; [exists []; constructor|].
  destruct (cseg_ex _ _ HI Hb) as (a&b'&Hs). pose proof (ci_seg _ HI _ _ _ Hs) as Hg.
  destruct (seg_crep _ _ _ Hg a) as [t Ht]; [pose proof (sg_ab _ _ _ Hg); lia|].
  exists (t :: ts). constructor; [|done]. exists a. split; [apply Hs|done].
Qed.
Lemma roots_red c bs ts : CInv c -> Forall (fun b => b < nr_bdds c) bs -> roots c bs ts -> Forall (fun t => redt t /\ ~ allt t) ts.
Proof.
  intros HI HF Hr. induction Hr as [|b t bs ts (a&Ha&Ht) _ IH]; [constructor|]. inversion HF; subst. constructor; [|auto].
  destruct (cseg_ex _ _ HI ltac:(eassumption)) as (a'&b'&Hs). assert (a' = a) as -> by (destruct Hs; congruence).
  pose proof (ci_seg _ HI _ _ _ Hs) as Hg. assert (Hred : redt t) by (eapply seg_redt; [exact Hg| |done]; pose proof (sg_ab _ _ _ Hg); lia).
  split; [done|]. intros Ha'. apply allt_red in Ha'; [|done]. destruct (seg_root _ _ _ Hg) as (v&l&h&Hv). pose proof (crep_fun _ _ _ _ Ht Hv). congruence.
Qed.
Lemma dels_eq c bs ts : roots c bs ts -> exists l, dels c bs = inr l /\ Forall2 (crep (c_ins c)) l ts.
Proof.
  induction 1 as [|b t bs ts (a&Ha&Ht) _ (l&IH&Hl)]; [by exists []|]. exists (a :: l). simpl. rewrite (del_at_eq _ _ _ Ha), IH.
  split; [done|by constructor].
Qed.
Lemma sumht_le (c : coll) l ts : Forall2 (crep (c_ins c)) l ts -> (sumht ts <= length l * length (c_ins c))%nat.
Proof. induction 1 as [|i t l ts Hi _ IH]; simpl; [lia|]. apply crep_ht in Hi. lia. Qed.

(** one call of either variant, up to the final bookkeeping *)
Definition and_run (c : coll) (bs : list N) (L : N) : R (N * cst) :=
  match bs with
  | [i; j] => letR* a := del_at c i in letR* b := del_at c j in bdd_and_impl2 (S (2 * length (c_ins c))) c a b L st_init
  | _ => letR* l := dels c bs in bdd_and_implN (S (length bs * length (c_ins c))) c l L st_init
  end.
Lemma GInv_init c : GInv c st_init.
Proof. intros ks m ts H. simpl in H. by rewrite lookup_empty in H. Qed.
Lemma and_run_spec c bs ts L : roots c bs ts -> 2 <= L -> L < 2 ^ 62 -> CRes c L ts st_init (and_run c bs L).
Proof.
  intros Hr H2 HL.
  assert (HN : CRes c L ts st_init (letR* l := dels c bs in bdd_and_implN (S (length bs * length (c_ins c))) c l L st_init)).
  { destruct (dels_eq _ _ _ Hr) as (l&->&Hl). cbn [bindR]. apply implN_spec; auto; [apply SInv_init|apply GInv_init|].
    pose proof (sumht_le _ _ _ Hl). apply Forall2_length in Hr, Hl. rewrite Hr, <- Hl. lia. }
  unfold and_run. destruct bs as [|i [|j [|k bs]]]; try done. clear HN.
  inversion Hr as [|? ti ? ts' (a&Ha&Ht) Hr']; subst. inversion Hr' as [|? tj ? ts'' (b&Hb&Ht') Hr'']; subst. inversion Hr''; subst.
  rewrite (del_at_eq _ _ _ Ha), (del_at_eq _ _ _ Hb). cbn [bindR]. apply impl2_spec; auto; [apply SInv_init|apply GInv_init|].
  apply crep_ht in Ht, Ht'. lia.
Qed.
Lemma and_run_limit c bs L L' r st : and_run c bs L = inr (r, st) -> r <> size_max -> N.of_nat (length (st_stack st)) <= L' ->
  and_run c bs L' = inr (r, st).
Proof.
  assert (HN : (letR* l := dels c bs in bdd_and_implN (S (length bs * length (c_ins c))) c l L st_init) = inr (r, st) -> r <> size_max -> N.of_nat (length (st_stack st)) <= L' ->
    (letR* l := dels c bs in bdd_and_implN (S (length bs * length (c_ins c))) c l L' st_init) = inr (r, st)).
  { destruct (dels c bs); cbn [bindR]; [done|]. apply implN_limit. }
  unfold and_run. destruct bs as [|i [|j [|k bs]]]; try exact HN.
  destruct (del_at c i); cbn [bindR]; [done|]. destruct (del_at c j); cbn [bindR]; [done|]. apply impl2_limit.
Qed.
Lemma and_range_run c bs L : CInv c -> Forall (fun b => b < nr_bdds c) bs -> (2 <= length bs <= 49)%nat -> 2 < L ->
  bdd_and_range c bs L = letR* r := and_run c bs L in and_finish c r.
Proof.
  intros HI HF Hlen HL.
  assert (HN : (3 <= length bs)%nat -> bdd_andN c bs L = letR* r := letR* l := dels c bs in bdd_and_implN (S (length bs * length (c_ins c))) c l L st_init in and_finish c r).
  { intros _. unfold bdd_andN. rewrite assertR_true; [|apply forallb_forall; intros b Hb; apply N.ltb_lt; rewrite Forall_forall in HF; apply HF; by apply elem_of_list_In].
    cbn [bindR]. rewrite assertR_true by (by apply N.ltb_lt). cbn [bindR]. by destruct (dels c bs). }
  unfold bdd_and_range, and_run. destruct bs as [|i [|j [|k bs]]]; simpl in Hlen; [lia|lia| |].
  - unfold bdd_and2. inversion HF as [|? ? Hi HF']; subst. inversion HF' as [|? ? Hj _]; subst.
    rewrite !assertR_true by (by apply N.ltb_lt). cbn [bindR]. destruct (del_at c i); cbn [bindR]; [done|]. by destruct (del_at c j).
  - rewrite (proj2 (Nat.leb_le _ _)) by (simpl; lia). apply HN. simpl. lia.
Qed.

(** the operands' conjunction is satisfiable: not the terminals *)
Lemma and_run_root c bs ts L r st : CInv c -> Forall (fun b => b < nr_bdds c) bs -> bs <> [] -> roots c bs ts ->
  CPost c L ts st_init r st -> r <> 1 /\ ((exists x, conjf ts x = true) -> 2 <= r).
Proof.
  intros HI HF Hne Hr HP. destruct (cp_t _ _ _ _ _ _ HP) as (t&Hrep&Hev&H1&_).
  assert (Hr1 : r <> 1).
  { intros ->. specialize (H1 eq_refl). pose proof (roots_red _ _ _ HI HF Hr) as Hrd. destruct Hr as [|b t0 bs ts Hb Hr]; [done|].
    inversion H1; inversion Hrd; subst. tauto. }
  split; [done|]. intros [x Hx]. destruct (decide (r = 0)) as [->|]; [|lia]. apply srep_zero in Hrep. subst. by rewrite <- Hev in Hx.
Qed.

(** ** bdd_and over a range of 2..49 stored BDDs *)
Lemma cand_range_spec c bs ts L : CInv c -> N.of_nat (length (c_ins c)) < 2 ^ 62 -> Forall (fun b => b < nr_bdds c) bs -> (2 <= length bs <= 49)%nat -> roots c bs ts ->
  2 < L < 2 ^ 62 -> (exists x, conjf ts x = true) ->
  bdd_and_range c bs L = inr (size_max, c) \/
  exists l, bdd_and_range c bs L = inr (nr_bdds c, Coll (c_ins c ++ l) (c_del c ++ [N.of_nat (length (c_ins c ++ l))])) /\ AndOut c ts l /\
    N.of_nat (length l) <= L /\ forall L', N.of_nat (length l) <= L' -> 2 < L' -> bdd_and_range c bs L' = bdd_and_range c bs L.
Proof.
  intros HI Hsm HF Hlen Hr HL Hsat. rewrite and_range_run by (done || lia).
  destruct (and_run_spec c bs ts L Hr ltac:(lia) ltac:(lia)) as (r&st&Hrun&Hor). rewrite Hrun. cbn [bindR].
  destruct Hor as [->|[Hne HP]]; [by left|right].
  destruct (and_run_root _ _ _ _ _ _ HI HF ltac:(by intros ->; simpl in *; lia) Hr HP) as [_ H2]. specialize (H2 Hsat).
  pose proof (cp_lim _ _ _ _ _ _ HP) as Hlim.
  destruct (and_finish_spec c L ts r st HI ltac:(lia) HP Hne H2) as (Hf&Hout&Hl).
  eexists. split; [exact Hf|]. split; [exact Hout|]. rewrite Hl. split; [done|]. intros L' HL' H2'.
  rewrite and_range_run by done. by rewrite (and_run_limit _ _ _ _ _ _ Hrun Hne HL').
Qed.
(** whatever the limit: a result that fits in memory is the one found with any sufficient limit *)
Lemma and_range_any c bs ts L k c' : CInv c -> N.of_nat (length (c_ins c')) < 2 ^ 62 -> Forall (fun b => b < nr_bdds c) bs -> (2 <= length bs <= 49)%nat -> roots c bs ts ->
  2 < L -> (exists x, conjf ts x = true) -> bdd_and_range c bs L = inr (k, c') ->
  k = size_max /\ c' = c \/
  exists l, k = nr_bdds c /\ c' = Coll (c_ins c ++ l) (c_del c ++ [N.of_nat (length (c_ins c ++ l))]) /\ AndOut c ts l /\ 
    N.of_nat (length l) <= L /\
    (forall L', N.of_nat (length l) <= L' -> 2 < L' -> bdd_and_range c bs L' = inr (k, c')) /\
    (forall L', 2 < L' < N.of_nat (length l) -> bdd_and_range c bs L' = inr (size_max, c)).
Proof.
  intros HI Hsm HF Hlen Hr HL Hsat Heq.
  rewrite and_range_run in Heq by done. destruct (and_run c bs L) as [|[r st]] eqn:Hrun; [done|]. cbn [bindR] in Heq.
  destruct (decide (r = size_max)) as [->|Hne]; [left; unfold and_finish in Heq; rewrite N.eqb_refl in Heq; by injection Heq as <- <-|right].
  assert (Hc' : k = nr_bdds c /\ c' = Coll (c_ins c ++ flush (back_del c) (st_stack st)) (c_del c ++ [N.of_nat (length (c_ins c ++ flush (back_del c) (st_stack st)))])).
  { unfold and_finish in Heq. rewrite (proj2 (N.eqb_neq _ _) Hne) in Heq. destruct (assertR _); [done|]. cbn [bindR] in Heq. destruct (assertRR _); [done|]. cbn [bindR] in Heq. by injection Heq as <- <-. }
  destruct Hc' as [-> Hc']. rewrite (back_del_len _ HI) in Hc'.
  assert (Hlenf : length (flush (N.of_nat (length (c_ins c))) (st_stack st)) = length (st_stack st)) by apply flush_len.
  rewrite Hc' in Hsm. simpl in Hsm. rewrite app_length, Hlenf in Hsm.
  set (L0 := 2 ^ 62 - 1).
  assert (Hrun0 : and_run c bs L0 = inr (r, st)) by (eapply and_run_limit; [done|done|unfold L0; lia]).
  destruct (and_run_spec c bs ts L0 Hr ltac:(done) ltac:(done)) as (r'&st'&Hrun'&Hor). rewrite Hrun0 in Hrun'. injection Hrun' as <- <-.
  destruct Hor as [|[_ HP]]; [done|].
  destruct (and_run_root _ _ _ _ _ _ HI HF ltac:(by intros ->; simpl in *; lia) Hr HP) as [_ H2]. specialize (H2 Hsat).
  destruct (and_finish_spec c L0 ts r st HI ltac:(lia) HP Hne H2) as (Hf&Hout&Hl).
  set (l := flush (N.of_nat (length (c_ins c))) (st_stack st)) in *.
  exists l. split_and!; auto.
  - rewrite Hl. destruct (decide (N.of_nat (length (st_stack st)) <= L)) as [|Hgt]; [done|].
    destruct (and_run_spec c bs ts L Hr ltac:(lia) ltac:(lia)) as (r'&st'&Hrun'&Hor). rewrite Hrun in Hrun'. injection Hrun' as <- <-.
    destruct Hor as [|[_ HP']]; [done|]. apply HP'.
  - intros L' HL' H2'. rewrite and_range_run by done. rewrite Hl in HL'. rewrite (and_run_limit _ _ _ _ _ _ Hrun Hne HL'). cbn [bindR]. by rewrite Hf, Hc'.
  - intros L' HL'. rewrite and_range_run by (done || lia).
    destruct (and_run_spec c bs ts L' Hr ltac:(lia) ltac:(lia)) as (r'&st'&Hrun'&Hor). rewrite Hrun'. cbn [bindR].
    destruct Hor as [->|[Hne' HP']]; [done|]. exfalso.
    assert (Hx : and_run c bs L0 = inr (r', st')) by (eapply and_run_limit; [done|done|pose proof (cp_lim _ _ _ _ _ _ HP'); unfold L0; lia]).
    rewrite Hrun0 in Hx. injection Hx as <- <-. pose proof (cp_lim _ _ _ _ _ _ HP'). lia.
Qed.

(** ** an unsatisfiable conjunction of ordered BDDs: no node is ever created *)
Lemma conj_cof_unsat v b ts : Forall (rootge v) ts -> Forall (ordt 0) ts -> (forall x, conjf ts x = false) ->
  forall x, conjf (map (cof v b) ts) x = false.
Proof.
  intros Hge Ho Hun x.
  assert (H1 : conjf (map (cof v b) ts) (upd x v b) = conjf (map (cof v b) ts) x).
  { clear Hun. induction ts as [|t ts IH]; [done|]. inversion Hge; inversion Ho; subst. unfold conjf in *. simpl. rewrite IH by done. f_equal.
    eapply (evalt_upd_lt _ (v + 1)); [|lia]. apply cof_ordt. by eapply rootge_ordt. }
  rewrite <- H1. specialize (Hun (upd x v b)). rewrite (conjf_cof v), upd_same in Hun. by destruct b.
Qed.
Lemma cof_ord0 v b ts : Forall (ordt 0) ts -> Forall (ordt 0) (map (cof v b) ts).
Proof.
  intros Ho. apply Forall_fmap. eapply Forall_impl; [exact Ho|]. intros t Ht. simpl. destruct t as [|w l h]; [done|]. simpl in *.
  destruct (v =? w); [|done]. destruct Ht as (_&?&?). destruct b; by eapply (ordt_weaken _ (w + 1)); [lia|].
Qed.
Lemma impl2_unsat c fuel : forall fi gi tf tg L st, st_gen st = ∅ -> crep (c_ins c) fi tf -> crep (c_ins c) gi tg ->
  Forall (ordt 0) [tf; tg] -> (forall x, conjf [tf; tg] x = false) -> (ht tf + ht tg < fuel)%nat ->
  bdd_and_impl2 fuel c fi gi L st = inr (0, st).
Proof.
  induction fuel as [|fuel IH]; intros fi gi tf tg L st Hg0 Hf Hg Ho Hun Hfu; [lia|]. cbn [bdd_and_impl2]. rewrite Hg0, lookup_empty.
  destruct (crep_root _ _ _ Hf) as (x&Hx&Hxr). destruct (crep_root _ _ _ Hg) as (y&Hy&Hyr).
  rewrite (vecR_eq _ _ _ Hx), (vecR_eq _ _ _ Hy). cbn [bindR].
  assert (Hgo : forall v, v = N.min (i_idx x) (i_idx y) -> v < cbot -> rootis v tf \/ rootis v tg -> rootge v tf -> rootge v tg ->
    (letR* (lo, st) := bdd_and_impl2 fuel c (if v =? i_idx x then i_lo x else fi) (if v =? i_idx y then i_lo y else gi) L st in
        if lo =? size_max then inr (size_max, st) else
        letR* (hi, st) := bdd_and_impl2 fuel c (if v =? i_idx x then i_hi x else fi) (if v =? i_idx y then i_hi y else gi) L st in
        if hi =? size_max then inr (size_max, st) else inr (meld [fi; gi] lo hi v L st)) = inr (0, st)).
  { intros v Hv Hvb Hri Hgf Hgg.
    assert (Hex : Exists (rootis v) [tf; tg]) by (destruct Hri; [by left|right; by left]).
    assert (Hge : Forall (rootge v) [tf; tg]) by (by repeat constructor).
    pose proof (crep_cof c v false _ _ _ Hf Hx Hvb) as Hf0. pose proof (crep_cof c v false _ _ _ Hg Hy Hvb) as Hg0'.
    pose proof (crep_cof c v true _ _ _ Hf Hx Hvb) as Hf1. pose proof (crep_cof c v true _ _ _ Hg Hy Hvb) as Hg1.
    pose proof (sumht_cof v false _ Hex) as Ht0. pose proof (sumht_cof v true _ Hex) as Ht1. simpl in Ht0, Ht1.
    rewrite (IH _ _ _ _ L st Hg0 Hf0 Hg0' (cof_ord0 v false _ Ho) (conj_cof_unsat v false _ Hge Ho Hun)) by lia. cbn [bindR]. cbn.
    by rewrite (IH _ _ _ _ L st Hg0 Hf1 Hg1 (cof_ord0 v true _ Ho) (conj_cof_unsat v true _ Hge Ho Hun)) by lia. }
  destruct tf as [bf|vf lf hf], tg as [bg|vg lg hg]; simpl in Hxr, Hyr.
  - destruct Hxr as (->&->&Hxb&_). destruct Hyr as (->&->&Hyb&_). cbn [andb negb]. specialize (Hun (fun _ => false)). unfold conjf in Hun. simpl in Hun.
    rewrite andb_true_r in Hun. by rewrite Hun.
  - destruct Hxr as (->&Hxt&->&Hxi). destruct Hyr as (->&Hyt&Hyb&Hyi&Hv). cbn [andb negb].
    destruct bf; cbn [andb negb]; [|done].
    apply Hgo; [done| |right| |]; rewrite ?Hxi, ?Hyi; unfold ctop, cbot in *; simpl; lia.
  - destruct Hxr as (->&Hxt&Hxb&Hxi&Hv). destruct Hyr as (->&Hyt&Hyb&Hyi). cbn [andb negb].
    apply Hgo; [done| |left| |]; rewrite ?Hxi, ?Hyi; unfold ctop, cbot in *; simpl; destruct bg; lia.
  - destruct Hxr as (->&Hxt&Hxb&Hxi&Hv). destruct Hyr as (->&Hyt&Hyb&Hyi&Hv'). cbn [andb negb].
    apply Hgo; [done|lia| | |]; rewrite ?Hxi, ?Hyi; simpl; lia.
Qed.
Lemma implN_unsat c fuel : forall ks ts L st, st_gen st = ∅ -> Forall2 (crep (c_ins c)) ks ts ->
  Forall (ordt 0) ts -> (forall x, conjf ts x = false) -> (sumht ts < fuel)%nat ->
  bdd_and_implN fuel c ks L st = inr (0, st).
Proof.
  induction fuel as [|fuel IH]; intros ks ts L st Hg0 Hk Ho Hun Hfu; [lia|]. cbn [bdd_and_implN]. rewrite Hg0, lookup_empty.
  destruct (vecsR_spec c _ _ Hk) as (fs&->&Hfs). cbn [bindR].
  destruct (implN_head c ks ts fs Hk Hfs) as [(_&Hall)|[(->&->&_)|(->&->&Hvb&Hex&Hge)]].
  { exfalso. specialize (Hun (fun _ => false)). rewrite <- not_true_iff_false in Hun. apply Hun. unfold conjf. apply forallb_forall.
    intros t Ht. rewrite Forall_forall in Hall. by rewrite (Hall t) by (by apply elem_of_list_In). }
  { done. }
  set (v := foldr N.min size_max (map i_idx fs)) in *.
  pose proof (zip_cof c v false _ _ _ Hvb Hk Hfs) as Hz0. pose proof (zip_cof c v true _ _ _ Hvb Hk Hfs) as Hz1. cbv iota in Hz0, Hz1.
  pose proof (sumht_cof v false _ Hex) as Ht0. pose proof (sumht_cof v true _ Hex) as Ht1.
  rewrite (IH _ _ L st Hg0 Hz0 (cof_ord0 v false _ Ho) (conj_cof_unsat v false _ Hge Ho Hun)) by lia. cbn [bindR]. cbn.
  by rewrite (IH _ _ L st Hg0 Hz1 (cof_ord0 v true _ Ho) (conj_cof_unsat v true _ Hge Ho Hun)) by lia.
Qed.
Lemma and_run_unsat c bs ts L : roots c bs ts -> Forall (ordt 0) ts -> (forall x, conjf ts x = false) ->
  and_run c bs L = inr (0, st_init).
Proof.
  intros Hr Ho Hun.
  assert (HN : (letR* l := dels c bs in bdd_and_implN (S (length bs * length (c_ins c))) c l L st_init) = inr (0, st_init)).
  { destruct (dels_eq _ _ _ Hr) as (l&->&Hl). cbn [bindR]. eapply implN_unsat; eauto.
    pose proof (sumht_le _ _ _ Hl). apply Forall2_length in Hr, Hl. rewrite Hr, <- Hl. lia. }
  unfold and_run. destruct bs as [|i [|j [|k bs]]]; try done. clear HN.
  inversion Hr as [|? ti ? ts' (a&Ha&Ht) Hr']; subst. inversion Hr' as [|? tj ? ts'' (b&Hb&Ht') Hr'']; subst. inversion Hr''; subst.
  rewrite (del_at_eq _ _ _ Ha), (del_at_eq _ _ _ Hb). cbn [bindR]. eapply impl2_unsat; eauto. apply crep_ht in Ht, Ht'. lia.
Qed.
(** with asserts the call aborts; without, two entries are stored, the true terminal first *)
Lemma and_range_unsat c bs ts L : CInv c -> N.of_nat (length (c_ins c)) < 2 ^ 62 -> Forall (fun b => b < nr_bdds c) bs -> (2 <= length bs <= 49)%nat -> roots c bs ts ->
  2 < L -> Forall (ordt 0) ts -> (forall x, conjf ts x = false) ->
  if e_ndebug then exists x y, bdd_and_range c bs L = inr (nr_bdds c, Coll (c_ins c ++ [x; y]) (c_del c ++ [N.of_nat (length (c_ins c) + 2)])) /\
      cterm true x /\ cterm false y
  else bdd_and_range c bs L = inl EAssert.
Proof.
  intros HI Hsm HF Hlen Hr HL Ho Hun. rewrite and_range_run by done. rewrite (and_run_unsat _ _ _ L Hr Ho Hun). cbn [bindR].
  unfold and_finish. cbn [N.eqb st_init st_stack length]. unfold assertR, assertRR. destruct e_ndebug; [|done]. cbn [orb bindR].
  rewrite (back_del_len _ HI). unfold flush. cbn [reverse rev_append map length]. cbn. eexists _, _. split.
  - do 3 f_equal. rewrite app_length. simpl. done.
  - done.
Qed.

(** ** evaluate of a stored BDD *)
Lemma c_eval_spec c x i t : crep (c_ins c) i t -> forall fuel, (ht t < fuel)%nat ->
  match evp t x with Some b => c_eval_fuel fuel c i x = inr b | None => exists e, c_eval_fuel fuel c i x = inl e end.
Proof.
  induction 1 as [i y b Hi Hb|i y tl th Hi Hne Hv Hl Hh Hrl IHl Hrh IHh]; intros [|fuel] Hf; try (simpl in Hf; lia);
    cbn [c_eval_fuel evp]; rewrite (vecR_eq _ _ _ Hi); cbn [bindR].
  - destruct (cterm_instr _ _ Hb) as (_&->&->). by destruct b.
  - destruct (cnode_instr _ Hne Hv) as (_&->&->). unfold assertR. simpl in Hf.
    destruct (x !! N.to_nat (i_idx y)) as [bx|] eqn:Hx.
    + assert (i_idx y <? N.of_nat (length x) = true) as ->. { apply N.ltb_lt. apply lookup_lt_Some in Hx. lia. }
      cbn [orb bindR]. destruct bx; [apply IHh; lia|apply IHl; lia].
    + assert (i_idx y <? N.of_nat (length x) = false) as ->. { apply N.ltb_ge. apply lookup_ge_None in Hx. lia. }
      destruct e_ndebug; cbn [orb bindR]; eauto.
Qed.
Lemma c_evaluate_spec c nr a t x : CInv c -> nr < nr_bdds c -> ix (c_del c) nr = Some a -> crep (c_ins c) a t ->
  match evp t x with Some b => c_evaluate c nr x = inr b | None => exists e, c_evaluate c nr x = inl e end.
Proof.
  intros HI Hnr Ha Ht. unfold c_evaluate. rewrite assertR_true by (by apply N.ltb_lt). cbn [bindR]. rewrite (del_at_eq _ _ _ Ha). cbn [bindR].
  apply c_eval_spec; [done|]. apply crep_ht in Ht. lia.
Qed.
End cand2.
