(** * Coll.v -- stored BDDs of a collection as trees *)
From Verif Require Export Rebase.
Open Scope N_scope.


Inductive crep (ins : list instr) : N -> bdd -> Prop :=
| crep_leaf i x b : ix ins i = Some x -> cterm b x -> crep ins i (Leaf b)
| crep_node i x tl th : ix ins i = Some x -> i_lo x <> i_hi x -> i_idx x < cbot -> i < i_lo x -> i < i_hi x ->
    crep ins (i_lo x) tl -> crep ins (i_hi x) th -> crep ins i (Br (i_idx x) tl th).

Lemma cterm_fun b b' x : cterm b x -> cterm b' x -> b = b'.
Proof. intros [_ H] [_ H']. rewrite H in H'. by destruct b, b'. Qed.
Lemma crep_fun ins i t t' : crep ins i t -> crep ins i t' -> t = t'.
Proof.
  intros H; revert t'; induction H as [i x b Hi Hb|i x tl th Hi Hne Hv Hl Hh _ IHl _ IHh]; intros t' H'; inversion H'; simplify_eq.
  - f_equal. by eapply cterm_fun.
  - by destruct Hb.
  - by select (cterm _ _) (fun H => destruct H).
  - f_equal; auto.
Qed.
Lemma crep_ext ins l i t : crep ins i t -> crep (ins ++ l) i t.
Proof. induction 1; econstructor; eauto; by apply lookup_app_l_Some. Qed.
Lemma crep_lt ins i t : crep ins i t -> i < N.of_nat (length ins).
Proof. intros H. assert (is_Some (ix ins i)) as Hs%lookup_lt_is_Some_1 by (inversion H; eauto). lia. Qed.
Lemma cterm_instr b x : cterm b x -> ci_is_term x = true /\ ci_is_top x = b /\ ci_is_bot x = negb b.
Proof.
  intros [H1 H2]. unfold ci_is_term, ci_is_top, ci_is_bot. rewrite H1, H2, N.eqb_refl. by destruct b.
Qed.
Lemma cnode_instr x : i_lo x <> i_hi x -> i_idx x < cbot -> ci_is_term x = false /\ ci_is_top x = false /\ ci_is_bot x = false.
Proof.
  unfold ci_is_term, ci_is_top, ci_is_bot, cbot, ctop. intros H1 H2. split_and!; apply N.eqb_neq; [done|lia|lia].
Qed.

(** ** one stored BDD: the cells [a, b) *)
Section seg.
Context (ins : list instr) (a b : N) (Hseg : seg ins a b).
Lemma seg_ix i : i < b -> exists x, ix ins i = Some x.
Proof. intros Hi. apply lookup_lt_is_Some_2. pose proof (sg_len _ _ _ Hseg). lia. Qed.
Lemma seg_last i x : b - 2 <= i < b -> ix ins i = Some x -> exists c, cterm c x.
Proof.
  intros Hi Hx. destruct (sg_term _ _ _ Hseg) as (bt&x1&x2&H1&H2&T1&T2). pose proof (sg_ab _ _ _ Hseg).
  assert (i = b - 2 \/ i = b - 1) as [->| ->] by lia; simplify_eq; eauto.
Qed.
Lemma seg_crep i : a <= i < b -> exists t, crep ins i t.
Proof.
  intros Hi. remember (N.to_nat (b - i)) as n eqn:Hn. revert i Hi Hn. induction (lt_wf n) as [n _ IH]; intros i Hi ->.
  destruct (seg_ix i) as [x Hx]; [lia|]. destruct (decide (i < b - 2)) as [Hlt|Hge].
  - destruct (sg_node _ _ _ Hseg i x) as (Hne&Hv&Hl&Hh); [lia|done|].
    destruct (IH (N.to_nat (b - i_lo x)) ltac:(lia) (i_lo x) ltac:(lia) eq_refl) as [tl Htl].
    destruct (IH (N.to_nat (b - i_hi x)) ltac:(lia) (i_hi x) ltac:(lia) eq_refl) as [th Hth].
    exists (Br (i_idx x) tl th). apply crep_node; auto; lia.
  - destruct (seg_last i x) as [c Hc]; [lia|done|]. exists (Leaf c). by eapply crep_leaf.
Qed.
Lemma seg_inj t : forall i j, a <= i < b -> a <= j < b -> crep ins i t -> crep ins j t -> i = j.
Proof.
  induction t as [c|v l IHl h IHh]; intros i j Hi Hj H1 H2.
  - pose proof (sg_ab _ _ _ Hseg) as Hab.
    assert (Hc : forall k, a <= k < b -> crep ins k (Leaf c) -> b - 2 <= k /\ exists x, ix ins k = Some x /\ cterm c x).
    { intros k Hk Hr. inversion Hr as [k' x c' Hx Ht|]; subst. split; [|eauto].
      destruct (N.le_gt_cases (b - 2) k); [done|]. destruct (sg_node _ _ _ Hseg k x) as (Hne&_); [lia|done|]. by destruct Ht. }
    destruct (Hc i Hi H1) as (Hi2&x&Hx&Tx). destruct (Hc j Hj H2) as (Hj2&y&Hy&Ty).
    destruct (sg_term _ _ _ Hseg) as (bt&x1&x2&E1&E2&T1&T2).
    assert (i = b - 2 \/ i = b - 1) as [->| ->] by lia; assert (j = b - 2 \/ j = b - 1) as [->| ->] by lia; try done; simplify_eq.
    + pose proof (cterm_fun _ _ _ Tx T1). pose proof (cterm_fun _ _ _ Ty T2). subst. by destruct bt.
    + pose proof (cterm_fun _ _ _ Tx T2). pose proof (cterm_fun _ _ _ Ty T1). subst. by destruct bt.
  - inversion H1 as [|i' x tl th Hx Hne Hv Hl Hh Hrl Hrh]; subst. inversion H2 as [|j' y tl th Hy Hne' Hv' Hl' Hh' Hrl' Hrh']; subst.
    assert (Hin : forall k x, a <= k < b -> ix ins k = Some x -> i_lo x <> i_hi x -> a <= k < b - 2).
    { intros k z Hk Hz Hz'. destruct (decide (k < b - 2)); [lia|]. destruct (seg_last k z) as [c [? _]]; [lia|done|done]. }
    pose proof (Hin _ _ Hi Hx Hne) as Hi'. pose proof (Hin _ _ Hj Hy Hne') as Hj'.
    destruct (sg_node _ _ _ Hseg _ _ Hi' Hx) as (_&_&?&?). destruct (sg_node _ _ _ Hseg _ _ Hj' Hy) as (_&_&?&?).
    assert (i_lo x = i_lo y) by (apply IHl; auto; lia). assert (i_hi x = i_hi y) by (apply IHh; auto; lia).
    destruct x, y; simpl in *; subst. eapply (sg_dist _ _ _ Hseg); [| |exact Hx|exact Hy]; lia.
Qed.
Lemma seg_redt i t : a <= i < b -> crep ins i t -> redt t.
Proof.
  intros Hi Hr. induction Hr as [i x c Hx Ht|i x tl th Hx Hne Hv Hl Hh Hrl IHl Hrh IHh]; simpl; [done|].
  assert (Hi' : a <= i < b - 2).
  { destruct (decide (i < b - 2)); [lia|]. destruct (seg_last i x) as [c [? _]]; [lia|done|done]. }
  destruct (sg_node _ _ _ Hseg _ _ Hi' Hx) as (_&_&?&?). split_and!; [|apply IHl; lia|apply IHh; lia].
  intros ->. apply Hne. eapply seg_inj; [| |exact Hrl|exact Hrh]; lia.
Qed.
Lemma seg_root : exists v l h, crep ins a (Br v l h).
Proof.
  pose proof (sg_ab _ _ _ Hseg). destruct (seg_crep a) as [t Ht]; [lia|]. destruct t as [c|v l h]; [|eauto].
  inversion Ht as [i x c' Hx Hc|]; subst. destruct (sg_node _ _ _ Hseg a x) as [Hne _]; [lia|done|]. by destruct Hc.
Qed.
(** every cell is reachable from the root *)
Lemma seg_reach i t ti : sup ins a b -> a <= i < b - 2 -> crep ins a t -> crep ins i ti -> subt ti t.
Proof.
  intros Hup Hi Ht. remember (N.to_nat i) as n eqn:Hn. revert i ti Hi Hn. induction (lt_wf n) as [n _ IH]; intros i ti Hi -> Hti.
  destruct (decide (i = a)) as [->|Hne]; [rewrite (crep_fun _ _ _ _ Hti Ht); apply subt_refl|].
  destruct (Hup i) as (j&x&Hj&Hx&Harc); [lia|].
  destruct (sg_node _ _ _ Hseg j x) as (Hlh&Hv&Hl&Hh); [lia|done|].
  destruct (seg_crep (i_lo x)) as [tl Htl]; [lia|]. destruct (seg_crep (i_hi x)) as [th Hth]; [lia|].
  assert (Hrj : crep ins j (Br (i_idx x) tl th)) by (apply crep_node; auto; lia).
  eapply subt_trans; [|eapply (IH (N.to_nat j)); [lia| |done|exact Hrj]; lia].
  simpl. right. destruct Harc as [<-|<-]; [left; rewrite (crep_fun _ _ _ _ Hti Htl)|right; rewrite (crep_fun _ _ _ _ Hti Hth)]; apply subt_refl.
Qed.
End seg.

Lemma seg_ext ins l a b : seg ins a b -> seg (ins ++ l) a b.
Proof.
  intros [Hab Hlen (bt&x&y&Hx&Hy&Tx&Ty) Hn Hd].
  assert (Hlk : forall i, i < b -> ix (ins ++ l) i = ix ins i) by (intros i Hi; apply lookup_app_l; lia).
  split; [done|rewrite app_length; lia| | |].
  - exists bt, x, y. rewrite !Hlk by lia. done.
  - intros i z Hi Hz. rewrite Hlk in Hz by lia. auto.
  - intros i j z Hi Hj Hz Hz'. rewrite Hlk in Hz, Hz' by lia. eauto.
Qed.
(** only the cells of the segment matter *)
Lemma seg_same ins ins' a b : (forall i, a <= i < b -> ix ins' i = ix ins i) -> b <= N.of_nat (length ins') -> seg ins a b -> seg ins' a b.
Proof.
  intros Hlk Hlen' [Hab Hlen (bt&x&y&Hx&Hy&Tx&Ty) Hn Hd]. split; [done|done| | |].
  - exists bt, x, y. rewrite !Hlk by lia. done.
  - intros i z Hi Hz. rewrite Hlk in Hz by lia. auto.
  - intros i j z Hi Hj Hz Hz'. rewrite Hlk in Hz, Hz' by lia. eauto.
Qed.
Lemma sup_same ins ins' a b : (forall i, a <= i < b -> ix ins' i = ix ins i) -> sup ins a b -> sup ins' a b.
Proof. intros Hlk Hu i Hi. destruct (Hu i Hi) as (j&z&Hj&Hz&Harc). exists j, z. rewrite Hlk by lia. done. Qed.
Lemma crep_same ins ins' a b i t : seg ins a b -> (forall i, a <= i < b -> ix ins' i = ix ins i) -> a <= i < b -> crep ins i t -> crep ins' i t.
Proof.
  intros Hs Hlk Hi Hr. induction Hr as [i x c Hx Ht|i x tl th Hx Hne Hv Hl Hh Hrl IHl Hrh IHh].
  - eapply crep_leaf; [|done]. by rewrite Hlk.
  - assert (Hi' : a <= i < b - 2).
    { destruct (decide (i < b - 2)); [lia|]. destruct (seg_last _ _ _ Hs i x) as [c [? _]]; [lia|done|done]. }
    destruct (sg_node _ _ _ Hs _ _ Hi' Hx) as (_&_&?&?). apply crep_node; auto; [by rewrite Hlk|apply IHl; lia|apply IHh; lia].
Qed.

(** ** the whole collection *)
Lemma CInv_init : CInv coll_init.
Proof.
  split; [done|done|]. intros nr a b [H1 H2]. unfold coll_init in *. simpl in *.
  destruct (N.to_nat (nr + 1)) as [|n] eqn:Hn; [lia|]. simpl in H2. by destruct n.
Qed.
Lemma nr_bdds_len c : CInv c -> N.of_nat (length (c_del c)) = nr_bdds c + 1.
Proof. intros HI. unfold nr_bdds. pose proof (ci_first _ HI) as H. destruct (c_del c); [done|]. simpl. lia. Qed.
Lemma cseg_ex c nr : CInv c -> nr < nr_bdds c -> exists a b, cseg c nr a b.
Proof.
  intros HI Hnr. pose proof (nr_bdds_len _ HI).
  destruct (lookup_lt_is_Some_2 (c_del c) (N.to_nat nr)) as [a Ha]; [lia|].
  destruct (lookup_lt_is_Some_2 (c_del c) (N.to_nat (nr + 1))) as [b Hb]; [lia|]. exists a, b. done.
Qed.
Lemma cseg_lt c nr a b : CInv c -> cseg c nr a b -> nr < nr_bdds c.
Proof. intros HI [_ Hb]. apply lookup_lt_Some in Hb. pose proof (nr_bdds_len _ HI). lia. Qed.
Lemma back_del_len c : CInv c -> back_del c = N.of_nat (length (c_ins c)).
Proof. intros HI. unfold back_del. by rewrite (ci_last _ HI). Qed.
Lemma del_mono c nr nr' a a' : CInv c -> ix (c_del c) nr = Some a -> ix (c_del c) nr' = Some a' -> nr < nr' -> a + 3 <= a'.
Proof.
  intros HI Ha. remember (N.to_nat (nr' - nr)) as n eqn:Hn. revert nr' a' Hn. induction n as [|n IH]; intros nr' a' Hn Ha' Hlt; [lia|].
  assert (Hm : exists m, ix (c_del c) (nr' - 1) = Some m).
  { apply lookup_lt_is_Some_2. apply lookup_lt_Some in Ha'. lia. }
  destruct Hm as [m Hm]. assert (Hs : cseg c (nr' - 1) m a') by (split; [done|by replace (nr' - 1 + 1) with nr' by lia]).
  pose proof (sg_ab _ _ _ (ci_seg _ HI _ _ _ Hs)). destruct (decide (nr = nr' - 1)) as [->|Hne]; [simplify_eq; lia|].
  assert (a + 3 <= m) by (eapply IH; [|done|lia]; lia). lia.
Qed.
(** append one BDD *)
Lemma CInv_app c l : CInv c ->
  seg (c_ins c ++ l) (N.of_nat (length (c_ins c))) (N.of_nat (length (c_ins c) + length l)) ->
  CInv (Coll (c_ins c ++ l) (c_del c ++ [N.of_nat (length (c_ins c ++ l))])).
Proof.
  intros HI Hs. pose proof (nr_bdds_len _ HI) as Hlen. split; simpl.
  - apply lookup_app_l_Some. apply HI.
  - by rewrite last_snoc.
  - intros nr a b [Ha Hb]. simpl in *. destruct (decide (nr < nr_bdds c)) as [Hlt|Hge].
    + rewrite lookup_app_l in Ha by lia. rewrite lookup_app_l in Hb by lia. apply seg_ext. eapply ci_seg; eauto. done.
    + assert (nr = nr_bdds c) as ->. { apply lookup_lt_Some in Hb. rewrite app_length in Hb. simpl in Hb. lia. }
      rewrite lookup_app_l in Ha by lia. rewrite lookup_app_r in Hb by lia.
      replace (N.to_nat (nr_bdds c + 1) - length (c_del c))%nat with 0%nat in Hb by lia. simpl in Hb. injection Hb as <-.
      assert (a = N.of_nat (length (c_ins c))) as ->.
      { pose proof (ci_last _ HI) as Hl. rewrite last_lookup in Hl. replace (pred (length (c_del c))) with (N.to_nat (nr_bdds c)) in Hl by lia. congruence. }
      by rewrite app_length.
Qed.
(** every entry of every BDD is reachable from its root *)
Definition cfull (c : coll) : Prop := forall nr a b, cseg c nr a b -> sup (c_ins c) a b.
Lemma cfull_app c l : CInv c -> cfull c ->
  sup (c_ins c ++ l) (N.of_nat (length (c_ins c))) (N.of_nat (length (c_ins c) + length l)) ->
  cfull (Coll (c_ins c ++ l) (c_del c ++ [N.of_nat (length (c_ins c ++ l))])).
Proof.
  intros HI HF Hs nr a b [Ha Hb]. pose proof (nr_bdds_len _ HI) as Hlen. simpl in *. destruct (decide (nr < nr_bdds c)) as [Hlt|Hge].
  - rewrite lookup_app_l in Ha by lia. rewrite lookup_app_l in Hb by lia. assert (Hcs : cseg c nr a b) by done.
    eapply sup_same; [|by eapply HF]. intros i Hi. apply lookup_app_l. pose proof (sg_len _ _ _ (ci_seg _ HI _ _ _ Hcs)). lia.
  - assert (nr = nr_bdds c) as ->. { apply lookup_lt_Some in Hb. rewrite app_length in Hb. simpl in Hb. lia. }
    rewrite lookup_app_l in Ha by lia. rewrite lookup_app_r in Hb by lia.
    replace (N.to_nat (nr_bdds c + 1) - length (c_del c))%nat with 0%nat in Hb by lia. simpl in Hb. injection Hb as <-.
    assert (a = N.of_nat (length (c_ins c))) as ->.
    { pose proof (ci_last _ HI) as Hl. rewrite last_lookup in Hl. replace (pred (length (c_del c))) with (N.to_nat (nr_bdds c)) in Hl by lia. congruence. }
    by rewrite app_length.
Qed.
(** variables increase along the arcs of every BDD *)
Definition ordered_at (ins : list instr) (a b : N) : Prop :=
  forall i x y, a <= i < b - 2 -> ix ins i = Some x -> (ix ins (i_lo x) = Some y \/ ix ins (i_hi x) = Some y) -> i_idx x < i_idx y.
Lemma ordered_same ins ins' a b : seg ins a b -> (forall i, a <= i < b -> ix ins' i = ix ins i) -> ordered_at ins a b -> ordered_at ins' a b.
Proof.
  intros Hs Hlk Ho i x y Hi Hx Hy. rewrite Hlk in Hx by lia. destruct (sg_node _ _ _ Hs i x Hi Hx) as (_&_&?&?). rewrite !Hlk in Hy by lia. by eapply Ho.
Qed.
Definition cordall (c : coll) : Prop := forall nr a b, cseg c nr a b -> ordered_at (c_ins c) a b.
Lemma cordall_app c l : CInv c -> cordall c ->
  ordered_at (c_ins c ++ l) (N.of_nat (length (c_ins c))) (N.of_nat (length (c_ins c) + length l)) ->
  cordall (Coll (c_ins c ++ l) (c_del c ++ [N.of_nat (length (c_ins c ++ l))])).
Proof.
  intros HI HF Hs nr a b [Ha Hb]. pose proof (nr_bdds_len _ HI) as Hlen. simpl in *. destruct (decide (nr < nr_bdds c)) as [Hlt|Hge].
  - rewrite lookup_app_l in Ha by lia. rewrite lookup_app_l in Hb by lia. assert (Hcs : cseg c nr a b) by done.
    eapply ordered_same; [by eapply ci_seg| |by eapply HF]. intros i Hi. apply lookup_app_l. pose proof (sg_len _ _ _ (ci_seg _ HI _ _ _ Hcs)). lia.
  - assert (nr = nr_bdds c) as ->. { apply lookup_lt_Some in Hb. rewrite app_length in Hb. simpl in Hb. lia. }
    rewrite lookup_app_l in Ha by lia. rewrite lookup_app_r in Hb by lia.
    replace (N.to_nat (nr_bdds c + 1) - length (c_del c))%nat with 0%nat in Hb by lia. simpl in Hb. injection Hb as <-.
    assert (a = N.of_nat (length (c_ins c))) as ->.
    { pose proof (ci_last _ HI) as Hl. rewrite last_lookup in Hl. replace (pred (length (c_del c))) with (N.to_nat (nr_bdds c)) in Hl by lia. congruence. }
    by rewrite app_length.
Qed.
