(** * CollRem.v -- bdd_collection::remove *)
From Verif Require Export CollMisc.
Open Scope N_scope.

(** ** moving one stored BDD down by [d] cells *)
Definition shi (d : N) (x : instr) : instr := if ci_is_term x then x else Instr (i_lo x - d) (i_hi x - d) (i_idx x).
Section shift.
Context (ins : list instr) (a b : N) (Hg : seg ins a b) (nins : list instr) (d : N) (Hd : N.of_nat (length nins) + d = a).
Context (l : list instr) (Hl : length l = N.to_nat (b - a)) (Hli : forall i, (i < N.to_nat (b - a))%nat -> l !! i = ix ins (a + N.of_nat i)).
Notation out := (nins ++ map (shi d) l).
Lemma shift_at i x : a <= i < b -> ix ins i = Some x -> ix out (i - d) = Some (shi d x).
Proof.
  intros Hi Hx. rewrite lookup_app_r by lia. rewrite list_lookup_fmap.
  replace (N.to_nat (i - d) - length nins)%nat with (N.to_nat (i - a)) by lia. rewrite Hli by lia.
  replace (a + N.of_nat (N.to_nat (i - a))) with i by lia. by rewrite Hx.
Qed.
Lemma shift_inv j x : a - d <= j < b - d -> ix out j = Some x -> exists y, ix ins (j + d) = Some y /\ x = shi d y.
Proof.
  intros Hj Hx. destruct (seg_ix _ _ _ Hg (j + d)) as [y Hy]; [lia|]. exists y. split; [done|].
  pose proof (shift_at (j + d) y ltac:(lia) Hy) as H. replace (j + d - d) with j in H by lia. congruence.
Qed.
Lemma shi_node i x : a <= i < b - 2 -> ix ins i = Some x -> shi d x = Instr (i_lo x - d) (i_hi x - d) (i_idx x) /\
  i_lo x <> i_hi x /\ i_idx x < cbot /\ i < i_lo x < b /\ i < i_hi x < b.
Proof.
  intros Hi Hx. destruct (sg_node _ _ _ Hg i x Hi Hx) as (H1&H2&H3&H4). split_and!; try done; try lia. unfold shi.
  by destruct (cnode_instr _ H1 H2) as (->&_).
Qed.
Lemma shift_seg : seg out (a - d) (b - d).
Proof.
  pose proof (sg_ab _ _ _ Hg). split.
  - lia.
  - rewrite app_length, map_length, Hl. lia.
  - destruct (sg_term _ _ _ Hg) as (bt&x&y&Hx&Hy&Tx&Ty). exists bt, x, y.
    pose proof (shift_at (b - 2) x ltac:(lia) Hx) as Hx'. pose proof (shift_at (b - 1) y ltac:(lia) Hy) as Hy'. unfold shi in Hx', Hy'.
    destruct (cterm_instr _ _ Tx) as (Htx&_). destruct (cterm_instr _ _ Ty) as (Hty&_). rewrite Htx in Hx'. rewrite Hty in Hy'.
    replace (b - 2 - d) with (b - d - 2) in Hx' by lia. replace (b - 1 - d) with (b - d - 1) in Hy' by lia. done.
  - intros i x Hi Hx. destruct (shift_inv i x ltac:(lia) Hx) as (y&Hy&->). destruct (shi_node (i + d) y ltac:(lia) Hy) as (->&?&?&?&?). simpl. split_and!; try done; lia.
  - intros i j x Hi Hj Hx Hx'. destruct (shift_inv i x ltac:(lia) Hx) as (y&Hy&Ey). destruct (shift_inv j x ltac:(lia) Hx') as (z&Hz&Ez).
    destruct (shi_node (i + d) y ltac:(lia) Hy) as (E1&?&?&?&?). destruct (shi_node (j + d) z ltac:(lia) Hz) as (E2&?&?&?&?).
    rewrite Ey, E1, E2 in Ez. injection Ez as F1 F2 F3. assert (y = z) as -> by (destruct y, z; simpl in *; f_equal; lia).
    pose proof (sg_dist _ _ _ Hg (i + d) (j + d) z ltac:(lia) ltac:(lia) Hy Hz). lia.
Qed.
Lemma shift_sup : sup ins a b -> sup out (a - d) (b - d).
Proof.
  intros Hup i Hi. pose proof (sg_ab _ _ _ Hg). destruct (Hup (i + d) ltac:(lia)) as (j&x&Hj&Hx&Hor). destruct (shi_node j x ltac:(lia) Hx) as (E1&?&?&?&?).
  exists (j - d), (shi d x). split_and!; [lia|lia|apply shift_at; [lia|done]|]. rewrite E1. simpl. lia.
Qed.
Lemma shift_ord : ordered_at ins a b -> ordered_at out (a - d) (b - d).
Proof.
  intros Ho i x y Hi Hx Hy. pose proof (sg_ab _ _ _ Hg). destruct (shift_inv i x ltac:(lia) Hx) as (u&Hu&->). destruct (shi_node (i + d) u ltac:(lia) Hu) as (E1&?&?&?&?).
  rewrite E1 in Hy |- *. cbn [i_lo i_hi i_idx] in *.
  assert (Hlab : forall w, i_idx (shi d w) = i_idx w) by (intros w; unfold shi; by destruct (ci_is_term w)).
  destruct Hy as [Hy|Hy].
  - destruct (shift_inv (i_lo u - d) y ltac:(lia) Hy) as (w&Hw&->). rewrite Hlab. replace (i_lo u - d + d) with (i_lo u) in Hw by lia. eapply (Ho (i + d) u w); [lia|done|by left].
  - destruct (shift_inv (i_hi u - d) y ltac:(lia) Hy) as (w&Hw&->). rewrite Hlab. replace (i_hi u - d + d) with (i_hi u) in Hw by lia. eapply (Ho (i + d) u w); [lia|done|by right].
Qed.
Lemma shift_crep i t : a <= i < b -> crep ins i t -> crep out (i - d) t.
Proof.
  intros Hi H. revert Hi. induction H as [i x c Hx Hc|i x tl th Hx Hne Hv Hlo Hhi Hrl IHl Hrh IHh]; intros Hi.
  - eapply crep_leaf; [by apply shift_at|]. unfold shi. by destruct (cterm_instr _ _ Hc) as (->&_).
  - assert (Hi' : a <= i < b - 2).
    { destruct (decide (i < b - 2)); [lia|]. destruct (seg_last _ _ _ Hg i x) as [z [? _]]; [lia|done|done]. }
    destruct (shi_node i x Hi' Hx) as (E1&?&?&?&?). pose proof (shift_at i x Hi Hx) as Hy. rewrite E1 in Hy.
    apply (crep_node _ (i - d) _ _ _ Hy); simpl; try done; try lia; [apply IHl; lia|apply IHh; lia].
Qed.
End shift.

(** the BDDs that stay *)
Definition kept (rs : list N) (l : list N) : list N := filter (fun n => n ∉ rs) l.
Definition nats (a b : N) : list N := map (fun k => a + N.of_nat k) (seq 0 (N.to_nat (b - a))).
Lemma nats_nil a b : b <= a -> nats a b = [].
Proof. intros H. unfold nats. by replace (N.to_nat (b - a)) with 0%nat by lia. Qed.
Lemma nats_cons a b : a < b -> nats a b = a :: nats (a + 1) b.
Proof.
  intros H. unfold nats. replace (N.to_nat (b - a)) with (S (N.to_nat (b - (a + 1)))) by lia. cbn [seq map]. f_equal; [lia|].
  rewrite <- seq_shift, map_map. apply map_ext. intros k. lia.
Qed.
Lemma nats_app a m b : a <= m -> m <= b -> nats a b = nats a m ++ nats m b.
Proof.
  intros H1 H2. remember (N.to_nat (m - a)) as n eqn:Hn. revert a H1 Hn. induction n as [|n IH]; intros a H1 Hn.
  - assert (m = a) as -> by lia. by rewrite (nats_nil a a) by lia.
  - rewrite (nats_cons a b), (nats_cons a m) by lia. simpl. f_equal. apply IH; lia.
Qed.
Lemma nats_elem a b x : x ∈ nats a b <-> a <= x < b.
Proof.
  unfold nats. rewrite elem_of_list_fmap. setoid_rewrite elem_of_seq. split.
  - intros (k&->&Hk). lia.
  - intros Hx. exists (N.to_nat (x - a)). lia.
Qed.
Lemma kept_all rs l : (forall n, n ∈ l -> n ∉ rs) -> kept rs l = l.
Proof.
  unfold kept. induction l as [|x l IH]; intros H; [done|]. rewrite filter_cons_True by (apply H; by left). f_equal. apply IH. intros n Hn. apply H. by right.
Qed.
Lemma kept_ext rs rs' l : (forall n, n ∈ l -> n ∈ rs <-> n ∈ rs') -> kept rs l = kept rs' l.
Proof.
  unfold kept. induction l as [|x l IH]; intros H; [done|]. rewrite !filter_cons. rewrite IH by (intros n Hn; apply H; by right).
  pose proof (H x ltac:(by left)). destruct (decide (x ∉ rs)), (decide (x ∉ rs')); tauto.
Qed.
Lemma kept_app rs l l' : kept rs (l ++ l') = kept rs l ++ kept rs l'.
Proof. apply filter_app. Qed.

Section remove.
Context {E : Env} (c : coll) (HI : CInv c) (Hsm : csmall c).
Notation nrb := (nr_bdds c).

Record RInv (nc : coll) (k : N) (js : list N) : Prop := {
  ri_C : CInv nc;
  ri_le : forall a, ix (c_del c) k = Some a -> back_del nc <= a;
  ri_len : nr_bdds nc = N.of_nat (length js);
  ri_rep : forall j m, js !! j = Some m -> m < nrb /\ exists a a', ix (c_del c) m = Some a /\ ix (c_del nc) (N.of_nat j) = Some a' /\
     forall t, crep (c_ins c) a t -> crep (c_ins nc) a' t;
  ri_full : cfull c -> cfull nc;
  ri_ord : cordall c -> cordall nc
}.
Lemma shift_instrs_eq d l : (forall x, x ∈ l -> ci_is_term x = false -> d <= i_lo x < two64 /\ d <= i_hi x < two64) ->
  shift_instrs d l = inr (map (shi d) l).
Proof.
  induction l as [|x l IH]; intros Hx; [done|]. cbn [shift_instrs]. rewrite IH by (intros y Hy; apply Hx; by right).
  assert (shift_instr d x = inr (shi d x)) as ->; [|done]. unfold shift_instr, shi. destruct (ci_is_term x) eqn:Ht; [done|].
  destruct (Hx x) as [? ?]; [by left|done|]. rewrite !assertR_true by (apply N.leb_le; lia). cbn [bindR]. rewrite !sub64_small by lia. done.
Qed.

(** the kept BDD number [k] is moved *)
Lemma rem_keep nc k js : RInv nc k js -> k < nrb ->
  exists a b l nc', ix (c_del c) k = Some a /\ ix (c_del c) (k + 1) = Some b /\ slice c a b = inr l /\ back_del nc <= a /\
   nc' = Coll (c_ins nc ++ map (shi (a - back_del nc)) l) (c_del nc ++ [N.of_nat (length (c_ins nc ++ map (shi (a - back_del nc)) l))]) /\
   shift_instrs (sub64 a (back_del nc)) l = inr (map (shi (a - back_del nc)) l) /\
   2 < sub64 (N.of_nat (length (c_ins nc ++ map (shi (a - back_del nc)) l))) (back_del nc) /\
   RInv nc' (k + 1) (js ++ [k]).
Proof.
  intros HR Hk. destruct (cseg_ex _ _ HI Hk) as (a&b&Hs). pose proof (ci_seg _ HI _ _ _ Hs) as Hg.
  pose proof (sg_ab _ _ _ Hg) as Hab. pose proof (sg_len _ _ _ Hg) as Hlen. unfold csmall in Hsm. assert (two64 = 2 ^ 62 * 4) by done.
  pose proof (ri_le _ _ _ HR _ (proj1 Hs)) as Hle. pose proof (ri_C _ _ _ HR) as HC. rewrite (back_del_len _ HC) in *.
  destruct (slice_eq c a b ltac:(lia) Hlen) as (l&Hsl&Hl&Hli).
  set (d := a - N.of_nat (length (c_ins nc))).
  assert (Hd : N.of_nat (length (c_ins nc)) + d = a) by (unfold d; lia).
  pose proof (shift_seg _ _ _ Hg _ _ Hd _ Hl Hli) as Hseg.
  assert (Hlen' : length (c_ins nc ++ map (shi d) l) = (length (c_ins nc) + N.to_nat (b - a))%nat) by (rewrite app_length, map_length; lia).
  assert (HC' : CInv (Coll (c_ins nc ++ map (shi d) l) (c_del nc ++ [N.of_nat (length (c_ins nc ++ map (shi d) l))]))).
  { apply CInv_app; [done|]. rewrite map_length, Hl. replace (a - d) with (N.of_nat (length (c_ins nc))) in Hseg by lia.
    replace (b - d) with (N.of_nat (length (c_ins nc) + N.to_nat (b - a))) in Hseg by lia. done. }
  exists a, b, l, (Coll (c_ins nc ++ map (shi d) l) (c_del nc ++ [N.of_nat (length (c_ins nc ++ map (shi d) l))])).
  split_and!; try apply Hs; try done.
  - rewrite sub64_small by lia. apply shift_instrs_eq. intros x Hx Ht.
    apply elem_of_list_lookup in Hx as [i Hi]. pose proof (lookup_lt_Some _ _ _ Hi). rewrite Hli in Hi by lia.
    destruct (decide (a + N.of_nat i < b - 2)) as [Hi2|Hi2].
    + destruct (sg_node _ _ _ Hg _ x ltac:(split; [|exact Hi2]; lia) Hi) as (_&_&?&?). lia.
    + destruct (seg_last _ _ _ Hg (a + N.of_nat i) x) as [z Hz]; [lia|done|]. destruct (cterm_instr _ _ Hz). congruence.
  - fold d. rewrite sub64_small by lia. lia.
  - split.
    + done.
    + intros a2 Ha2. rewrite (back_del_len _ HC'). simpl. assert (a2 = b) as -> by (destruct Hs; congruence). lia.
    + pose proof (nr_bdds_len _ HC). pose proof (ri_len _ _ _ HR). fold d. unfold nr_bdds. cbn [c_del]. rewrite !(app_length (c_del nc)), (app_length js). simpl. lia.
    + pose proof (nr_bdds_len _ HC). pose proof (ri_len _ _ _ HR) as Hrl.
      intros j m Hj. apply lookup_app_Some in Hj as [Hj|[Hge Hj]].
      * destruct (ri_rep _ _ _ HR j m Hj) as (Hm&a1&a1'&H1&H2&H3). split; [done|]. exists a1, a1'. split_and!; auto; simpl.
        -- by apply lookup_app_l_Some.
        -- intros t Ht. apply crep_ext. auto.
      * apply list_lookup_singleton_Some in Hj as [Hj0 <-]. split; [done|]. exists a, (N.of_nat (length (c_ins nc))). split_and!; [apply Hs|simpl|].
        -- apply lookup_app_l_Some. pose proof (ci_last _ HC) as Hlast. rewrite last_lookup in Hlast.
           rewrite <- Hlast. f_equal. lia.
        -- intros t Ht. pose proof (shift_crep _ _ _ Hg _ _ Hd _ Hl Hli a t ltac:(lia) Ht) as Hc. replace (a - d) with (N.of_nat (length (c_ins nc))) in Hc by lia. done.
    + intros HF. apply cfull_app; [done|by apply HR|]. fold d. rewrite map_length, Hl. pose proof (shift_sup _ _ _ Hg _ _ Hd _ Hl Hli (HF _ _ _ Hs)) as Hsup.
      replace (a - d) with (N.of_nat (length (c_ins nc))) in Hsup by lia.
      replace (b - d) with (N.of_nat (length (c_ins nc) + N.to_nat (b - a))) in Hsup by lia. exact Hsup.
    + intros HF. apply cordall_app; [done|by apply HR|]. fold d. rewrite map_length, Hl. pose proof (shift_ord _ _ _ Hg _ _ Hd _ Hl Hli (HF _ _ _ Hs)) as Hsup.
      replace (a - d) with (N.of_nat (length (c_ins nc))) in Hsup by lia.
      replace (b - d) with (N.of_nat (length (c_ins nc) + N.to_nat (b - a))) in Hsup by lia. exact Hsup.
Qed.
Lemma rem_skip nc k js : RInv nc k js -> k < nrb -> RInv nc (k + 1) js.
Proof.
  intros HR Hk. destruct (cseg_ex _ _ HI Hk) as (a&b&Hs). pose proof (sg_ab _ _ _ (ci_seg _ HI _ _ _ Hs)).
  split; try apply HR. intros a' Ha'. assert (a' = b) as -> by (destruct Hs; congruence).
  pose proof (ri_le _ _ _ HR _ (proj1 Hs)). lia.
Qed.

(** the last BDD is among the removed ones *)
Lemma remove_loop_ok n : forall k rs nc js, N.of_nat n = nrb - k -> k <= nrb -> RInv nc k js -> StronglySorted N.lt rs ->
  Forall (fun r => k <= r < nrb) rs -> (k < nrb -> nrb - 1 ∈ rs) ->
  exists nc', remove_loop c (nats k nrb) rs nc = inr ([], nc') /\ RInv nc' nrb (js ++ kept rs (nats k nrb)).
Proof.
  induction n as [|n IH]; intros k rs nc js Hn Hk HR Hs HF Hlast.
  - assert (k = nrb) as -> by lia. rewrite nats_nil by lia. exists nc. simpl. rewrite app_nil_r. split; [|done].
    destruct rs; [done|]. inversion HF; subst. lia.
  - rewrite nats_cons by lia. cbn [remove_loop]. destruct rs as [|r rs]; [exfalso; apply (not_elem_of_nil (nrb - 1)); apply Hlast; lia|].
    inversion HF as [|? ? Hr HF']; subst. apply StronglySorted_inv in Hs as [Hs Hall]. destruct (N.eqb_spec k r) as [<-|Hne].
    + destruct (IH (k + 1) rs nc js) as (nc'&He&HR'); [lia|lia|by apply rem_skip; [|lia]|done| | |].
      * apply Forall_forall. intros x Hx. rewrite Forall_forall in Hall, HF'. specialize (Hall x Hx). specialize (HF' x Hx). simpl in HF'. lia.
      * intros Hlt. specialize (Hlast ltac:(lia)). apply elem_of_cons in Hlast as [|]; [lia|done].
      * exists nc'. split; [done|]. unfold kept at 1. rewrite filter_cons_False by (intros Hx; apply Hx; by left).
        replace (filter (fun n => n ∉ k :: rs) (nats (k + 1) nrb)) with (kept rs (nats (k + 1) nrb)); [done|].
        apply kept_ext. intros x Hx. apply nats_elem in Hx. rewrite elem_of_cons. intuition lia.
    + destruct (rem_keep nc k js HR ltac:(lia)) as (a&b&l&nc1&Ha&Hb&Hsl&Hle&Hnc1&Hsh&H2&HR1).
      rewrite (del_at_eq _ _ _ Ha), (del_at_eq _ _ _ Hb). cbn [bindR]. rewrite assertR_true by (by apply N.leb_le). cbn [bindR].
      rewrite Hsl. cbn [bindR]. rewrite Hsh. cbn [bindR]. rewrite assertR_true by (by apply N.ltb_lt). cbn [bindR]. rewrite <- Hnc1.
      destruct (IH (k + 1) (r :: rs) nc1 (js ++ [k])) as (nc'&He&HR'); [lia|lia|done|by constructor| | |].
      * apply Forall_forall. intros x Hx. rewrite Forall_forall in HF. specialize (HF x Hx). simpl in HF.
        apply elem_of_cons in Hx as [->|Hx]; [lia|]. rewrite Forall_forall in Hall. specialize (Hall x Hx). lia.
      * intros _. apply Hlast. lia.
      * exists nc'. split; [done|]. unfold kept. rewrite filter_cons_True.
        -- rewrite <- app_assoc in HR'. done.
        -- intros [->|Hx]%elem_of_cons; [done|]. rewrite Forall_forall in Hall. specialize (Hall k Hx). lia.
Qed.
(** a BDD follows the last removed one: the iterator is read past its end *)
Lemma remove_loop_ub n : forall k rs nc js, N.of_nat n = nrb - k -> k < nrb -> RInv nc k js -> StronglySorted N.lt rs ->
  Forall (fun r => k <= r < nrb - 1) rs -> remove_loop c (nats k nrb) rs nc = inl EUB.
Proof.
  induction n as [|n IH]; intros k rs nc js Hn Hk HR Hs HF; [lia|].
  rewrite nats_cons by lia. cbn [remove_loop]. destruct rs as [|r rs]; [done|].
  inversion HF as [|? ? Hr HF']; subst. apply StronglySorted_inv in Hs as [Hs Hall]. destruct (N.eqb_spec k r) as [<-|Hne].
  + eapply (IH (k + 1) rs nc js); [lia|lia|by apply rem_skip|done|].
    apply Forall_forall. intros x Hx. rewrite Forall_forall in Hall, HF'. specialize (Hall x Hx). specialize (HF' x Hx). simpl in HF'. lia.
  + destruct (rem_keep nc k js HR ltac:(lia)) as (a&b&l&nc1&Ha&Hb&Hsl&Hle&Hnc1&Hsh&H2&HR1).
    rewrite (del_at_eq _ _ _ Ha), (del_at_eq _ _ _ Hb). cbn [bindR]. rewrite assertR_true by (by apply N.leb_le). cbn [bindR].
    rewrite Hsl. cbn [bindR]. rewrite Hsh. cbn [bindR]. rewrite assertR_true by (by apply N.ltb_lt). cbn [bindR]. rewrite <- Hnc1.
    eapply (IH (k + 1) (r :: rs) nc1 (js ++ [k])); [lia|lia|done|by constructor|].
    apply Forall_forall. intros x Hx. rewrite Forall_forall in HF. specialize (HF x Hx). simpl in HF.
    apply elem_of_cons in Hx as [->|Hx]; [lia|]. rewrite Forall_forall in Hall. specialize (Hall x Hx). lia.
Qed.

(** the prefix before the first removed BDD *)
Lemma prefix_RInv r0 a : r0 < nrb -> ix (c_del c) r0 = Some a ->
  RInv (Coll (take (N.to_nat a) (c_ins c)) (take (S (N.to_nat r0)) (c_del c))) r0 (nats 0 r0).
Proof.
  intros Hr Ha. pose proof (nr_bdds_len _ HI) as Hnl. destruct (cseg_ex _ _ HI Hr) as (a'&b&Hs).
  assert (a' = a) as -> by (destruct Hs; congruence). pose proof (ci_seg _ HI _ _ _ Hs) as Hg. pose proof (sg_ab _ _ _ Hg). pose proof (sg_len _ _ _ Hg).
  assert (Hld : length (take (S (N.to_nat r0)) (c_del c)) = S (N.to_nat r0)) by (rewrite take_length; lia).
  assert (Hli : length (take (N.to_nat a) (c_ins c)) = N.to_nat a) by (rewrite take_length; lia).
  assert (Hlast : last (take (S (N.to_nat r0)) (c_del c)) = Some a).
  { rewrite last_lookup, Hld. simpl. rewrite lookup_take by lia. done. }
  assert (Hend : forall nr x, nr <= r0 -> ix (c_del c) nr = Some x -> x <= a).
  { intros nr x Hn Hx. destruct (decide (nr = r0)) as [->|]; [simplify_eq; lia|]. pose proof (del_mono _ _ _ _ _ HI Hx Ha ltac:(lia)). lia. }
  assert (HC : CInv (Coll (take (N.to_nat a) (c_ins c)) (take (S (N.to_nat r0)) (c_del c)))).
  { split; simpl.
    - rewrite (lookup_take (c_del c) (S (N.to_nat r0)) (N.to_nat 0)) by lia. apply HI.
    - rewrite Hli, N2Nat.id. done.
    - intros nr a1 b1 [H1 H2]. simpl in *.
      assert (nr + 1 <= r0). { apply lookup_lt_Some in H2. rewrite Hld in H2. lia. }
      rewrite lookup_take in H1 by lia. rewrite lookup_take in H2 by lia.
      pose proof (Hend (nr + 1) b1 ltac:(lia) H2). eapply seg_same; [| |eapply (ci_seg _ HI nr); done].
      + intros i Hi. rewrite lookup_take by lia. done.
      + rewrite Hli. lia. }
  split.
  - done.
  - intros x Hx. rewrite (back_del_len _ HC). simpl. assert (x = a) as -> by congruence. lia.
  - pose proof (nr_bdds_len _ HC) as H2. simpl in H2. rewrite Hld in H2. unfold nats. rewrite map_length, seq_length. lia.
  - intros j m Hj. unfold nats in Hj. rewrite list_lookup_fmap in Hj. destruct (seq 0 (N.to_nat (r0 - 0)) !! j) as [j'|] eqn:Hj'; [|done].
    simpl in Hj. injection Hj as <-. apply lookup_seq in Hj' as [-> Hj']. simpl.
    destruct (cseg_ex c (0 + N.of_nat j) HI ltac:(lia)) as (a1&b1&Hs1). split; [lia|].
    pose proof (ci_seg _ HI _ _ _ Hs1) as Hg1. pose proof (sg_ab _ _ _ Hg1).
    pose proof (Hend (0 + N.of_nat j + 1) b1 ltac:(lia) (proj2 Hs1)) as Hb1.
    exists a1, a1. split_and!; [apply Hs1| |].
    + rewrite lookup_take by lia. apply Hs1.
    + intros t Ht. eapply crep_same; [exact Hg1| | |exact Ht]; [|lia]. intros i Hi. rewrite lookup_take by lia. done.
  - intros HF nr a1 b1 [H1 H2]. simpl in *.
    assert (nr + 1 <= r0). { apply lookup_lt_Some in H2. rewrite Hld in H2. lia. }
    rewrite lookup_take in H1 by lia. rewrite lookup_take in H2 by lia.
    pose proof (Hend (nr + 1) b1 ltac:(lia) H2). eapply sup_same; [|by apply (HF nr)]. intros i Hi. rewrite lookup_take by lia. done.
  - intros HF nr a1 b1 [H1 H2]. simpl in *.
    assert (nr + 1 <= r0). { apply lookup_lt_Some in H2. rewrite Hld in H2. lia. }
    rewrite lookup_take in H1 by lia. rewrite lookup_take in H2 by lia.
    pose proof (Hend (nr + 1) b1 ltac:(lia) H2). eapply ordered_same; [by eapply (ci_seg _ HI nr)| |by apply (HF nr)]. intros i Hi. rewrite lookup_take by lia. done.
Qed.
Lemma sorted_eq l : strictly_sorted l = true <-> StronglySorted N.lt l.
Proof.
  induction l as [|a l IH]; [simpl; split; [constructor|done]|]. destruct l as [|b l].
  - simpl. split; [intros _; repeat constructor|done].
  - change (strictly_sorted (a :: b :: l)) with ((a <? b) && strictly_sorted (b :: l)). rewrite andb_true_iff, N.ltb_lt, IH. split.
    + intros [Hab Hs]. constructor; [done|]. apply StronglySorted_inv in Hs as [_ Hf]. constructor; [done|]. eapply Forall_impl; [exact Hf|]. simpl. lia.
    + intros Hs. apply StronglySorted_inv in Hs as [Hs Hf]. inversion Hf; subst. done.
Qed.
Lemma all_is_bdd_true nc l : CInv nc -> csmall nc -> Forall (fun n => N.of_nat n < nr_bdds nc) l -> all_is_bdd nc l = inr true.
Proof.
  intros HC Hs. induction 1 as [|n l Hn _ IH]; [done|]. simpl. rewrite is_bdd_true; [done|done|done|].
  intros a b Hs'. pose proof (sg_len _ _ _ (ci_seg _ HC _ _ _ Hs')). unfold csmall in Hs. assert (two64 = 2 ^ 62 * 4) by done. lia.
Qed.
Lemma sorted_len l k : StronglySorted N.lt l -> Forall (fun r => k <= r < nrb) l -> N.of_nat (length l) <= nrb - k.
Proof.
  revert k. induction l as [|a l IH]; intros k Hs HF; simpl; [lia|]. apply StronglySorted_inv in Hs as [Hs Hf]. inversion HF; subst.
  specialize (IH (a + 1) Hs). rewrite Forall_forall in *. assert (N.of_nat (length l) <= nrb - (a + 1)); [|lia]. apply IH.
  intros x Hx. specialize (Hf x Hx). select (forall x, _ -> _ <= _ < _) (fun H => specialize (H x Hx)). lia.
Qed.
Lemma remove_pre rs : rs <> [] -> StronglySorted N.lt rs -> Forall (fun r => r < nrb) rs -> exists r0 a,
  hd_error rs = Some r0 /\ r0 < nrb /\ ix (c_del c) r0 = Some a /\ Forall (fun r => r0 <= r < nrb) rs /\
  c_remove c rs = letR* (rest, nc) := remove_loop c (nats r0 nrb) rs (Coll (take (N.to_nat a) (c_ins c)) (take (S (N.to_nat r0)) (c_del c))) in
    letR* _ := assertR (match rest with [] => true | _ => false end) in
    letR* _ := assertRR (all_is_bdd nc (seq 0 (N.to_nat (nr_bdds nc)))) in inr nc.
Proof.
  intros Hne Hs HF. destruct rs as [|r0 rs]; [done|]. inversion HF as [|? ? Hr0 HF']; subst.
  destruct (cseg_ex _ _ HI Hr0) as (a&b&Hseg). pose proof (ci_seg _ HI _ _ _ Hseg) as Hg. pose proof (sg_ab _ _ _ Hg). pose proof (sg_len _ _ _ Hg).
  pose proof (nr_bdds_len _ HI) as Hnl. exists r0, a. split_and!; [done|done|apply Hseg| |].
  - apply StronglySorted_inv in Hs as [_ Hf]. constructor; [lia|]. rewrite Forall_forall in *. intros x Hx. specialize (Hf x Hx). specialize (HF' x Hx). lia.
  - unfold c_remove. rewrite assertR_true.
    2:{ apply N.leb_le. assert (N.of_nat (length (r0 :: rs)) <= nrb - 0); [|lia]. apply sorted_len; [done|]. eapply Forall_impl; [exact HF|]. simpl. lia. }
    cbn [bindR]. rewrite assertR_true by (by apply sorted_eq). cbn [bindR]. rewrite (proj2 (N.leb_gt _ _)) by lia.
    assert (Hlast : last (take (S (N.to_nat r0)) (c_del c)) = Some a).
    { rewrite last_lookup, take_length, Nat.min_l by lia. simpl. rewrite lookup_take by lia. apply Hseg. }
    cbn zeta. rewrite Hlast. simpl. unfold slice.
    assert ((if a <=? 0 then inr [] else if a <=? N.of_nat (length (c_ins c)) then inr (take (N.to_nat (a - 0)) (drop (N.to_nat 0) (c_ins c))) else inl EUB) = inr (take (N.to_nat a) (c_ins c)) :> R _) as ->.
    { destruct (N.leb_spec a 0) as [Ha|Ha]; [assert (a = 0) as -> by lia; done|]. rewrite (proj2 (N.leb_le _ _)) by lia.
      rewrite N.sub_0_r. done. }
    done.
Qed.
Lemma c_remove_ok rs : StronglySorted N.lt rs -> Forall (fun r => r < nrb) rs -> nrb - 1 ∈ rs ->
  exists c', c_remove c rs = inr c' /\ RInv c' nrb (kept rs (nats 0 nrb)).
Proof.
  intros Hs HF Hlast. assert (Hne : rs <> []) by (intros ->; by apply elem_of_nil in Hlast).
  destruct (remove_pre rs Hne Hs HF) as (r0&a&Hhd&Hr0&Ha&HF'&->).
  pose proof (prefix_RInv r0 a Hr0 Ha) as HR.
  destruct (remove_loop_ok (N.to_nat (nrb - r0)) r0 rs _ _ ltac:(lia) ltac:(lia) HR Hs HF' ltac:(done)) as (nc'&->&HR').
  cbn [bindR]. rewrite assertR_true by done. cbn [bindR].
  assert (Hk : kept rs (nats 0 nrb) = nats 0 r0 ++ kept rs (nats r0 nrb)).
  { rewrite (nats_app 0 r0 nrb) by lia. rewrite kept_app. f_equal. apply kept_all. intros n Hn. apply nats_elem in Hn. intros Hx.
    rewrite Forall_forall in HF'. specialize (HF' n Hx). simpl in HF'. lia. }
  rewrite <- Hk in HR'. rewrite assertRR_true; [by exists nc'|]. apply all_is_bdd_true; [apply HR'| |].
  - unfold csmall in *. pose proof (ri_le _ _ _ HR' (N.of_nat (length (c_ins c)))) as Hle. rewrite (back_del_len _ (ri_C _ _ _ HR')) in Hle.
    assert (N.of_nat (length (c_ins nc')) <= N.of_nat (length (c_ins c))); [|lia]. apply Hle.
    pose proof (ci_last _ HI) as Hl. rewrite last_lookup in Hl. pose proof (nr_bdds_len _ HI). rewrite <- Hl. f_equal. lia.
  - apply Forall_forall. intros n Hn. apply elem_of_seq in Hn. lia.
Qed.
Lemma c_remove_ub rs : rs <> [] -> StronglySorted N.lt rs -> Forall (fun r => r < nrb) rs -> nrb - 1 ∉ rs -> c_remove c rs = inl EUB.
Proof.
  intros Hne Hs HF Hlast. destruct (remove_pre rs Hne Hs HF) as (r0&a&Hhd&Hr0&Ha&HF'&->).
  rewrite (remove_loop_ub (N.to_nat (nrb - r0)) r0 rs _ _ ltac:(lia) Hr0 (prefix_RInv r0 a Hr0 Ha) Hs); [done|].
  apply Forall_forall. intros x Hx. rewrite Forall_forall in HF'. specialize (HF' x Hx). simpl in HF'.
    assert (x <> nrb - 1) by congruence. lia.
Qed.
End remove.
