(** * OrVar.v -- lemmas about bdd_or_var, reduce and rerouting of arcs *)
From Verif Require Export CollBase.
Open Scope N_scope.

(** cells [a, b) hold entries with forward arcs, no redundant or repeated one, then the terminals *)
Record pseg (ins : list instr) (a b : N) : Prop := {
  ps_ab : a + 3 <= b;
  ps_len : b = N.of_nat (length ins);
  ps_term : exists bt x y, ix ins (b - 2) = Some x /\ ix ins (b - 1) = Some y /\ cterm bt x /\ cterm (negb bt) y;
  ps_node : forall i x, a <= i < b - 2 -> ix ins i = Some x ->
    i_lo x <> i_hi x /\ i_idx x < cbot /\ i < i_lo x < b /\ i < i_hi x < b;
  ps_dist : forall i j x, a <= i < b - 2 -> a <= j < b - 2 -> ix ins i = Some x -> ix ins j = Some x -> i = j
}.

(** cells [a, b) hold entries with forward arcs, then the terminals; entries may be redundant or repeated *)
Record gseg (ins : list instr) (a b : N) : Prop := {
  gs_ab : a + 3 <= b;
  gs_len : b = N.of_nat (length ins);
  gs_term : exists bt x y, ix ins (b - 2) = Some x /\ ix ins (b - 1) = Some y /\ cterm bt x /\ cterm (negb bt) y;
  gs_node : forall i x, a <= i < b - 2 -> ix ins i = Some x -> i_idx x < cbot /\ i < i_lo x < b /\ i < i_hi x < b
}.
(** (number of removed entries among the first [j]) *)
Definition cntn (rem : list bool) (j : nat) : nat := length (filter (fun z : bool => z = true) (take j rem)).

Section or_var.
Context {E : Env}.

Lemma imap_find_ins m x v y : imap_find (imap_ins x v m) y = match imap_find m y with Some k => Some k | None => if ci_eqb x y then Some v else None end.
Proof.
  unfold imap_ins. destruct (imap_find m x) as [k|] eqn:Hx.
  - destruct (imap_find m y) as [k'|] eqn:Hy; [done|]. destruct (ci_eqb x y) eqn:He; [|done]. apply ci_eqb_eq in He as ->. congruence.
  - cbn [imap_find]. destruct (ci_eqb x y) eqn:He; [apply ci_eqb_eq in He as ->; by rewrite Hx|]. by destruct (imap_find m y).
Qed.

Section ored.
Context (ins : list instr) (a b : N) (Hg : pseg ins a b) (Hsm : b < two64).

Lemma ps_ix i : i < b -> exists x, ix ins i = Some x.
Proof. intros Hi. apply lookup_lt_is_Some_2. pose proof (ps_len _ _ _ Hg). lia. Qed.
Lemma ps_dist' i j x : a <= i < b -> a <= j < b -> ix ins i = Some x -> ix ins j = Some x -> i = j.
Proof.
  intros Hi Hj Hx Hy. destruct (ps_term _ _ _ Hg) as (bt&x1&x2&H1&H2&T1&T2). pose proof (ps_ab _ _ _ Hg).
  destruct (decide (i < b - 2)) as [Li|Li], (decide (j < b - 2)) as [Lj|Lj].
  - eapply (ps_dist _ _ _ Hg); eauto; lia.
  - destruct (ps_node _ _ _ Hg i x) as [Hne _]; [lia|done|]. exfalso. assert (j = b - 2 \/ j = b - 1) as [->| ->] by lia; simplify_eq; by destruct T1, T2.
  - destruct (ps_node _ _ _ Hg j x) as [Hne _]; [lia|done|]. exfalso. assert (i = b - 2 \/ i = b - 1) as [->| ->] by lia; simplify_eq; by destruct T1, T2.
  - assert (i = b - 2 \/ i = b - 1) as [->| ->] by lia; assert (j = b - 2 \/ j = b - 1) as [->| ->] by lia; try done; simplify_eq;
      pose proof (cterm_fun _ _ _ T1 T2) as Hb; by destruct bt.
Qed.
Lemma reduce1_id rem l : Forall (fun i => a <= i < b - 2) l -> reduce1 a l ins rem = inr (ins, rem).
Proof.
  induction 1 as [|i l Hi _ IH]; [done|]. cbn [reduce1]. destruct (ps_ix i) as [x Hx]; [lia|]. destruct (ps_node _ _ _ Hg i x Hi Hx) as (Hne&_&Hl&Hh).
  destruct (ps_ix (i_lo x)) as [y Hy]; [lia|]. destruct (ps_ix (i_hi x)) as [z Hz]; [lia|].
  rewrite (vecR_eq _ _ _ Hx). cbn [bindR]. rewrite (vecR_eq _ _ _ Hy). cbn [bindR]. rewrite (vecR_eq _ _ _ Hz). cbn [bindR].
  assert (Hn : forall u : instr, negb (ci_is_term u) && (i_lo u =? i_hi u) = false) by (intros u; unfold ci_is_term; destruct (i_lo u =? i_hi u); done).
  rewrite !Hn. cbn [bindR]. rewrite (proj2 (N.eqb_neq _ _) Hne). rewrite list_insert_id by (by destruct x). exact IH.
Qed.
Lemma nth_repeat_false n k : nth k (repeat false n) false = false.
Proof. revert k. induction n as [|n IH]; intros [|k]; simpl; auto. Qed.
Lemma reduce2_id rn : forall k m, a <= k <= b - 2 ->
  (forall j x, k <= j < b -> ix ins j = Some x -> imap_find m x = Some j) ->
  (forall x j, imap_find m x = Some j -> k <= j < b /\ ix ins j = Some x) ->
  reduce2 a (down_to a k) ins (repeat false rn) m = inr (ins, repeat false rn).
Proof.
  intros k. remember (N.to_nat (k - a)) as n eqn:Hn. revert k Hn. induction n as [|n IH]; intros k Hn m Hk Hm1 Hm2.
  - rewrite down_to_nil by lia. done.
  - rewrite down_to_cons by lia. cbn [reduce2]. rewrite nth_repeat_false. destruct (ps_ix (k - 1)) as [x Hx]; [lia|].
    destruct (ps_node _ _ _ Hg (k - 1) x) as (Hne&_&Hl&Hh); [lia|done|]. rewrite (vecR_eq _ _ _ Hx). cbn [bindR].
    assert (Hf : imap_find m x = None).
    { destruct (imap_find m x) as [j|] eqn:Hj; [|done]. destruct (Hm2 _ _ Hj) as [Hj1 Hj2]. pose proof (ps_dist' (k - 1) j x ltac:(lia) ltac:(lia) Hx Hj2). lia. }
    rewrite Hf. destruct (ps_ix (i_lo x)) as [y Hy]; [lia|]. destruct (ps_ix (i_hi x)) as [z Hz]; [lia|]. rewrite (vecR_eq _ _ _ Hy). cbn [bindR].
    rewrite imap_find_ins, (Hm1 (i_lo x) y) by (auto; lia). rewrite list_insert_id by (by destruct x). rewrite (vecR_eq _ _ _ Hz). cbn [bindR].
    rewrite imap_find_ins, (Hm1 (i_hi x) z) by (auto; lia). rewrite list_insert_id by (by destruct x). apply IH; [lia|lia| |].
    + intros j u Hj Hu. rewrite imap_find_ins. destruct (decide (j = k - 1)) as [->|Hjk].
      * assert (u = x) as -> by congruence. rewrite Hf. by rewrite (proj2 (ci_eqb_eq x x) eq_refl).
      * by rewrite (Hm1 j u) by (auto; lia).
    + intros u j. rewrite imap_find_ins. destruct (imap_find m u) as [j'|] eqn:Hj'.
      * intros [= ->]. destruct (Hm2 _ _ Hj') as [? ?]. split; [lia|done].
      * destruct (ci_eqb x u) eqn:He; [|done]. apply ci_eqb_eq in He as ->. intros [= <-]. split; [lia|done].
Qed.
Lemma removed_false n j : j < N.of_nat n -> removed_before (repeat false n) j = inr 0.
Proof.
  intros Hj. unfold removed_before. rewrite repeat_length. rewrite (proj2 (N.ltb_lt _ _) Hj). f_equal.
  assert (Hz : forall k m, length (filter (fun b : bool => b = true) (take k (repeat false m))) = 0%nat).
  { intros k m. revert k. induction m as [|m IH]; intros [|k]; simpl; auto. rewrite filter_cons_False by done. apply IH. }
  by rewrite Hz.
Qed.
Lemma reduce3_id l : Forall (fun i => a <= i < b - 2) l -> exists r, reduce3 a l ins (repeat false (N.to_nat (b - a))) = inr r /\ Forall2 (fun i x => ix ins i = Some x) l r.
Proof.
  induction 1 as [|i l Hi _ (r&Hr&Hf)]; [exists []; auto|]. cbn [reduce3]. rewrite nth_repeat_false. destruct (ps_ix i) as [x Hx]; [lia|].
  destruct (ps_node _ _ _ Hg i x Hi Hx) as (Hne&_&Hl&Hh). rewrite (vecR_eq _ _ _ Hx). cbn [bindR].
  rewrite !sub64_small by lia. rewrite !removed_false by lia. cbn [bindR]. rewrite Hr. cbn [bindR]. rewrite !sub64_small by lia. rewrite !N.sub_0_r.
  exists (x :: r). split; [by destruct x|auto].
Qed.
Lemma down_to_in k i : i ∈ down_to a k -> a <= i < k.
Proof.
  remember (N.to_nat (k - a)) as n eqn:Hn. revert k Hn. induction n as [|n IH]; intros k Hn; [rewrite down_to_nil by lia; by intros ?%elem_of_nil|].
  rewrite down_to_cons by lia. intros [->|Hin]%elem_of_cons; [lia|]. specialize (IH (k - 1) ltac:(lia) Hin). lia.
Qed.
Lemma down_to_rev k j : (j < N.to_nat (k - a))%nat -> reverse (down_to a k) !! j = Some (a + N.of_nat j).
Proof.
  remember (N.to_nat (k - a)) as n eqn:Hn. revert k Hn. induction n as [|n IH]; intros k Hn Hj; [lia|].
  assert (Hlen : length (reverse (down_to a (k - 1))) = n).
  { rewrite reverse_length. unfold down_to. rewrite map_length, seq_length. lia. }
  rewrite down_to_cons by lia. rewrite reverse_cons. destruct (decide (j < n)%nat) as [Hlt|Hge].
  - rewrite lookup_app_l by lia. apply IH; lia.
  - rewrite lookup_app_r by lia. replace (j - length (reverse (down_to a (k - 1))))%nat with 0%nat by lia. simpl. f_equal. lia.
Qed.
Lemma is_bdd_ps del nr : nr + 2 = N.of_nat (length del) -> ix del nr = Some a -> ix del (nr + 1) = Some b -> is_bdd (Coll ins del) nr = inr true.
Proof.
  intros Hnr Ha Hb. pose proof (ps_ab _ _ _ Hg) as Hab. pose proof (ps_len _ _ _ Hg) as Hlen.
  unfold is_bdd, nr_bdd_nodes, nr_bdds, del_at. cbn [c_del c_ins]. rewrite !assertR_true by (apply N.ltb_lt; lia).
  rewrite (vecR_eq _ _ _ Ha), (vecR_eq _ _ _ Hb). cbn [bindR]. rewrite sub64_small by lia. rewrite (proj2 (N.ltb_ge _ _)) by lia. cbn [bindR].
  destruct (ps_term _ _ _ Hg) as (bt&x&y&Hx&Hy&Tx&Ty). rewrite ?(vecR_eq _ _ _ Hx), ?(vecR_eq _ _ _ Hy). cbn [bindR]. rewrite ?(vecR_eq _ _ _ Hx), ?(vecR_eq _ _ _ Hy). cbn [bindR].
  destruct (cterm_instr _ _ Tx) as (->&Tx1&Tx2). destruct (cterm_instr _ _ Ty) as (->&Ty1&Ty2). cbn [negb].
  assert (Hne : ci_eqb x y = false).
  { apply not_true_iff_false. intros ->%ci_eqb_eq. rewrite Tx1 in Ty1. by destruct bt. }
  rewrite Hne. destruct (slice_eq (Coll ins del) a (b - 2)) as (l&->&Hl&Hlk); [lia|cbn [c_ins]; lia|]. cbn [bindR]. f_equal.
  apply is_bdd_loop_true; [|lia| |].
  - intros k z Hk. pose proof (lookup_lt_Some _ _ _ Hk). rewrite Hlk in Hk by lia.
    destruct (ps_node _ _ _ Hg (a + N.of_nat k) z ltac:(lia) Hk) as (?&_&?&?). done.
  - intros k z _ Hin. by apply elem_of_nil in Hin.
  - intros k k' z Hk Hk'. pose proof (lookup_lt_Some _ _ _ Hk). pose proof (lookup_lt_Some _ _ _ Hk').
    rewrite Hlk in Hk, Hk' by lia. pose proof (ps_dist _ _ _ Hg (a + N.of_nat k) (a + N.of_nat k') z ltac:(lia) ltac:(lia) Hk Hk'). lia.
Qed.
Lemma reduce_id del : ix del (N.of_nat (length del) - 2) = Some a -> ix del (N.of_nat (length del) - 1) = Some b -> (2 <= length del)%nat ->
  reduce (Coll ins del) = inr (Coll ins del).
Proof.
  intros Ha Hb Hl. unfold reduce. unfold nr_bdds at 1. cbn [c_del c_ins]. rewrite assertR_true by (apply N.ltb_lt; lia). cbn [bindR].
  assert (Hnr : nr_bdds (Coll ins del) - 1 = N.of_nat (length del) - 2) by (unfold nr_bdds; cbn [c_del]; lia). rewrite Hnr.
  unfold del_at. cbn [c_del]. rewrite (vecR_eq _ _ _ Ha). cbn [bindR]. replace (N.of_nat (length del) - 2 + 1) with (N.of_nat (length del) - 1) by lia.
  rewrite (vecR_eq _ _ _ Hb). cbn [bindR]. pose proof (ps_ab _ _ _ Hg) as Hab. pose proof (ps_len _ _ _ Hg) as Hlen.
  rewrite reduce1_id by (apply Forall_forall; intros i Hi%down_to_in; lia). cbn [bindR].
  destruct (ps_term _ _ _ Hg) as (bt&x&y&Hx&Hy&Tx&Ty). rewrite ?(vecR_eq _ _ _ Hx), ?(vecR_eq _ _ _ Hy). cbn [bindR]. rewrite ?(vecR_eq _ _ _ Hx), ?(vecR_eq _ _ _ Hy). cbn [bindR].
  assert (Hxy : ci_eqb y x = false).
  { apply not_true_iff_false. intros ->%ci_eqb_eq. pose proof (cterm_fun _ _ _ Tx Ty). by destruct bt. }
  rewrite reduce2_id; [|lia| |].
  2:{ intros j u Hj Hu. rewrite imap_find_ins. cbn [imap_find]. assert (j = b - 2 \/ j = b - 1) as [->| ->] by lia.
      - assert (u = x) as -> by congruence. by rewrite Hxy, (proj2 (ci_eqb_eq x x) eq_refl).
      - assert (u = y) as -> by congruence. by rewrite (proj2 (ci_eqb_eq y y) eq_refl). }
  2:{ intros u j. rewrite imap_find_ins. cbn [imap_find]. destruct (ci_eqb y u) eqn:H1; [apply ci_eqb_eq in H1 as ->; intros [= <-]; split; [lia|done]|].
      destruct (ci_eqb x u) eqn:H2; [apply ci_eqb_eq in H2 as ->; intros [= <-]; split; [lia|done]|done]. }
  cbn [bindR]. destruct (reduce3_id (reverse (down_to a (b - 2)))) as (r&Hr&Hf).
  { apply Forall_forall. intros i Hi. rewrite elem_of_reverse in Hi. apply down_to_in in Hi. lia. }
  rewrite Hr. cbn [bindR].
  assert (Hrl : length r = N.to_nat (b - 2 - a)).
  { rewrite <- (Forall2_length _ _ _ Hf), reverse_length. unfold down_to. rewrite map_length, seq_length. done. }
  assert (Hins : take (N.to_nat a) ins ++ r ++ [x; y] = ins).
  { apply list_eq. intros i. destruct (decide (i < N.to_nat a)%nat) as [H1|H1].
    - rewrite lookup_app_l by (rewrite take_length; lia). by rewrite lookup_take.
    - rewrite lookup_app_r by (rewrite take_length; lia). rewrite take_length, Nat.min_l by lia. destruct (decide (i < N.to_nat (b - 2))%nat) as [H2|H2].
      + rewrite lookup_app_l by lia. destruct (Forall2_lookup_l _ _ _ _ _ Hf (down_to_rev (b - 2) (i - N.to_nat a) ltac:(lia))) as (z&Hz&Hz').
        rewrite Hz, <- Hz'. f_equal. lia.
      + rewrite lookup_app_r by lia. destruct (decide (i < N.to_nat b)%nat) as [H3|H3].
        * assert (i = N.to_nat (b - 2) \/ i = N.to_nat (b - 1)) as [->| ->] by lia.
          -- rewrite Hx. by replace (N.to_nat (b - 2) - N.to_nat a - length r)%nat with 0%nat by lia.
          -- rewrite Hy. by replace (N.to_nat (b - 1) - N.to_nat a - length r)%nat with 1%nat by lia.
        * rewrite !(proj2 (lookup_ge_None _ _)); [done|lia|simpl; lia]. }
  rewrite Hins. assert (Hd : take (length del - 1) del ++ [N.of_nat (length ins)] = del).
  { rewrite <- Hlen. apply list_eq. intros i. destruct (decide (i < length del - 1)%nat) as [H1|H1].
    - rewrite lookup_app_l by (rewrite take_length; lia). by rewrite lookup_take.
    - rewrite lookup_app_r by (rewrite take_length; lia). rewrite take_length, Nat.min_l by lia. destruct (decide (i = length del - 1)%nat) as [->|Hne].
      + rewrite Nat.sub_diag. simpl. rewrite <- Hb. f_equal. lia.
      + rewrite !(proj2 (lookup_ge_None _ _)); [done|lia|simpl; lia]. }
  rewrite Hd. rewrite assertRR_true; [done|]. apply is_bdd_ps; [lia|done|]. rewrite <- Hb. f_equal. lia.
Qed.
End ored.

(** ** the copy made by bdd_or_var *)
Section copy.
Context (c : coll) (HI : CInv c) (nr a b : N) (Hs : cseg c nr a b) (Hsm : csmall c) (pos neg : N -> bool).
Notation ins := (c_ins c).
Notation a' := (N.of_nat (length (c_ins c))).
Let Hg : seg ins a b := ci_seg _ HI _ _ _ Hs.

Definition oshift (d : N) (x : instr) : instr := if ci_is_term x then x else Instr (add64 (i_lo x) d) (add64 (i_hi x) d) (i_idx x).
Definition copied (ti : N) (l : list instr) : list instr := map (or_var_reroute pos neg ti) (map (oshift (sub64 (back_del c) a)) l).

Context (l : list instr) (Hl : length l = N.to_nat (b - a)) (Hlk : forall i, (i < N.to_nat (b - a))%nat -> l !! i = ix ins (a + N.of_nat i)).
Context (T : N) (HT : b - 2 <= T < b) (eT : instr) (HeT : ix ins T = Some eT) (HTt : i_idx eT = ctop).
Notation n := (a' + (b - a)).
Notation ti := (a' + (T - a)).

Lemma copied_inner i x : a <= i < b - 2 -> ix ins i = Some x ->
  ix (ins ++ copied ti l) (a' + (i - a)) = Some (Instr (if neg (i_idx x) then ti else a' + (i_lo x - a)) (if pos (i_idx x) then ti else a' + (i_hi x - a)) (i_idx x)).
Proof.
  intros Hi Hx. destruct (sg_node _ _ _ Hg i x Hi Hx) as (Hne&Hv&Hlo&Hhi). pose proof (sg_len _ _ _ Hg). unfold csmall in Hsm.
  rewrite lookup_app_r by lia. unfold copied. rewrite !list_lookup_fmap. rewrite Hlk by lia.
  replace (a + N.of_nat (N.to_nat (a' + (i - a)) - length ins)) with i by lia. rewrite Hx. cbn [fmap option_fmap option_map]. f_equal.
  rewrite (back_del_len _ HI). rewrite sub64_small by (unfold two64; lia). unfold oshift.
  destruct (cnode_instr _ Hne Hv) as (->&_&_). rewrite !add64_small by (unfold two64; lia). unfold or_var_reroute. unfold ci_is_term. cbn [i_lo i_hi i_idx].
  rewrite (proj2 (N.eqb_neq _ _)) by lia. f_equal; [destruct (neg (i_idx x))|destruct (pos (i_idx x))]; lia.
Qed.
Lemma copied_term i x : b - 2 <= i < b -> ix ins i = Some x -> ix (ins ++ copied ti l) (a' + (i - a)) = Some x.
Proof.
  intros Hi Hx. pose proof (sg_ab _ _ _ Hg). destruct (seg_last _ _ _ Hg i x Hi Hx) as [bx Tx]. destruct (cterm_instr _ _ Tx) as (H1&_&_).
  rewrite lookup_app_r by lia. unfold copied. rewrite !list_lookup_fmap. rewrite Hlk by lia.
  replace (a + N.of_nat (N.to_nat (a' + (i - a)) - length ins)) with i by lia. rewrite Hx. cbn [fmap option_fmap option_map]. f_equal.
  unfold oshift. rewrite H1. unfold or_var_reroute. by rewrite H1.
Qed.
Lemma copied_len : N.of_nat (length (ins ++ copied ti l)) = n.
Proof. unfold copied. rewrite app_length, !map_length, Hl. lia. Qed.

Context (Hcl1 : forall y, centry c nr y -> i_lo (redirected pos neg T y) <> i_hi (redirected pos neg T y)).
Context (Hcl2 : forall y z, centry c nr y -> centry c nr z -> redirected pos neg T y = redirected pos neg T z -> y = z).

Lemma copied_pseg : pseg (ins ++ copied ti l) a' n.
Proof.
  pose proof (sg_ab _ _ _ Hg) as Hab.
  assert (Hce : forall i x, a <= i < b - 2 -> ix ins i = Some x -> centry c nr x) by (intros i x Hi Hx; by exists a, b, i).
  assert (Hin : forall i x, a' <= i < n - 2 -> ix (ins ++ copied ti l) i = Some x -> exists y, a <= i - a' + a < b - 2 /\ ix ins (i - a' + a) = Some y /\
    x = Instr (if neg (i_idx y) then ti else a' + (i_lo y - a)) (if pos (i_idx y) then ti else a' + (i_hi y - a)) (i_idx y)).
  { intros i x Hi Hx. destruct (seg_ix _ _ _ Hg (i - a' + a)) as [y Hy]; [lia|]. exists y. split; [lia|]. split; [done|].
    pose proof (copied_inner (i - a' + a) y ltac:(lia) Hy) as Hc. replace (a' + (i - a' + a - a)) with i in Hc by lia. congruence. }
  split.
  - lia.
  - by rewrite copied_len.
  - destruct (sg_term _ _ _ Hg) as (bt&x&y&Hx&Hy&Tx&Ty). exists bt, x, y. split_and!; auto.
    + rewrite <- (copied_term (b - 2) x ltac:(lia) Hx). f_equal. lia.
    + rewrite <- (copied_term (b - 1) y ltac:(lia) Hy). f_equal. lia.
  - intros i x Hi Hx. destruct (Hin i x Hi Hx) as (y&Hi'&Hy&->). cbn [i_lo i_hi i_idx]. destruct (sg_node _ _ _ Hg _ _ Hi' Hy) as (Hne&Hv&Hlo&Hhi).
    pose proof (Hcl1 y (Hce _ _ Hi' Hy)) as Hc. unfold redirected in Hc. cbn [i_lo i_hi] in Hc.
    split_and!; [|done|destruct (neg (i_idx y)); lia..|destruct (pos (i_idx y)); lia|destruct (pos (i_idx y)); lia].
    destruct (neg (i_idx y)), (pos (i_idx y)); lia.
  - intros i j x Hi Hj Hx Hx'. destruct (Hin i x Hi Hx) as (y&Hi'&Hy&->). destruct (Hin j _ Hj Hx') as (z&Hj'&Hz&He). injection He as E1 E2 E3.
    destruct (sg_node _ _ _ Hg _ _ Hi' Hy) as (_&_&Hlo&Hhi). destruct (sg_node _ _ _ Hg _ _ Hj' Hz) as (_&_&Hlo'&Hhi').
    assert (y = z) as ->.
    { apply Hcl2; eauto. unfold redirected. rewrite E3 in *. f_equal; [destruct (neg (i_idx z))|destruct (pos (i_idx z))]; lia. }
    pose proof (sg_dist _ _ _ Hg _ _ z Hi' Hj' Hy Hz). lia.
Qed.
(** the tree of the copy *)
Fixpoint orlit (t : bdd) : bdd :=
  match t with
  | Leaf z => Leaf z
  | Br v tl th => Br v (if neg v then Leaf true else orlit tl) (if pos v then Leaf true else orlit th)
  end.
Lemma copied_top : crep (ins ++ copied ti l) ti (Leaf true).
Proof.
  eapply crep_leaf; [by apply copied_term|]. destruct (seg_last _ _ _ Hg T eT HT HeT) as [bx Tx].
  destruct bx; [done|]. destruct Tx as [_ Tx]. rewrite HTt in Tx. done.
Qed.
Lemma copied_crep i t : a <= i < b -> crep ins i t -> crep (ins ++ copied ti l) (a' + (i - a)) (orlit t).
Proof.
  intros Hi Hr. induction Hr as [i x z Hx Hz|i x tl th Hx Hne Hv Hlo Hhi Hrl IHl Hrh IHh].
  - assert (Hi' : b - 2 <= i < b).
    { destruct (decide (i < b - 2)); [|lia]. destruct (sg_node _ _ _ Hg i x) as [Hne _]; [lia|done|]. by destruct Hz. }
    eapply crep_leaf; [by apply copied_term|done].
  - assert (Hi' : a <= i < b - 2).
    { destruct (decide (i < b - 2)); [lia|]. destruct (seg_last _ _ _ Hg i x) as [z [? _]]; [lia|done|done]. }
    destruct (sg_node _ _ _ Hg i x Hi' Hx) as (_&_&Hl1&Hh1). specialize (IHl ltac:(lia)). specialize (IHh ltac:(lia)).
    assert (Hce : centry c nr x) by (by exists a, b, i).
    pose proof (Hcl1 x Hce) as Hc. unfold redirected in Hc. cbn [i_lo i_hi] in Hc.
    pose proof (copied_inner i x Hi' Hx) as Hn. pose proof copied_top as Htop.
    cbn [orlit]. change (i_idx x) with (i_idx (Instr (if neg (i_idx x) then ti else a' + (i_lo x - a)) (if pos (i_idx x) then ti else a' + (i_hi x - a)) (i_idx x))) at 1.
    apply crep_node; [exact Hn|cbn [i_lo i_hi]..|exact Hv| | | |]; cbn [i_lo i_hi];
      destruct (neg (i_idx x)), (pos (i_idx x)); try done; lia.
Qed.
End copy.

Lemma cval_crep c nr a t x : nr < nr_bdds c -> ix (c_del c) nr = Some a -> crep (c_ins c) a t -> cval c nr x = evp t x.
Proof.
  intros Hn Ha Ht. unfold cval, c_evaluate. rewrite assertR_true by (by apply N.ltb_lt). cbn [bindR]. rewrite (del_at_eq _ _ _ Ha). cbn [bindR].
  pose proof (c_eval_spec c x a t Ht (S (length (c_ins c)))) as He. apply crep_ht in Ht. specialize (He ltac:(lia)). destruct (evp t x); [by rewrite He|]. by destruct He as [e ->].
Qed.
(** the walk of x through [t] meets a true literal *)
Lemma orlit_true pos neg c x i t : crep (c_ins c) i t -> (forall v, occurs v t -> v < N.of_nat (length x)) ->
  evalt (orlit pos neg t) (asg x) = true <->
  evalt t (asg x) = true \/ exists v j e, cwalk c x i j /\ ix (c_ins c) j = Some e /\ i_lo e <> i_hi e /\ i_idx e = v /\ lit_true pos neg x v.
Proof.
  induction 1 as [i y z Hy Hz|i y tl th Hy Hne Hv Hlo Hhi Hrl IHl Hrh IHh]; intros Hocc; cbn [orlit evalt].
  - split; [by left|]. intros [?|(v&j&e&Hw&He&Hlh&_)]; [done|]. inversion Hw as [|? ? ? ? Hy' Hlh']; subst; simplify_eq; by destruct Hz.
  - destruct (lookup_lt_is_Some_2 x (N.to_nat (i_idx y))) as [bv Hbv]. { specialize (Hocc (i_idx y)). simpl in Hocc. specialize (Hocc ltac:(auto)). lia. }
    specialize (IHl ltac:(intros; apply Hocc; simpl; auto)). specialize (IHh ltac:(intros; apply Hocc; simpl; auto)).
    assert (Hasg : asg x (i_idx y) = bv) by (unfold asg; by rewrite Hbv). rewrite !Hasg.
    assert (Hthis : lit_true pos neg x (i_idx y) <-> (if bv then pos (i_idx y) else neg (i_idx y)) = true).
    { unfold lit_true. rewrite Hbv. destruct bv; intuition congruence. }
    assert (Hwalk : (exists v j e, cwalk c x i j /\ ix (c_ins c) j = Some e /\ i_lo e <> i_hi e /\ i_idx e = v /\ lit_true pos neg x v) <->
      lit_true pos neg x (i_idx y) \/ exists v j e, cwalk c x (if bv then i_hi y else i_lo y) j /\ ix (c_ins c) j = Some e /\ i_lo e <> i_hi e /\ i_idx e = v /\ lit_true pos neg x v).
    { split.
      - intros (v&j&e&Hw&He&Hlh&<-&Hlit). inversion Hw as [|? ? e' b' He' Hlh' Hb' Hw']; subst; simplify_eq; [by left|]. right. eauto 10.
      - intros [Hlit|(v&j&e&Hw&?)]; [exists (i_idx y), i, y; split_and!; auto using cw_here|]. exists v, j, e. split; [|done]. by eapply cw_step. }
    rewrite Hwalk, Hthis. destruct bv.
    + destruct (pos (i_idx y)); [simpl; tauto|]. rewrite IHh. intuition congruence.
    + destruct (neg (i_idx y)); [simpl; tauto|]. rewrite IHl. intuition congruence.
Qed.

(** ** Evaluation as a relation *)
Inductive cev (ins : list instr) (x : list bool) : N -> bool -> Prop :=
| cev_t (i : N) (e : instr) (b : bool) : ix ins i = Some e -> i_idx e = (if b then ctop else cbot) -> cev ins x i b
| cev_n (i : N) (e : instr) (z b : bool) : ix ins i = Some e -> i_idx e < cbot -> x !! N.to_nat (i_idx e) = Some z ->
    cev ins x (if z then i_hi e else i_lo e) b -> cev ins x i b.
(** arcs in [a, b) go forward and stay inside *)
Definition fwd (ins : list instr) (a b : N) : Prop :=
  b <= N.of_nat (length ins) /\ forall i e, a <= i < b -> ix ins i = Some e -> i_idx e < cbot -> i < i_lo e < b /\ i < i_hi e < b.
Lemma cev_eval c a b x i v : fwd (c_ins c) a b -> cev (c_ins c) x i v -> a <= i < b ->
  forall fuel, (N.to_nat (b - i) <= fuel)%nat -> c_eval_fuel fuel c i x = inr v.
Proof.
  intros [Hl HF] H. induction H as [i e v Hi He|i e z v Hi Hlt Hz H IH]; intros Hr [|fuel] Hf; try lia; cbn [c_eval_fuel]; rewrite (vecR_eq _ _ _ Hi); cbn [bindR].
  - unfold ci_is_top, ci_is_bot. rewrite He. by destruct v.
  - unfold ci_is_top, ci_is_bot. rewrite (proj2 (N.eqb_neq (i_idx e) ctop)), (proj2 (N.eqb_neq (i_idx e) cbot)) by (unfold ctop, cbot in *; lia).
    rewrite assertR_true by (apply N.ltb_lt; apply lookup_lt_Some in Hz; lia). cbn [bindR]. rewrite Hz.
    destruct (HF i e Hr Hi Hlt). destruct z; apply IH; lia.
Qed.
Lemma cev_fun ins x i v v' : cev ins x i v -> cev ins x i v' -> v = v'.
Proof.
  intros H. revert v'. induction H as [i e v Hi He|i e z v Hi Hlt Hz H IH]; intros v' H'; inversion H' as [i' e' b Hi' He'|i' e' z' b Hi' Hlt' Hz' H1]; subst; simplify_eq.
  - destruct v, v'; try done; rewrite He in He'; discriminate He'.
  - rewrite He in Hlt'. destruct v; unfold ctop, cbot in Hlt'; lia.
  - rewrite He' in Hlt. destruct v'; unfold ctop, cbot in Hlt; lia.
  - by apply IH.
Qed.
Lemma seg_fwd ins a b : seg ins a b -> fwd ins a b.
Proof.
  intros Hg. split; [apply (sg_len _ _ _ Hg)|]. intros i e Hi He Hlt. destruct (decide (i < b - 2)) as [Hb|Hb].
  - destruct (sg_node _ _ _ Hg i e ltac:(lia) He) as (_&_&?&?). lia.
  - destruct (seg_last _ _ _ Hg i e ltac:(lia) He) as [d Hd]. destruct Hd as [_ Hd]. rewrite Hd in Hlt. destruct d; unfold ctop, cbot in *; lia.
Qed.
Lemma crep_cev ins i t x : crep ins i t -> forall b, evp t x = Some b <-> cev ins x i b.
Proof.
  induction 1 as [i e d He Ht|i e tl th He Hne Hv Hl Hh _ IHl _ IHh]; intros b; simpl.
  - destruct Ht as [_ Hd]. split.
    + intros [= ->]. eapply cev_t; [done|]. by rewrite Hd.
    + intros H. f_equal. eapply cev_fun; [|exact H]. eapply cev_t; [done|]. by rewrite Hd.
  - split.
    + destruct (x !! N.to_nat (i_idx e)) as [z|] eqn:Hz; [|done]. intros H. eapply cev_n; [done|done|done|]. destruct z; [by apply IHh|by apply IHl].
    + intros H. inversion H as [i' e' b' Hi' He'|i' e' z' b' Hi' Hlt' Hz' H1]; subst; simplify_eq.
      * rewrite He' in Hv. destruct b; unfold ctop, cbot in *; lia.
      * rewrite Hz'. destruct z'; [by apply IHh|by apply IHl].
Qed.
Definition fail_or_ub : err := if e_ndebug then EUB else EAssert.

Lemma cntn_S rem j : (j < length rem)%nat -> cntn rem (S j) = (cntn rem j + if nth j rem false then 1 else 0)%nat.
Proof.
  intros Hj. unfold cntn. destruct (lookup_lt_is_Some_2 rem j Hj) as [z Hz]. rewrite (take_S_r _ _ _ Hz). rewrite filter_app, app_length.
  rewrite nth_lookup, Hz. simpl. destruct z; [rewrite filter_cons_True by done|rewrite filter_cons_False by done]; simpl; done.
Qed.
Lemma cntn_le rem j : (cntn rem j <= j)%nat.
Proof. unfold cntn. etransitivity; [apply filter_length|]. rewrite take_length. lia. Qed.
Lemma cntn_mono rem j k : (j <= k)%nat -> (cntn rem j <= cntn rem k)%nat /\ (cntn rem k - cntn rem j <= k - j)%nat.
Proof.
  intros H. unfold cntn. replace (take k rem) with (take j rem ++ take (k - j) (drop j rem)).
  - rewrite filter_app, app_length. split; [lia|]. assert (length (filter (fun z : bool => z = true) (take (k - j) (drop j rem))) <= k - j)%nat; [|lia].
    etransitivity; [apply filter_length|]. rewrite take_length. lia.
  - rewrite <- (take_drop j (take k rem)). rewrite take_take, Nat.min_l by lia. f_equal. by rewrite skipn_firstn_comm.
Qed.
Lemma removed_eq rem j : j < N.of_nat (length rem) -> N.of_nat (cntn rem (N.to_nat j)) < 128 -> removed_before rem j = inr (N.of_nat (cntn rem (N.to_nat j))).
Proof.
  intros Hj Hc. unfold removed_before. rewrite (proj2 (N.ltb_lt _ _) Hj). f_equal. fold (cntn rem (N.to_nat j)). unfold char_to_size. cbv zeta.
  rewrite N.mod_small by lia. by rewrite (proj2 (N.ltb_lt _ _) Hc).
Qed.
Lemma assertR_false {A} (e : err) (k : unit -> R A) : k tt = inl EUB -> (letR* u := assertR false in k u) = inl fail_or_ub.
Proof. intros H. unfold assertR, fail_or_ub. simpl. destruct e_ndebug; simpl; done. Qed.

Section ored.
Context (G : list instr) (a b : N) (Hg : gseg G a b) (Hsm : b < two64).
Notation rmd rem i := (nth (N.to_nat (i - a)) rem false).

Lemma gs_ix i : i < b -> exists x, ix G i = Some x.
Proof. intros Hi. apply lookup_lt_is_Some_2. pose proof (gs_len _ _ _ Hg). lia. Qed.
Definition ored (i : N) : Prop := i < b - 2 /\ exists x, ix G i = Some x /\ i_lo x = i_hi x.
Lemma rmd_ins rem i j : a <= i -> a <= j -> (N.to_nat (i - a) < length rem)%nat ->
  rmd (<[N.to_nat (i - a) := true]> rem) j = (j =? i) || rmd rem j.
Proof.
  intros Hi Hj Hl. rewrite !nth_lookup. destruct (decide (j = i)) as [->|Hne].
  - rewrite list_lookup_insert by done. by rewrite N.eqb_refl.
  - rewrite list_lookup_insert_ne by lia. by rewrite (proj2 (N.eqb_neq _ _) Hne).
Qed.
(** the first pass only marks the redundant entries *)
Lemma reduce1_gen : forall k rem, a <= k <= b - 2 -> length rem = N.to_nat (b - a) -> exists rem', reduce1 a (down_to a k) G rem = inr (G, rem') /\
  length rem' = N.to_nat (b - a) /\ forall i, a <= i -> rmd rem' i = true <-> rmd rem i = true \/ (i < k /\ ored i).
Proof.
  intros k. remember (N.to_nat (k - a)) as n eqn:Hn. revert k Hn. induction n as [|n IH]; intros k Hn rem Hk Hl.
  - rewrite down_to_nil by lia. exists rem. split; [done|]. split; [done|]. intros i Hi. split; [by left|]. intros [?|[? _]]; [done|lia].
  - rewrite down_to_cons by lia. cbn [reduce1]. destruct (gs_ix (k - 1)) as [x Hx]; [lia|]. destruct (gs_node _ _ _ Hg (k - 1) x ltac:(lia) Hx) as (_&Hlo&Hhi).
    destruct (gs_ix (i_lo x)) as [y Hy]; [lia|]. destruct (gs_ix (i_hi x)) as [z Hz]; [lia|].
    rewrite (vecR_eq _ _ _ Hx). cbn [bindR]. rewrite (vecR_eq _ _ _ Hy). cbn [bindR]. rewrite (vecR_eq _ _ _ Hz). cbn [bindR].
    assert (Hnn : forall u : instr, negb (ci_is_term u) && (i_lo u =? i_hi u) = false) by (intros u; unfold ci_is_term; destruct (i_lo u =? i_hi u); done).
    rewrite !Hnn. cbn [bindR]. rewrite list_insert_id by (by destruct x).
    destruct (IH (k - 1) ltac:(lia) (if i_lo x =? i_hi x then <[N.to_nat (k - 1 - a) := true]> rem else rem)) as (rem'&Hr&Hl'&Hrm).
    { lia. } { destruct (i_lo x =? i_hi x); [by rewrite insert_length|done]. }
    exists rem'. split; [done|]. split; [done|]. intros i Hi. rewrite (Hrm i Hi). destruct (i_lo x =? i_hi x) eqn:He.
    + apply N.eqb_eq in He. rewrite rmd_ins by lia. destruct (N.eqb_spec i (k - 1)) as [->|Hne].
      * simpl. split; [intros _|by left]. right. split; [lia|]. split; [lia|]. by exists x.
      * simpl. split; (intros [?|[? ?]]; [by left|]); right; (split; [lia|done]).
    + apply N.eqb_neq in He. split; (intros [?|[Hlt ?]]; [by left|]); right; (split; [|done]); [lia|].
      destruct (decide (i = k - 1)) as [->|]; [|lia]. destruct H as (_&x'&Hx'&?). by simplify_eq.
Qed.

(** the second pass *)
Definition eqv (p q : N) : Prop := (forall z d, cev G z p d -> cev G z q d) /\ forall x y, ix G p = Some x -> ix G q = Some y -> i_idx x = i_idx y.
Definition canon (rem : list bool) (j : N) : Prop := b - 2 <= j < b \/ a <= j < b - 2 /\ rmd rem j = false.
Record I2 (k : N) (ins : list instr) (rem : list bool) (m : list (instr * N)) : Prop := {
  i_len : length ins = length G;
  i_rlen : length rem = N.to_nat (b - a);
  i_old : forall i, i < k \/ b - 2 <= i -> ix ins i = ix G i;
  i_red : forall i, a <= i < b - 2 -> ored i -> rmd rem i = true /\ ix ins i = ix G i;
  i_below : forall i, a <= i < b -> i < k \/ b - 2 <= i -> rmd rem i = true -> ored i;
  i_new : forall (i : N) (x : instr), k <= i < b - 2 -> ix G i = Some x -> i_lo x <> i_hi x ->
    exists l h, ix ins i = Some (Instr l h (i_idx x)) /\ i < l < b /\ i < h < b /\ canon rem l /\ canon rem h /\ eqv (i_lo x) l /\ eqv (i_hi x) h /\ ~ ored (i_lo x) /\ ~ ored (i_hi x) ;
  i_map : forall x j, imap_find m x = Some j -> k <= j < b /\ canon rem j /\ ix G j = Some x;
  i_key : forall i x, k <= i < b -> ix G i = Some x -> (i < b - 2 -> i_lo x <> i_hi x) -> is_Some (imap_find m x);
  i_dup : forall i x, k <= i < b - 2 -> rmd rem i = true -> ix G i = Some x -> i_lo x <> i_hi x -> exists j, i < j < b - 2 /\ ix G j = Some x
}.

Lemma gs_last i x : b - 2 <= i < b -> ix G i = Some x -> exists d, cterm d x.
Proof.
  intros Hi Hx. destruct (gs_term _ _ _ Hg) as (bt&y&z&Hy&Hz&Ty&Tz). pose proof (gs_ab _ _ _ Hg).
  assert (i = b - 2 \/ i = b - 1) as [->| ->] by lia; simplify_eq; eauto.
Qed.
Lemma gs_inner i x : a <= i < b -> ix G i = Some x -> i_idx x < cbot -> i < b - 2.
Proof.
  intros Hi Hx Hlt. destruct (decide (i < b - 2)) as [?|Hb]; [done|exfalso]. destruct (gs_last i x) as [d [_ Hd]]; [lia|done|].
  rewrite Hd in Hlt. destruct d; unfold ctop, cbot in *; lia.
Qed.
Lemma same_eqv p q x : ix G p = Some x -> ix G q = Some x -> eqv p q.
Proof.
  intros Hp Hq. split; [|intros; simplify_eq; done]. intros z d H. inversion H as [i' e' b' Hi' He'|i' e' z' b' Hi' Hlt' Hz' H1]; subst; simplify_eq; [by eapply cev_t|by eapply cev_n].
Qed.
Lemma child_up k ins rem m p y : I2 k ins rem m -> k <= p < b -> a <= k -> ix ins p = Some y -> (p < i_lo y /\ p < i_hi y) \/ ~ i_idx y < cbot.
Proof.
  intros HI Hp Ha Hy. destruct (decide (p < b - 2)) as [Hpb|Hpb].
  - left. destruct (gs_ix p) as [x Hx]; [lia|]. destruct (gs_node _ _ _ Hg p x ltac:(lia) Hx) as (Hv&Hlo&Hhi).
    destruct (decide (i_lo x = i_hi x)) as [He|He].
    + destruct (i_red _ _ _ _ HI p ltac:(lia)) as [_ Hi]; [split; [lia|by exists x]|]. simplify_eq. rewrite Hi in Hy. simplify_eq. lia.
    + destruct (i_new _ _ _ _ HI p x ltac:(lia) Hx He) as (l&h&Hi&Hl&Hh&_). simplify_eq. cbn [i_lo i_hi]. lia.
  - right. rewrite (i_old _ _ _ _ HI) in Hy by lia. destruct (gs_last p y) as [d [_ Hd]]; [lia|done|]. rewrite Hd. destruct d; unfold ctop, cbot in *; lia.
Qed.
Lemma child_find k ins rem m p y q : I2 k ins rem m -> k <= p < b -> a <= k -> ix ins p = Some y -> imap_find m y = Some q ->
  k <= q < b /\ canon rem q /\ eqv p q /\ ~ ored p.
Proof.
  intros HI Hp Ha Hy Hq. destruct (i_map _ _ _ _ HI _ _ Hq) as (Hqr&Hcq&HGq). split; [done|]. split; [done|].
  destruct (decide (p < b - 2)) as [Hpb|Hpb].
  2:{ rewrite (i_old _ _ _ _ HI) in Hy by lia. split; [by eapply same_eqv|]. intros [? _]. lia. }
  destruct (gs_ix p) as [x Hx]; [lia|]. destruct (gs_node _ _ _ Hg p x ltac:(lia) Hx) as (Hv&Hlo&Hhi).
  destruct (decide (i_lo x = i_hi x)) as [He|He].
  - destruct (i_red _ _ _ _ HI p ltac:(lia)) as [_ Hi]; [split; [lia|by exists x]|]. rewrite Hi in Hy. simplify_eq.
    pose proof (gs_inner q y ltac:(lia) HGq Hv) as Hqb. destruct (i_red _ _ _ _ HI q ltac:(lia)) as [Hr _]; [split; [lia|by exists y]|].
    destruct Hcq as [?|[_ Hf]]; [lia|congruence].
  - destruct (i_new _ _ _ _ HI p x ltac:(lia) Hx He) as (l&h&Hi&Hl&Hh&_&_&El&Eh&_). simplify_eq. split.
    + split; [|intros u w Hu Hw; simplify_eq; done]. intros z d H. inversion H as [i' e' b' Hi' He'|i' e' z' b' Hi' Hlt' Hz' H1]; subst; simplify_eq.
      * rewrite He' in Hv. destruct d; unfold ctop, cbot in *; lia.
      * eapply cev_n; [exact HGq|exact Hv|exact Hz'|]. cbn [i_lo i_hi]. destruct z'; [by apply Eh|by apply El].
    + intros (_&x'&Hx'&?). by simplify_eq.
Qed.
Lemma reduce2_gen : forall k ins rem m, a <= k <= b - 2 -> I2 k ins rem m ->
  (exists ins' rem' m', reduce2 a (down_to a k) ins rem m = inr (ins', rem') /\ I2 a ins' rem' m') \/ reduce2 a (down_to a k) ins rem m = inl fail_or_ub.
Proof.
  intros k. remember (N.to_nat (k - a)) as n eqn:Hn. revert k Hn. induction n as [|n IH]; intros k Hn ins rem m Hk HI.
  { rewrite down_to_nil by lia. left. exists ins, rem, m. split; [done|]. by assert (k = a) as -> by lia. }
  rewrite down_to_cons by lia. cbn [reduce2]. set (i := k - 1). destruct (gs_ix i) as [x Hx]; [lia|].
  destruct (gs_node _ _ _ Hg i x ltac:(lia) Hx) as (Hv&Hlo&Hhi). destruct (rmd rem i) eqn:Hri.
  { pose proof (i_below _ _ _ _ HI i ltac:(lia) ltac:(lia) Hri) as Hred. apply IH; [lia|lia|]. destruct Hred as (_&x'&Hx'&He). simplify_eq. destruct HI. split; auto.
    - intros j Hj. apply i_old0. lia.
    - intros j Hj1 Hj2. apply i_below0; [done|]. lia.
    - intros j y Hj Hy Hne. apply i_new0; [|done..]. destruct (decide (j = i)) as [->|]; [simplify_eq; done|lia].
    - intros y j Hy. destruct (i_map0 y j Hy) as (?&?&?). split; [lia|done].
    - intros j y Hj Hy Hne. eapply i_key0; eauto. destruct (decide (j = i)) as [->|]; [simplify_eq; exfalso; apply Hne; [lia|done]|lia].
    - intros j y Hj Hr Hy Hne. eapply i_dup0; eauto. destruct (decide (j = i)) as [->|]; [simplify_eq; done|lia]. }
  assert (Hne : i_lo x <> i_hi x).
  { intros He. destruct (i_red _ _ _ _ HI i ltac:(lia)) as [Hr _]; [split; [lia|by exists x]|congruence]. }
  assert (Hix : ix ins i = Some x) by (rewrite (i_old _ _ _ _ HI); [done|lia]).
  rewrite (vecR_eq _ _ _ Hix). cbn [bindR].
  set (rem1 := match imap_find m x with Some _ => <[N.to_nat (i - a) := true]> rem | None => rem end).
  assert (Hr1 : forall j, a <= j -> rmd rem1 j = true -> rmd rem j = true \/ j = i /\ is_Some (imap_find m x)).
  { intros j Hj. unfold rem1. destruct (imap_find m x) as [q|]; [|by left]. rewrite rmd_ins; [|lia|done|rewrite (i_rlen _ _ _ _ HI); lia].
    destruct (N.eqb_spec j i) as [->|]; simpl; eauto. }
  assert (Hr2 : forall j, a <= j -> rmd rem j = true -> rmd rem1 j = true).
  { intros j Hj Hr. unfold rem1. destruct (imap_find m x) as [q|]; [|done]. rewrite rmd_ins; [|lia|done|rewrite (i_rlen _ _ _ _ HI); lia]. rewrite Hr. by destruct (j =? i). }
  assert (Hrl : length rem1 = N.to_nat (b - a)).
  { unfold rem1. destruct (imap_find m x); rewrite ?insert_length; apply (i_rlen _ _ _ _ HI). }
  assert (Hcan : forall j, k <= j -> canon rem j -> canon rem1 j).
  { intros j Hj [?|[Hj' Hf]]; [by left|]. right. split; [done|]. apply not_true_iff_false. intros Ht. destruct (Hr1 j ltac:(lia) Ht) as [?|[-> _]]; [congruence|lia]. }
  assert (HL : length ins = length G) by apply (i_len _ _ _ _ HI). pose proof (gs_len _ _ _ Hg) as HGl.
  destruct (lookup_lt_is_Some_2 ins (N.to_nat (i_lo x))) as [y Hy]; [lia|]. destruct (lookup_lt_is_Some_2 ins (N.to_nat (i_hi x))) as [z Hz]; [lia|].
  assert (Hxy : ci_eqb x y = false).
  { apply not_true_iff_false. intros <-%ci_eqb_eq. destruct (child_up _ _ _ _ (i_lo x) x HI) as [[? ?]|?]; [lia|lia|done|lia|done]. }
  assert (Hxz : ci_eqb x z = false).
  { apply not_true_iff_false. intros <-%ci_eqb_eq. destruct (child_up _ _ _ _ (i_hi x) x HI) as [[? ?]|?]; [lia|lia|done|lia|done]. }
  rewrite (vecR_eq _ _ _ Hy). cbn [bindR]. rewrite imap_find_ins, Hxy.
  destruct (imap_find m y) as [l|] eqn:Hl; [|right; by apply (assertR_false EUB)].
  assert (Hz1 : ix (<[N.to_nat i := Instr l (i_hi x) (i_idx x)]> ins) (i_hi x) = Some z) by (rewrite list_lookup_insert_ne by lia; done).
  rewrite (vecR_eq _ _ _ Hz1). cbn [bindR]. rewrite imap_find_ins, Hxz.
  destruct (imap_find m z) as [h|] eqn:Hh; [|right; by apply (assertR_false EUB)].
  destruct (child_find _ _ _ _ (i_lo x) y l HI ltac:(lia) ltac:(lia) Hy Hl) as (Hlr&Hcl&El&Rl).
  destruct (child_find _ _ _ _ (i_hi x) z h HI ltac:(lia) ltac:(lia) Hz Hh) as (Hhr&Hch&Eh&Rh).
  rewrite list_insert_insert. apply IH; [lia|lia|]. split.
  - by rewrite insert_length.
  - done.
  - intros j Hj. rewrite list_lookup_insert_ne by lia. apply (i_old _ _ _ _ HI). lia.
  - intros j Hj Hr. destruct (i_red _ _ _ _ HI j Hj Hr) as [H1 H2]. split; [apply Hr2; [lia|done]|]. destruct (decide (j = i)) as [->|].
    + congruence.
    + by rewrite list_lookup_insert_ne by lia.
  - intros j Hj1 Hj2 Hr. destruct (Hr1 j ltac:(lia) Hr) as [?|[-> _]]; [apply (i_below _ _ _ _ HI); [lia|lia|done]|lia].
  - intros j u Hj Hu Hun. destruct (decide (j = i)) as [->|].
    + simplify_eq. exists l, h. split; [apply list_lookup_insert; lia|]. split_and!; try lia; auto.
      * apply Hcan; [lia|done].
      * apply Hcan; [lia|done].
    + destruct (i_new _ _ _ _ HI j u ltac:(lia) Hu Hun) as (l'&h'&?&?&?&?&?&?). exists l', h'. rewrite list_lookup_insert_ne by lia. split_and!; try lia; try done.
      * apply Hcan; [lia|done].
      * apply Hcan; [lia|done].
      * tauto.
      * tauto.
      * tauto.
      * tauto.
  - intros u j. rewrite imap_find_ins. destruct (imap_find m u) as [q|] eqn:Hq.
    + intros [= ->]. destruct (i_map _ _ _ _ HI _ _ Hq) as (?&?&?). split; [lia|]. split; [apply Hcan; [lia|done]|done].
    + destruct (ci_eqb x u) eqn:Hxu; [|done]. apply ci_eqb_eq in Hxu as <-. intros [= <-]. split; [lia|]. split; [|done].
      right. split; [lia|]. unfold rem1. by rewrite Hq.
  - intros j u Hj Hu Hun. rewrite imap_find_ins. destruct (decide (j = i)) as [->|].
    + simplify_eq. destruct (imap_find m x); [done|]. by rewrite (proj2 (ci_eqb_eq x x) eq_refl).
    + destruct (i_key _ _ _ _ HI j u ltac:(lia) Hu Hun) as [q ->]. done.
  - intros j u Hj Hr Hu Hun. destruct (Hr1 j ltac:(lia) Hr) as [Hr'|[-> [q Hq]]].
    + destruct (decide (j = i)) as [->|]; [congruence|]. destruct (i_dup _ _ _ _ HI j u) as (q&?&?); [lia|done..|]. by exists q.
    + simplify_eq. destruct (i_map _ _ _ _ HI _ _ Hq) as (Hqr&_&HGq). exists q. split; [|done]. split; [lia|]. eapply gs_inner; [|exact HGq|done]. lia.
Qed.

(** the third pass: positions after compaction *)
Definition newpos (rem : list bool) (i : N) : N := i - N.of_nat (cntn rem (N.to_nat (i - a))).
Lemma newpos_ge rem i : a <= i -> a <= newpos rem i <= i.
Proof. intros Hi. unfold newpos. pose proof (cntn_le rem (N.to_nat (i - a))). lia. Qed.
Lemma newpos_lt rem i j : a <= i < j -> (N.to_nat (i - a) < length rem)%nat -> rmd rem i = false -> newpos rem i < newpos rem j.
Proof.
  intros Hi Hl Hr. unfold newpos. pose proof (cntn_S rem (N.to_nat (i - a)) Hl) as HS. rewrite Hr in HS.
  pose proof (cntn_mono rem (S (N.to_nat (i - a))) (N.to_nat (j - a)) ltac:(lia)). pose proof (cntn_le rem (N.to_nat (i - a))). lia.
Qed.
Lemma down_to_seq k : reverse (down_to a k) = map (fun j => a + N.of_nat j) (seq 0 (N.to_nat (k - a))).
Proof.
  apply list_eq. intros j. destruct (decide (j < N.to_nat (k - a))%nat) as [Hj|Hj].
  - rewrite (down_to_rev a b Hsm) by done. rewrite list_lookup_fmap, lookup_seq_lt by done. done.
  - rewrite !(proj2 (lookup_ge_None _ _)); [done|rewrite map_length, seq_length; lia|]. rewrite reverse_length. unfold down_to. rewrite map_length, seq_length. lia.
Qed.
Lemma reduce3_gen ins rem m : I2 a ins rem m -> forall n s, (s + n <= N.to_nat (b - 2 - a))%nat ->
  exists r, reduce3 a (map (fun j => a + N.of_nat j) (seq s n)) ins rem = inr r /\ (length r + (cntn rem (s + n) - cntn rem s) = n)%nat /\
    ((cntn rem (N.to_nat (b - a)) < 128)%nat -> forall i, (s <= i < s + n)%nat -> nth i rem false = false -> exists l h v, ix ins (a + N.of_nat i) = Some (Instr l h v) /\
       r !! (i - s - (cntn rem i - cntn rem s))%nat = Some (Instr (newpos rem l) (newpos rem h) v)).
Proof.
  intros HI. pose proof (gs_len _ _ _ Hg) as HGl. pose proof (gs_ab _ _ _ Hg) as Hab. pose proof (i_rlen _ _ _ _ HI) as Hrl. induction n as [|n IH]; intros s Hs.
  - exists []. rewrite Nat.add_0_r, Nat.sub_diag. split; [done|]. split; [done|]. intros _ i Hi. lia.
  - cbn [seq map reduce3]. replace (N.to_nat (a + N.of_nat s - a)) with s by lia.
    destruct (IH (S s)) as (r&Hr&Hlr&Hc); [lia|]. replace (S s + n)%nat with (s + S n)%nat in * by lia.
    pose proof (cntn_S rem s ltac:(lia)) as HS. destruct (nth s rem false) eqn:Hrs.
    + exists r. split; [done|]. pose proof (cntn_mono rem (S s) (s + S n) ltac:(lia)). split; [lia|]. intros H128 i Hi Hri.
      assert (i <> s) by (intros ->; congruence). destruct (Hc H128 i ltac:(lia) Hri) as (l&h&v&H1&H2). exists l, h, v. split; [done|].
      pose proof (cntn_mono rem (S s) i ltac:(lia)). rewrite <- H2. f_equal. lia.
    + destruct (gs_ix (a + N.of_nat s)) as [x Hx]; [lia|].
      assert (Hne : i_lo x <> i_hi x).
      { intros He. destruct (i_red _ _ _ _ HI (a + N.of_nat s)) as [H1 _]; [lia|split; [lia|by exists x]|]. replace (N.to_nat (a + N.of_nat s - a)) with s in H1 by lia. congruence. }
      destruct (i_new _ _ _ _ HI (a + N.of_nat s) x ltac:(lia) Hx Hne) as (l&h&Hi&Hl&Hh&_).
      rewrite (vecR_eq _ _ _ Hi). cbn [bindR i_lo i_hi i_idx]. rewrite !(sub64_small _ a) by lia.
      assert (Hrem : forall j, a <= j < b -> exists u, removed_before rem (j - a) = inr u /\ ((cntn rem (N.to_nat (b - a)) < 128)%nat -> sub64 j u = newpos rem j)).
      { intros j Hj. eexists. split; [unfold removed_before; rewrite (proj2 (N.ltb_lt _ _)) by lia; reflexivity|]. intros H128.
        pose proof (cntn_mono rem (N.to_nat (j - a)) (N.to_nat (b - a)) ltac:(lia)). pose proof (cntn_le rem (N.to_nat (j - a))).
        pose proof (removed_eq rem (j - a) ltac:(lia) ltac:(lia)) as Hre. unfold removed_before in Hre. rewrite (proj2 (N.ltb_lt _ _)) in Hre by lia.
        injection Hre as ->. unfold newpos. apply sub64_small; lia. }
      destruct (Hrem l ltac:(lia)) as (ul&->&Hul). destruct (Hrem h ltac:(lia)) as (uh&->&Huh). cbn [bindR]. rewrite Hr. cbn [bindR].
      eexists. split; [reflexivity|]. pose proof (cntn_mono rem (S s) (s + S n) ltac:(lia)). split; [cbn [length]; lia|]. intros H128 i Hi' Hri.
      destruct (decide (i = s)) as [->|].
      * exists l, h, (i_idx x). split; [done|]. rewrite !Nat.sub_diag. simpl. by rewrite Hul, Huh.
      * destruct (Hc H128 i ltac:(lia) Hri) as (l'&h'&v&H1&H2). exists l', h', v. split; [done|].
        pose proof (cntn_mono rem (S s) i ltac:(lia)).
        replace (i - s - (cntn rem i - cntn rem s))%nat with (S (i - S s - (cntn rem i - cntn rem (S s)))) by lia. exact H2.
Qed.
Lemma cntn_all ins rem m : I2 a ins rem m -> cntn rem (N.to_nat (b - a)) = cntn rem (N.to_nat (b - 2 - a)) /\ cntn rem (N.to_nat (b - 1 - a)) = cntn rem (N.to_nat (b - 2 - a)).
Proof.
  intros HI. pose proof (gs_ab _ _ _ Hg) as Hab. pose proof (i_rlen _ _ _ _ HI) as Hrl.
  assert (Hf : forall i, b - 2 <= i < b -> rmd rem i = false).
  { intros i Hi. apply not_true_iff_false. intros Ht. destruct (i_below _ _ _ _ HI i ltac:(lia) ltac:(lia) Ht) as [? _]. lia. }
  pose proof (cntn_S rem (N.to_nat (b - 2 - a)) ltac:(lia)) as H1. pose proof (cntn_S rem (N.to_nat (b - 1 - a)) ltac:(lia)) as H2.
  rewrite Hf in H1, H2 by lia. replace (S (N.to_nat (b - 2 - a))) with (N.to_nat (b - 1 - a)) in H1 by lia. replace (S (N.to_nat (b - 1 - a))) with (N.to_nat (b - a)) in H2 by lia. lia.
Qed.
(** the compacted collection evaluates canonical entries as before *)
Lemma compact_eval ins rem m r x y : I2 a ins rem m -> reduce3 a (reverse (down_to a (b - 2))) ins rem = inr r ->
  ix G (b - 2) = Some x -> ix G (b - 1) = Some y ->
  (cntn rem (N.to_nat (b - a)) < 128)%nat ->
  forall n i z d, (N.to_nat (b - i) <= n)%nat -> canon rem i -> cev G z i d -> cev (take (N.to_nat a) ins ++ r ++ [x; y]) z (newpos rem i) d.
Proof.
  intros HI Hr Hx Hy H128. pose proof (gs_len _ _ _ Hg) as HGl. pose proof (gs_ab _ _ _ Hg) as Hab. pose proof (i_rlen _ _ _ _ HI) as Hrl.
  pose proof (i_len _ _ _ _ HI) as HL. rewrite down_to_seq in Hr. destruct (reduce3_gen _ _ _ HI (N.to_nat (b - 2 - a)) 0) as (r'&Hr'&Hlen&Hc); [lia|].
  rewrite Hr in Hr'. injection Hr' as <-. specialize (Hc H128). destruct (cntn_all _ _ _ HI) as [Hca Hcb]. cbn [Nat.add] in Hlen.
  assert (Hc0 : cntn rem 0 = 0%nat) by (unfold cntn; by rewrite take_0). rewrite Hc0 in *.
  assert (Hta : length (take (N.to_nat a) ins) = N.to_nat a) by (rewrite take_length; lia).
  assert (Hterm : forall i e, b - 2 <= i < b -> ix G i = Some e -> ix (take (N.to_nat a) ins ++ r ++ [x; y]) (newpos rem i) = Some e).
  { intros i e Hi He. assert (Hii : i = b - 2 \/ i = b - 1) by lia. pose proof (cntn_le rem (N.to_nat (b - 2 - a))).
    rewrite lookup_app_r by (unfold newpos; destruct Hii as [->| ->]; lia). rewrite lookup_app_r by (unfold newpos; destruct Hii as [->| ->]; lia).
    unfold newpos. destruct Hii as [->| ->].
    - assert (e = x) as -> by congruence. rewrite Hta. by replace (N.to_nat (b - 2 - N.of_nat (cntn rem (N.to_nat (b - 2 - a)))) - N.to_nat a - length r)%nat with 0%nat by lia.
    - assert (e = y) as -> by congruence. rewrite Hta. by replace (N.to_nat (b - 1 - N.of_nat (cntn rem (N.to_nat (b - 1 - a)))) - N.to_nat a - length r)%nat with 1%nat by lia. }
  induction n as [|n IH]; intros i z d Hn Hcan Hev; [destruct Hcan; lia|].
  destruct Hcan as [Hi|[Hi Hri]].
  - inversion Hev as [i' e' b' Hi' He'|i' e' z' b' Hi' Hlt' Hz' H1]; subst i'; subst.
    + eapply cev_t; [by apply Hterm|done].
    + destruct (gs_last i e' Hi Hi') as [u [_ Hu]]. rewrite Hu in Hlt'. destruct u; unfold ctop, cbot in *; lia.
  - destruct (gs_ix i) as [e He]; [lia|]. destruct (gs_node _ _ _ Hg i e Hi He) as (Hv&Hlo&Hhi).
    assert (Hne : i_lo e <> i_hi e).
    { intros Heq. destruct (i_red _ _ _ _ HI i) as [H1 _]; [lia|split; [lia|by exists e]|]. congruence. }
    destruct (i_new _ _ _ _ HI i e Hi He Hne) as (l&h&Hil&Hl&Hh&Cl&Ch&El&Eh&_).
    destruct (Hc (N.to_nat (i - a)) ltac:(lia) Hri) as (l'&h'&v&H1&H2). replace (a + N.of_nat (N.to_nat (i - a))) with i in H1 by lia. rewrite Hil in H1. injection H1 as <- <- <-.
    inversion Hev as [i' e' b' Hi' He'|i' e' z' b' Hi' Hlt' Hz' H3]; subst i'; simplify_eq.
    + rewrite He' in Hv. destruct d; unfold ctop, cbot in *; lia.
    + eapply cev_n with (z := z') (e := Instr (newpos rem l) (newpos rem h) (i_idx e)); [|exact Hv|exact Hz'|].
      * pose proof (newpos_ge rem i ltac:(lia)). rewrite lookup_app_r by lia. rewrite Hta. apply lookup_app_l_Some. rewrite <- H2. f_equal. unfold newpos in *. lia.
      * cbn [i_lo i_hi]. destruct z'; (apply IH; [lia|done|]); [by apply Eh|by apply El].
Qed.
(** and keeps the variables in order *)
Lemma compact_ord ins rem m r x y : I2 a ins rem m -> reduce3 a (reverse (down_to a (b - 2))) ins rem = inr r ->
  ix G (b - 2) = Some x -> ix G (b - 1) = Some y -> (cntn rem (N.to_nat (b - a)) < 128)%nat -> ordered_at G a b ->
  (forall q e, r !! q = Some e -> exists i l h v, (0 <= i < N.to_nat (b - 2 - a))%nat /\ nth i rem false = false /\ ix ins (a + N.of_nat i) = Some (Instr l h v) /\
    e = Instr (newpos rem l) (newpos rem h) v) ->
  ordered_at (take (N.to_nat a) ins ++ r ++ [x; y]) a (N.of_nat (length (take (N.to_nat a) ins ++ r ++ [x; y]))).
Proof.
  intros HI Hr Hx Hy H128 Ho Hinv. pose proof (gs_len _ _ _ Hg) as HGl. pose proof (gs_ab _ _ _ Hg) as Hab. pose proof (i_rlen _ _ _ _ HI) as Hrl.
  pose proof (i_len _ _ _ _ HI) as HL. rewrite down_to_seq in Hr. destruct (reduce3_gen _ _ _ HI (N.to_nat (b - 2 - a)) 0) as (r'&Hr'&Hlen&Hc); [lia|].
  rewrite Hr in Hr'. injection Hr' as <-. specialize (Hc H128). destruct (cntn_all _ _ _ HI) as [Hca Hcb]. cbn [Nat.add] in Hlen.
  assert (Hc0 : cntn rem 0 = 0%nat) by (unfold cntn; by rewrite take_0). rewrite Hc0 in *.
  assert (Hta : length (take (N.to_nat a) ins) = N.to_nat a) by (rewrite take_length; lia).
  assert (Hne : forall i u, a <= i < b - 2 -> rmd rem i = false -> ix G i = Some u -> i_lo u <> i_hi u).
  { intros i u Hi Hri Hu Heq. destruct (i_red _ _ _ _ HI i) as [H1 _]; [lia|split; [lia|by exists u]|]. congruence. }
  assert (Hlab : forall l w, canon rem l -> ix (take (N.to_nat a) ins ++ r ++ [x; y]) (newpos rem l) = Some w -> exists u, ix G l = Some u /\ i_idx u = i_idx w).
  { intros l w [Hl|[Hl Hrl']] Hw.
    - assert (Hii : l = b - 2 \/ l = b - 1) by lia. pose proof (cntn_le rem (N.to_nat (b - 2 - a))).
      rewrite lookup_app_r in Hw by (unfold newpos; destruct Hii as [->| ->]; lia). rewrite lookup_app_r in Hw by (unfold newpos; destruct Hii as [->| ->]; lia).
      unfold newpos in Hw. rewrite Hta in Hw. destruct Hii as [->| ->].
      + replace (N.to_nat (b - 2 - N.of_nat (cntn rem (N.to_nat (b - 2 - a)))) - N.to_nat a - length r)%nat with 0%nat in Hw by lia. injection Hw as <-. eauto.
      + replace (N.to_nat (b - 1 - N.of_nat (cntn rem (N.to_nat (b - 1 - a)))) - N.to_nat a - length r)%nat with 1%nat in Hw by lia. injection Hw as <-. eauto.
    - destruct (gs_ix l) as [u Hu]; [lia|]. exists u. split; [done|]. destruct (i_new _ _ _ _ HI l u ltac:(lia) Hu (Hne _ _ Hl Hrl' Hu)) as (l1&h1&Hi1&_).
      destruct (Hc (N.to_nat (l - a)) ltac:(lia) Hrl') as (l'&h'&v&H1&H2). replace (a + N.of_nat (N.to_nat (l - a))) with l in H1 by lia. rewrite Hi1 in H1. injection H1 as <- <- <-.
      pose proof (newpos_ge rem l ltac:(lia)). rewrite lookup_app_r in Hw by lia. rewrite Hta in Hw.
      replace (N.to_nat (newpos rem l) - N.to_nat a)%nat with (N.to_nat (l - a) - 0 - (cntn rem (N.to_nat (l - a)) - 0))%nat in Hw by (unfold newpos in *; lia).
      rewrite (lookup_app_l_Some _ _ _ _ H2) in Hw. by injection Hw as <-. }
  intros p e z Hp He Hz. rewrite !app_length, Hta in Hp. cbn [length] in Hp. rewrite lookup_app_r in He by lia. rewrite Hta in He. rewrite lookup_app_l in He by lia.
  destruct (Hinv _ _ He) as (i&l&h&v&Hi&Hri&Hil&->). cbn [i_lo i_hi i_idx] in *.
  destruct (gs_ix (a + N.of_nat i)) as [u Hu]; [lia|].
  assert (Hri' : rmd rem (a + N.of_nat i) = false) by (by replace (N.to_nat (a + N.of_nat i - a)) with i by lia).
  destruct (gs_node _ _ _ Hg (a + N.of_nat i) u ltac:(lia) Hu) as (Hv&Hlo&Hhi).
  destruct (i_new _ _ _ _ HI (a + N.of_nat i) u ltac:(lia) Hu (Hne (a + N.of_nat i) u ltac:(lia) Hri' Hu)) as (l1&h1&Hil1&_&_&Cl&Ch&[_ El]&[_ Eh]&_).
  rewrite Hil in Hil1. injection Hil1 as <- <- ->.
  destruct Hz as [Hz|Hz]; (eapply Hlab in Hz as (w&Hw&<-); [|done]).
  - destruct (gs_ix (i_lo u)) as [w' Hw']; [lia|]. rewrite <- (El _ _ Hw' Hw). eapply (Ho (a + N.of_nat i) u); [lia|done|by left].
  - destruct (gs_ix (i_hi u)) as [w' Hw']; [lia|]. rewrite <- (Eh _ _ Hw' Hw). eapply (Ho (a + N.of_nat i) u); [lia|done|by right].
Qed.
Lemma compact_fwd ins rem m r x y : I2 a ins rem m -> reduce3 a (reverse (down_to a (b - 2))) ins rem = inr r ->
  ix G (b - 2) = Some x -> ix G (b - 1) = Some y -> (cntn rem (N.to_nat (b - a)) < 128)%nat ->
  fwd (take (N.to_nat a) ins ++ r ++ [x; y]) a (N.of_nat (length (take (N.to_nat a) ins ++ r ++ [x; y]))).
Proof.
  intros HI Hr Hx Hy H128. pose proof (gs_len _ _ _ Hg) as HGl. pose proof (gs_ab _ _ _ Hg) as Hab. pose proof (i_rlen _ _ _ _ HI) as Hrl.
  pose proof (i_len _ _ _ _ HI) as HL. split; [lia|]. intros p e Hp He Hv. rewrite down_to_seq in Hr.
  assert (Hta : length (take (N.to_nat a) ins) = N.to_nat a) by (rewrite take_length; lia).
  rewrite lookup_app_r in He by lia. rewrite Hta in He. rewrite !app_length, Hta in *. cbn [length] in *.
  destruct (cntn_all _ _ _ HI) as [Hca Hcb].
  assert (Hshape : forall n s r, (s + n = N.to_nat (b - 2 - a))%nat -> reduce3 a (map (fun j => a + N.of_nat j) (seq s n)) ins rem = inr r ->
    forall q e, r !! q = Some e -> N.of_nat (s - cntn rem s + q) + a < i_lo e <= newpos rem (b - 1) /\ N.of_nat (s - cntn rem s + q) + a < i_hi e <= newpos rem (b - 1)).
  { clear -HI Hg Hsm H128 HGl Hab Hrl HL Hca Hcb. induction n as [|n IH]; intros s r Hs Hr q e Hq.
    { cbn [seq map reduce3] in Hr. injection Hr as <-. done. }
    cbn [seq map reduce3] in Hr. replace (N.to_nat (a + N.of_nat s - a)) with s in Hr by lia. pose proof (cntn_S rem s ltac:(lia)) as HS. pose proof (cntn_le rem s).
    destruct (nth s rem false) eqn:Hrs.
    - destruct (IH (S s) r ltac:(lia) Hr q e Hq) as [H1 H2]. lia.
    - destruct (gs_ix (a + N.of_nat s)) as [u Hu]; [lia|].
      assert (Hrs' : rmd rem (a + N.of_nat s) = false) by (by replace (N.to_nat (a + N.of_nat s - a)) with s by lia).
      assert (Hne : i_lo u <> i_hi u).
      { intros Heq. destruct (i_red _ _ _ _ HI (a + N.of_nat s)) as [H1 _]; [lia|split; [lia|by exists u]|]. congruence. }
      destruct (i_new _ _ _ _ HI (a + N.of_nat s) u ltac:(lia) Hu Hne) as (l&h&Hil&Hl&Hh&Cl&Ch&_).
      rewrite (vecR_eq _ _ _ Hil) in Hr. cbn [bindR i_lo i_hi i_idx] in Hr. rewrite !(sub64_small _ a) in Hr by lia.
      assert (Hrm : forall j, a + N.of_nat s < j < b -> canon rem j -> removed_before rem (j - a) = inr (N.of_nat (cntn rem (N.to_nat (j - a)))) /\
        sub64 j (N.of_nat (cntn rem (N.to_nat (j - a)))) = newpos rem j /\ newpos rem (a + N.of_nat s) < newpos rem j <= newpos rem (b - 1)).
      { intros j Hj Hcj. pose proof (cntn_mono rem (N.to_nat (j - a)) (N.to_nat (b - a)) ltac:(lia)). pose proof (cntn_le rem (N.to_nat (j - a))).
        split; [apply removed_eq; lia|]. split; [apply sub64_small; lia|]. split; [apply newpos_lt; [lia|lia|done]|].
        destruct (decide (j = b - 1)) as [->|]; [lia|]. apply N.lt_le_incl, newpos_lt; [lia|lia|].
        destruct Hcj as [?|[_ ?]]; [|done]. apply not_true_iff_false. intros Ht. destruct (i_below _ _ _ _ HI j ltac:(lia) ltac:(lia) Ht) as [? _]. lia. }
      destruct (Hrm l Hl Cl) as (Hl1&Hl2&Hl3). destruct (Hrm h Hh Ch) as (Hh1&Hh2&Hh3). rewrite Hl1, Hh1 in Hr. cbn [bindR] in Hr. rewrite Hl2, Hh2 in Hr.
      destruct (reduce3 a (map (fun j => a + N.of_nat j) (seq (S s) n)) ins rem) as [er|r1] eqn:Hr1; cbn [bindR] in Hr; [done|]. injection Hr as <-.
      destruct q as [|q].
      + injection Hq as <-. cbn [i_lo i_hi]. unfold newpos in Hl3, Hh3 |- *. replace (N.to_nat (a + N.of_nat s - a)) with s in * by lia. lia.
      + cbn [lookup list_lookup] in Hq. destruct (IH (S s) r1 ltac:(lia) Hr1 q e Hq). lia. }
  destruct (reduce3_gen _ _ _ HI (N.to_nat (b - 2 - a)) 0) as (r'&Hr'&Hlen&_); [lia|]. rewrite Hr in Hr'. injection Hr' as <-. cbn [Nat.add] in Hlen.
  assert (Hc0 : cntn rem 0 = 0%nat) by (unfold cntn; by rewrite take_0). rewrite Hc0 in *. pose proof (cntn_le rem (N.to_nat (b - 1 - a))).
  assert (Hnp : newpos rem (b - 1) < N.of_nat (N.to_nat a + (length r + 2))) by (unfold newpos; lia).
  destruct (decide (N.to_nat p - N.to_nat a < length r)%nat) as [Hq|Hq].
  - rewrite lookup_app_l in He by done. destruct (Hshape (N.to_nat (b - 2 - a)) 0%nat r ltac:(lia) Hr _ _ He). rewrite Hc0 in *. lia.
  - exfalso. rewrite lookup_app_r in He by lia. destruct (gs_term _ _ _ Hg) as (bt&x'&y'&Hx'&Hy'&Tx&Ty). simplify_eq.
    destruct (N.to_nat p - N.to_nat a - length r)%nat as [|[|q]]; [| |done]; injection He as <-; [destruct Tx as [_ Tx]; rewrite Tx in Hv|destruct Ty as [_ Ty]; rewrite Ty in Hv]; destruct bt; unfold ctop, cbot in *; cbn [negb] in *; lia.
Qed.

Lemma I2_init rem x y : length rem = N.to_nat (b - a) -> (forall i, a <= i -> rmd rem i = true <-> i < b - 2 /\ ored i) ->
  ix G (b - 2) = Some x -> ix G (b - 1) = Some y -> I2 (b - 2) G rem (imap_ins x (b - 2) [(y, b - 1)]).
Proof.
  intros Hl Hr Hx Hy. pose proof (gs_ab _ _ _ Hg). destruct (gs_term _ _ _ Hg) as (bt&x'&y'&Hx'&Hy'&Tx&Ty). simplify_eq.
  split; auto.
  - intros i Hi Hred. split; [|done]. apply Hr; [lia|]. split; [lia|done].
  - intros i Hi _ Ht. apply Hr in Ht; [|lia]. tauto.
  - intros i u Hi. lia.
  - intros u j. rewrite imap_find_ins. cbn [imap_find]. destruct (ci_eqb y u) eqn:H1; [apply ci_eqb_eq in H1 as ->; intros [= <-]; split; [lia|]; split; [left; lia|done]|].
    destruct (ci_eqb x u) eqn:H2; [apply ci_eqb_eq in H2 as ->; intros [= <-]; split; [lia|]; split; [left; lia|done]|done].
  - intros i u Hi Hu _. rewrite imap_find_ins. cbn [imap_find]. destruct (ci_eqb y u) eqn:H1; [done|]. assert (i = b - 2 \/ i = b - 1) as [->| ->] by lia.
    + assert (u = x) as -> by congruence. by rewrite (proj2 (ci_eqb_eq x x) eq_refl).
    + assert (u = y) as -> by congruence. by rewrite (proj2 (ci_eqb_eq y y) eq_refl) in H1.
  - intros i u Hi. lia.
Qed.
Lemma reduce_gen del : ix del (N.of_nat (length del) - 2) = Some a -> ix del (N.of_nat (length del) - 1) = Some b -> (2 <= length del)%nat ->
  reduce (Coll G del) = inl fail_or_ub \/
  exists ins rem m r x y, I2 a ins rem m /\ ix G (b - 2) = Some x /\ ix G (b - 1) = Some y /\ take (N.to_nat a) ins = take (N.to_nat a) G /\
    reduce3 a (reverse (down_to a (b - 2))) ins rem = inr r /\ (length r + cntn rem (N.to_nat (b - a)) = N.to_nat (b - 2 - a))%nat /\
    let ins' := take (N.to_nat a) G ++ r ++ [x; y] in let c' := Coll ins' (take (length del - 1) del ++ [N.of_nat (length ins')]) in
    reduce (Coll G del) = letR* _ := assertRR (is_bdd c' (N.of_nat (length del) - 2)) in inr c'.
Proof.
  intros Ha Hb Hl. pose proof (gs_ab _ _ _ Hg) as Hab. pose proof (gs_len _ _ _ Hg) as Hlen.
  destruct (gs_term _ _ _ Hg) as (bt&x&y&Hx&Hy&Tx&Ty).
  remember (reduce (Coll G del)) as RD eqn:HRD. revert HRD.
  unfold reduce. unfold nr_bdds at 1. cbn [c_del c_ins]. rewrite !assertR_true by (apply N.ltb_lt; lia). cbn [bindR].
  assert (Hnr : nr_bdds (Coll G del) - 1 = N.of_nat (length del) - 2) by (unfold nr_bdds; cbn [c_del]; lia). rewrite Hnr.
  unfold del_at. cbn [c_del]. rewrite (vecR_eq _ _ _ Ha). cbn [bindR]. replace (N.of_nat (length del) - 2 + 1) with (N.of_nat (length del) - 1) by lia.
  rewrite (vecR_eq _ _ _ Hb). cbn [bindR].
  destruct (reduce1_gen (b - 2) (repeat false (N.to_nat (b - a)))) as (rem&->&Hrl&Hr1); [lia|by rewrite repeat_length|]. cbn [bindR].
  rewrite (vecR_eq _ _ _ Hy). cbn [bindR]. rewrite (vecR_eq _ _ _ Hx). cbn [bindR].
  assert (HI : I2 (b - 2) G rem (imap_ins x (b - 2) [(y, b - 1)])).
  { apply I2_init; auto. intros i Hi. rewrite (Hr1 i Hi), nth_repeat_false. split; [by intros [?|?]|by right]. }
  destruct (reduce2_gen (b - 2) _ _ _ ltac:(lia) HI) as [(ins'&rem'&m'&Hr2&HI')|Hr2]; rewrite Hr2; cbn [bindR]; intros ->; [|by left].
  right. destruct (reduce3_gen _ _ _ HI' (N.to_nat (b - 2 - a)) 0) as (r&Hr3&Hlr&_); [lia|].
  destruct (cntn_all _ _ _ HI') as [Hca _]. cbn [Nat.add] in Hlr. assert (Hc0 : cntn rem' 0 = 0%nat) by (unfold cntn; by rewrite take_0).
  assert (Htk : take (N.to_nat a) ins' = take (N.to_nat a) G).
  { apply list_eq. intros i. destruct (decide (i < N.to_nat a)%nat) as [Hi|Hi].
    - rewrite !lookup_take by done. pose proof (i_old _ _ _ _ HI' (N.of_nat i) ltac:(lia)) as Ho. by rewrite Nat2N.id in Ho.
    - rewrite !lookup_take_ge by lia. done. }
  exists ins', rem', m', r, x, y. rewrite down_to_seq in *. split_and!; auto; [lia|]. cbv zeta.
  rewrite Hr3. cbn [bindR]. rewrite Htk. reflexivity.
Qed.

(** if the entries that stay are pairwise different and have no arcs to redundant ones, the second pass changes nothing *)
Definition tidy : Prop :=
  (forall i j x, a <= i < b - 2 -> a <= j < b - 2 -> ix G i = Some x -> ix G j = Some x -> i_lo x <> i_hi x -> i = j) /\
  (forall i x, a <= i < b - 2 -> ix G i = Some x -> i_lo x <> i_hi x -> ~ ored (i_lo x) /\ ~ ored (i_hi x)).
Lemma reduce2_tidy rem : tidy -> (forall i, a <= i -> rmd rem i = true <-> ored i) -> forall k m, a <= k <= b - 2 ->
  (forall j x, k <= j < b -> ix G j = Some x -> ~ ored j -> imap_find m x = Some j) ->
  (forall x j, imap_find m x = Some j -> k <= j < b /\ ix G j = Some x) ->
  reduce2 a (down_to a k) G rem m = inr (G, rem).
Proof.
  intros [Hd Hc] Hrm k. remember (N.to_nat (k - a)) as n eqn:Hn. revert k Hn. induction n as [|n IH]; intros k Hn m Hk Hm1 Hm2.
  - rewrite down_to_nil by lia. done.
  - rewrite down_to_cons by lia. cbn [reduce2]. destruct (gs_ix (k - 1)) as [x Hx]; [lia|].
    destruct (gs_node _ _ _ Hg (k - 1) x) as (Hv&Hl&Hh); [lia|done|]. destruct (rmd rem (k - 1)) eqn:Hri.
    { apply Hrm in Hri; [|lia]. apply IH; [lia|lia| |].
      - intros j u Hj Hu Hnr. apply Hm1; [|done..]. destruct (decide (j = k - 1)) as [->|]; [done|lia].
      - intros u j Hu. destruct (Hm2 u j Hu). split; [lia|done]. }
    assert (Hnr : ~ ored (k - 1)) by (rewrite <- Hrm by lia; congruence).
    assert (Hne : i_lo x <> i_hi x). { intros He. apply Hnr. split; [lia|by exists x]. }
    destruct (Hc (k - 1) x ltac:(lia) Hx Hne) as [Rl Rh].
    rewrite (vecR_eq _ _ _ Hx). cbn [bindR].
    assert (Hf : imap_find m x = None).
    { destruct (imap_find m x) as [j|] eqn:Hj; [|done]. destruct (Hm2 _ _ Hj) as [Hj1 Hj2]. pose proof (gs_inner j x ltac:(lia) Hj2 Hv). pose proof (Hd (k - 1) j x ltac:(lia) ltac:(lia) Hx Hj2 Hne). lia. }
    rewrite Hf. destruct (gs_ix (i_lo x)) as [y Hy]; [lia|]. destruct (gs_ix (i_hi x)) as [z Hz]; [lia|]. rewrite (vecR_eq _ _ _ Hy). cbn [bindR].
    rewrite imap_find_ins, (Hm1 (i_lo x) y) by (auto; lia). rewrite list_insert_id by (by destruct x). rewrite (vecR_eq _ _ _ Hz). cbn [bindR].
    rewrite imap_find_ins, (Hm1 (i_hi x) z) by (auto; lia). rewrite list_insert_id by (by destruct x). apply IH; [lia|lia| |].
    + intros j u Hj Hu Hnj. rewrite imap_find_ins. destruct (decide (j = k - 1)) as [->|Hjk].
      * assert (u = x) as -> by congruence. rewrite Hf. by rewrite (proj2 (ci_eqb_eq x x) eq_refl).
      * by rewrite (Hm1 j u) by (auto; lia).
    + intros u j. rewrite imap_find_ins. destruct (imap_find m u) as [j'|] eqn:Hj'.
      * intros [= ->]. destruct (Hm2 _ _ Hj') as [? ?]. split; [lia|done].
      * destruct (ci_eqb x u) eqn:He; [|done]. apply ci_eqb_eq in He as ->. intros [= <-]. split; [lia|done].
Qed.
(** where the entries of the compacted BDD come from *)
Lemma reduce3_inv ins rem m : I2 a ins rem m -> (cntn rem (N.to_nat (b - a)) < 128)%nat -> forall n s r, (s + n <= N.to_nat (b - 2 - a))%nat ->
  reduce3 a (map (fun j => a + N.of_nat j) (seq s n)) ins rem = inr r -> forall q e, r !! q = Some e ->
  exists i l h v, (s <= i < s + n)%nat /\ nth i rem false = false /\ q = (i - s - (cntn rem i - cntn rem s))%nat /\ ix ins (a + N.of_nat i) = Some (Instr l h v) /\
    e = Instr (newpos rem l) (newpos rem h) v.
Proof.
  intros HI H128. pose proof (gs_len _ _ _ Hg) as HGl. pose proof (gs_ab _ _ _ Hg) as Hab. pose proof (i_rlen _ _ _ _ HI) as Hrl. induction n as [|n IH]; intros s r0 Hs Hr0 q e Hq.
  - cbn [seq map reduce3] in Hr0. injection Hr0 as <-. done.
  - destruct (reduce3_gen _ _ _ HI (S n) s Hs) as (r'&Hr'&_&Hcont). rewrite Hr0 in Hr'. injection Hr' as <-. specialize (Hcont H128).
    cbn [seq map reduce3] in Hr0. replace (N.to_nat (a + N.of_nat s - a)) with s in Hr0 by lia.
    pose proof (cntn_S rem s ltac:(lia)) as HS. destruct (nth s rem false) eqn:Hrs.
    + destruct (IH (S s) r0 ltac:(lia) Hr0 q e Hq) as (i&l&h&v&Hi&Hri&->&H1&H2). exists i, l, h, v. split; [lia|]. split; [done|]. split; [|done].
      pose proof (cntn_mono rem (S s) i ltac:(lia)). lia.
    + destruct (vecR ins (a + N.of_nat s)) as [|x]; cbn [bindR] in Hr0; [done|].
      destruct (removed_before rem _) as [|dl] in Hr0; cbn [bindR] in Hr0; [done|]. destruct (removed_before rem _) as [|dh] in Hr0; cbn [bindR] in Hr0; [done|].
      destruct (reduce3 a (map (fun j => a + N.of_nat j) (seq (S s) n)) ins rem) as [er|r1] eqn:Hr1; cbn [bindR] in Hr0; [done|]. injection Hr0 as <-.
      destruct q as [|q].
      * destruct (Hcont s ltac:(lia) Hrs) as (l&h&v&H1&H2). rewrite !Nat.sub_diag in H2. exists s, l, h, v. split; [lia|]. split; [done|]. split; [lia|]. split; [done|].
        rewrite Hq in H2. by injection H2.
      * destruct (IH (S s) r1 ltac:(lia) Hr1 q e Hq) as (i&l&h&v&Hi&Hri&->&H1&H2). exists i, l, h, v. split; [lia|]. split; [done|]. split; [|done].
        pose proof (cntn_mono rem (S s) i ltac:(lia)). lia.
Qed.
Lemma newpos_inj rem i j : canon rem i -> canon rem j -> length rem = N.to_nat (b - a) -> (forall k, b - 2 <= k < b -> rmd rem k = false) -> newpos rem i = newpos rem j -> i = j.
Proof.
  intros Hi Hj Hl Hk He. pose proof (gs_ab _ _ _ Hg). assert (Hri : forall k, canon rem k -> a <= k < b /\ rmd rem k = false).
  { intros k [?|[? ?]]; split; auto; lia. } destruct (Hri i Hi) as [Hi1 Hi2]. destruct (Hri j Hj) as [Hj1 Hj2].
  destruct (N.lt_total i j) as [Hlt|[->|Hlt]]; [|done|].
  - pose proof (newpos_lt rem i j ltac:(lia) ltac:(lia) Hi2). lia.
  - pose proof (newpos_lt rem j i ltac:(lia) ltac:(lia) Hj2). lia.
Qed.
Lemma compact_pseg rem m r x y : tidy -> I2 a G rem m -> reduce3 a (reverse (down_to a (b - 2))) G rem = inr r ->
  ix G (b - 2) = Some x -> ix G (b - 1) = Some y -> (cntn rem (N.to_nat (b - a)) < 128)%nat -> (0 < length r)%nat ->
  let ins' := take (N.to_nat a) G ++ r ++ [x; y] in pseg ins' a (N.of_nat (length ins')).
Proof.
  intros [Hd Hc] HI Hr Hx Hy H128 Hr0 ins'. pose proof (compact_fwd G rem m r x y HI Hr Hx Hy H128) as HF. fold ins' in HF.
  pose proof (gs_len _ _ _ Hg) as HGl. pose proof (gs_ab _ _ _ Hg) as Hab. pose proof (i_rlen _ _ _ _ HI) as Hrl.
  assert (Hta : length (take (N.to_nat a) G) = N.to_nat a) by (rewrite take_length; lia).
  assert (Hlen : length ins' = (N.to_nat a + (length r + 2))%nat) by (unfold ins'; rewrite !app_length, Hta; simpl; lia).
  rewrite down_to_seq in Hr. assert (Hc0 : cntn rem 0 = 0%nat) by (unfold cntn; by rewrite take_0).
  assert (Hterm : forall k, b - 2 <= k < b -> rmd rem k = false).
  { intros k Hk. apply not_true_iff_false. intros Ht. destruct (i_below _ _ _ _ HI k ltac:(lia) ltac:(lia) Ht) as [? _]. lia. }
  assert (Hin : forall p e, a <= p < N.of_nat (length ins') - 2 -> ix ins' p = Some e -> exists i u, a <= i < b - 2 /\ rmd rem i = false /\ newpos rem i = p /\ ix G i = Some u /\
    i_lo u <> i_hi u /\ canon rem (i_lo u) /\ canon rem (i_hi u) /\ i_idx u < cbot /\ e = Instr (newpos rem (i_lo u)) (newpos rem (i_hi u)) (i_idx u)).
  { intros p e Hp He. unfold ins' in He. rewrite lookup_app_r in He by lia. rewrite Hta in He. rewrite lookup_app_l in He by lia.
    destruct (reduce3_inv _ _ _ HI H128 (N.to_nat (b - 2 - a)) 0%nat r (Nat.le_refl _) Hr _ _ He) as (i&l&h&v&Hi&Hri&Hq&HGi&->). rewrite Hc0 in Hq.
    exists (a + N.of_nat i), (Instr l h v). cbn [i_lo i_hi i_idx]. replace (N.to_nat (a + N.of_nat i - a)) with i by lia. pose proof (cntn_le rem i).
    split; [lia|]. split; [done|]. split; [unfold newpos; replace (N.to_nat (a + N.of_nat i - a)) with i by lia; lia|]. split; [done|].
    assert (Hne : l <> h).
    { intros ->. destruct (i_red _ _ _ _ HI (a + N.of_nat i)) as [Hr1 _]; [lia|split; [lia|by eexists]|]. replace (N.to_nat (a + N.of_nat i - a)) with i in Hr1 by lia. congruence. }
    destruct (i_new _ _ _ _ HI (a + N.of_nat i) _ ltac:(lia) HGi) as (l'&h'&HG'&_&_&Cl&Ch&_); [done|]. rewrite HGi in HG'. injection HG' as <- <-.
    split; [done|]. split; [done|]. split; [done|]. split; [|done]. by destruct (gs_node _ _ _ Hg (a + N.of_nat i) _ ltac:(lia) HGi). }
  split.
  - lia.
  - done.
  - destruct (gs_term _ _ _ Hg) as (bt&x'&y'&Hx'&Hy'&Tx&Ty). simplify_eq. exists bt, x, y. rewrite Hlen. unfold ins'.
    split_and!; auto; (rewrite lookup_app_r by lia; rewrite Hta; rewrite lookup_app_r by lia).
    + by replace (N.to_nat (N.of_nat (N.to_nat a + (length r + 2)) - 2) - N.to_nat a - length r)%nat with 0%nat by lia.
    + by replace (N.to_nat (N.of_nat (N.to_nat a + (length r + 2)) - 1) - N.to_nat a - length r)%nat with 1%nat by lia.
  - intros p e Hp He. destruct (Hin p e Hp He) as (i&u&Hi&Hri&Hpi&Hu&Hne&Cl&Ch&Hv&->). split; [|split; [done|]].
    + cbn [i_lo i_hi]. intros Heq. apply Hne. by eapply newpos_inj.
    + apply (proj2 HF p); [lia|done|done].
  - intros p q e Hp Hq Hep Heq. destruct (Hin p e Hp Hep) as (i&u&Hi&Hri&Hpi&Hu&Hne&Cl&Ch&Hv&->). destruct (Hin q _ Hq Heq) as (j&w&Hj&Hrj&Hqj&Hw&Hne'&Cl'&Ch'&Hv'&Ee).
    injection Ee as E1 E2 E3. apply newpos_inj in E1, E2; auto. assert (u = w) as -> by (destruct u, w; simpl in *; congruence).
    assert (i = j) as -> by (by eapply Hd). congruence.
Qed.

Lemma reduce_tidy del : ix del (N.of_nat (length del) - 2) = Some a -> ix del (N.of_nat (length del) - 1) = Some b -> (2 <= length del)%nat ->
  tidy -> (exists i, a <= i < b - 2 /\ ~ ored i) ->
  (forall rem, length rem = N.to_nat (b - a) -> (forall i, a <= i -> rmd rem i = true <-> ored i) -> (cntn rem (N.to_nat (b - a)) < 128)%nat) ->
  exists rem m r x y, I2 a G rem m /\ (forall i, a <= i -> rmd rem i = true <-> ored i) /\ (cntn rem (N.to_nat (b - a)) < 128)%nat /\
    ix G (b - 2) = Some x /\ ix G (b - 1) = Some y /\
    reduce3 a (reverse (down_to a (b - 2))) G rem = inr r /\ (length r + cntn rem (N.to_nat (b - a)) = N.to_nat (b - 2 - a))%nat /\
    let ins' := take (N.to_nat a) G ++ r ++ [x; y] in let c' := Coll ins' (take (length del - 1) del ++ [N.of_nat (length ins')]) in
    reduce (Coll G del) = inr c' /\ is_bdd c' (N.of_nat (length del) - 2) = inr true.
Proof.
  intros Ha Hb Hl Htidy (i0&Hi0&Hni0) Hcnt. pose proof (gs_ab _ _ _ Hg) as Hab. pose proof (gs_len _ _ _ Hg) as Hlen.
  destruct (gs_term _ _ _ Hg) as (bt&x&y&Hx&Hy&Tx&Ty).
  remember (reduce (Coll G del)) as RD eqn:HRD. revert HRD.
  unfold reduce. unfold nr_bdds at 1. cbn [c_del c_ins]. rewrite !assertR_true by (apply N.ltb_lt; lia). cbn [bindR].
  assert (Hnr : nr_bdds (Coll G del) - 1 = N.of_nat (length del) - 2) by (unfold nr_bdds; cbn [c_del]; lia). rewrite Hnr.
  unfold del_at. cbn [c_del]. rewrite (vecR_eq _ _ _ Ha). cbn [bindR]. replace (N.of_nat (length del) - 2 + 1) with (N.of_nat (length del) - 1) by lia.
  rewrite (vecR_eq _ _ _ Hb). cbn [bindR].
  destruct (reduce1_gen (b - 2) (repeat false (N.to_nat (b - a)))) as (rem&->&Hrl&Hr1); [lia|by rewrite repeat_length|]. cbn [bindR].
  rewrite (vecR_eq _ _ _ Hy). cbn [bindR]. rewrite (vecR_eq _ _ _ Hx). cbn [bindR].
  assert (Hr1' : forall i, a <= i -> rmd rem i = true <-> i < b - 2 /\ ored i).
  { intros i Hi. rewrite (Hr1 i Hi), nth_repeat_false. split; [by intros [?|?]|by right]. }
  assert (Hred : forall i, a <= i -> rmd rem i = true <-> ored i).
  { intros i Hi. rewrite (Hr1' i Hi). split; [tauto|]. intros Hr. split; [apply Hr|done]. }
  assert (HI : I2 (b - 2) G rem (imap_ins x (b - 2) [(y, b - 1)])) by (apply I2_init; auto).
  assert (Hxy : ci_eqb y x = false).
  { apply not_true_iff_false. intros ->%ci_eqb_eq. pose proof (cterm_fun _ _ _ Tx Ty). by destruct bt. }
  assert (Hr2 : reduce2 a (down_to a (b - 2)) G rem (imap_ins x (b - 2) [(y, b - 1)]) = inr (G, rem)).
  { apply reduce2_tidy; auto; [lia| |].
    - intros j u Hj Hu _. rewrite imap_find_ins. cbn [imap_find]. assert (j = b - 2 \/ j = b - 1) as [->| ->] by lia.
      + assert (u = x) as -> by congruence. by rewrite Hxy, (proj2 (ci_eqb_eq x x) eq_refl).
      + assert (u = y) as -> by congruence. by rewrite (proj2 (ci_eqb_eq y y) eq_refl).
    - intros u j Hu. by destruct (i_map _ _ _ _ HI u j Hu) as (?&_&?). }
  destruct (reduce2_gen (b - 2) _ _ _ ltac:(lia) HI) as [(ins'&rem'&m'&Hr2'&HI')|Hr2']; [|congruence].
  rewrite Hr2 in Hr2'. injection Hr2' as <- <-. rewrite Hr2. cbn [bindR].
  destruct (reduce3_gen _ _ _ HI' (N.to_nat (b - 2 - a)) 0) as (r&Hr3&Hlr&_); [lia|]. rewrite <- down_to_seq in Hr3. rewrite Hr3. cbn [bindR].
  destruct (cntn_all _ _ _ HI') as [Hca _]. cbn [Nat.add] in Hlr. assert (Hc0 : cntn rem 0 = 0%nat) by (unfold cntn; by rewrite take_0).
  specialize (Hcnt rem Hrl Hred). rewrite Hc0, Nat.sub_0_r in Hlr.
  assert (Hpos : (0 < length r)%nat).
  { pose proof (newpos_lt rem i0 (b - 2) ltac:(lia) ltac:(lia)) as Hnp. pose proof (newpos_ge rem i0 ltac:(lia)).
    assert (Hf : rmd rem i0 = false). { apply not_true_iff_false. rewrite Hred by lia. done. } specialize (Hnp Hf). unfold newpos in Hnp at 2. lia. }
  pose proof (compact_pseg rem m' r x y Htidy HI' Hr3 Hx Hy Hcnt Hpos) as Hps. cbv zeta in Hps.
  intros ->. exists rem, m', r, x, y. do 6 (split; [done|]). split; [lia|]. cbv zeta.
  assert (Hlb : N.of_nat (length (take (N.to_nat a) G ++ r ++ [x; y])) < two64). { rewrite !app_length, take_length. simpl. lia. }
  assert (Hdl : length (take (length del - 1) del ++ [N.of_nat (length (take (N.to_nat a) G ++ r ++ [x; y]))]) = length del) by (rewrite app_length, take_length; simpl; lia).
  assert (Hib : is_bdd (Coll (take (N.to_nat a) G ++ r ++ [x; y]) (take (length del - 1) del ++ [N.of_nat (length (take (N.to_nat a) G ++ r ++ [x; y]))])) (N.of_nat (length del) - 2) = inr true).
  { eapply is_bdd_ps; [exact Hps|exact Hlb|lia| |].
    - apply lookup_app_l_Some. rewrite lookup_take by lia. exact Ha.
    - rewrite lookup_app_r by (rewrite take_length; lia). rewrite take_length. by replace (N.to_nat (N.of_nat (length del) - 2 + 1) - (length del - 1) `min` length del)%nat with 0%nat by lia. }
  split; [|exact Hib]. rewrite assertRR_true by exact Hib. done.
Qed.
End ored.

Section run.
Context (c : coll) (HI : CInv c) (nr a b : N) (Hs : cseg c nr a b) (Hsm : csmall c) (Hn : nr < nr_bdds c) (pos neg : N -> bool).
Let Hg : seg (c_ins c) a b := ci_seg _ HI _ _ _ Hs.
Notation a' := (N.of_nat (length (c_ins c))).
Context (l : list instr) (Hl : slice c a b = inr l) (Hll : length l = N.to_nat (b - a)) (Hlk : forall i, (i < N.to_nat (b - a))%nat -> l !! i = ix (c_ins c) (a + N.of_nat i)).
Context (T : N) (HT : b - 2 <= T < b) (eT : instr) (HeT : ix (c_ins c) T = Some eT) (HTt : i_idx eT = ctop).
Notation ti := (a' + (T - a)).
Notation G := (c_ins c ++ copied c a pos neg ti l).
Notation b' := (a' + (b - a)).
Lemma or_var_run : bdd_or_var c nr pos neg =
  letR* c2 := reduce (Coll G (c_del c ++ [N.of_nat (length G)])) in letR* _ := assertRR (is_bdd c2 (nr_bdds c)) in inr (nr_bdds c, c2).
Proof.
  pose proof (sg_ab _ _ _ Hg) as Hab. pose proof (sg_len _ _ _ Hg) as Hlen. pose proof (nr_bdds_len _ HI) as Hdl. unfold csmall in Hsm.
  assert (HLL : N.of_nat (length G) = b') by (eapply copied_len; eauto).
  unfold bdd_or_var. rewrite assertR_true by (by apply N.ltb_lt). cbn [bindR].
  rewrite (del_at_eq _ _ _ (proj1 Hs)). cbn [bindR]. rewrite (del_at_eq _ _ _ (proj2 Hs)). cbn [bindR]. rewrite Hl. cbn [bindR].
  fold (oshift (sub64 (back_del c) a)). rewrite map_length.
  replace (N.of_nat (length (c_ins c) + length l)) with b' by lia.
  assert (Hterm : forall i x, b - 2 <= i < b -> ix (c_ins c) i = Some x -> vecR (c_ins c ++ map (oshift (sub64 (back_del c) a)) l) (a' + (i - a)) = inr x).
  { intros i x Hi Hx. apply vecR_eq. rewrite lookup_app_r by lia. rewrite list_lookup_fmap, Hlk by lia.
    replace (a + N.of_nat (N.to_nat (a' + (i - a)) - length (c_ins c))) with i by lia. rewrite Hx. cbn [fmap option_fmap option_map]. f_equal.
    destruct (seg_last _ _ _ Hg i x Hi Hx) as [bx Tx]. destruct (cterm_instr _ _ Tx) as (H1&_&_). unfold oshift. by rewrite H1. }
  destruct (sg_term _ _ _ Hg) as (bt&x&y&Hx&Hy&Tx&Ty).
  replace (b' - 1) with (a' + (b - 1 - a)) by lia. rewrite (Hterm (b - 1) y ltac:(lia) Hy). cbn [bindR].
  replace (b' - 2) with (a' + (b - 2 - a)) by lia. rewrite (Hterm (b - 2) x ltac:(lia) Hx). cbn [bindR].
  destruct (cterm_instr _ _ Tx) as (X1&X2&X3). destruct (cterm_instr _ _ Ty) as (Y1&Y2&Y3).
  assert (Hne : ci_eqb y x = false).
  { apply not_true_iff_false. intros ->%ci_eqb_eq. rewrite X2 in Y2. by destruct bt. }
  rewrite X1, Y1, Hne. rewrite assertR_true by done. cbn [bindR].
  assert (HTT : T = (if bt then b - 2 else b - 1)).
  { destruct Tx as [_ Tx], Ty as [_ Ty]. assert (HTe : T = b - 2 \/ T = b - 1) by lia. destruct HTe as [HTe|HTe]; rewrite HTe in HeT |- *.
    - assert (eT = x) by congruence. subst eT. rewrite HTt in Tx. by destruct bt.
    - assert (eT = y) by congruence. subst eT. rewrite HTt in Ty. by destruct bt. }
  rewrite Y2, Y3. rewrite assertR_true.
  2:{ destruct bt; cbn [negb]; rewrite ?X2, ?X3, ?Y2, ?Y3; cbn [negb andb]; apply negb_true_iff, N.eqb_neq; lia. }
  cbn [bindR].
  assert (Hti : (if negb bt then a' + (b - 1 - a) else a' + (b - 2 - a)) = ti) by (rewrite HTT; destruct bt; done).
  rewrite Hti. fold (copied c a pos neg ti l). rewrite <- HLL. reflexivity.
Qed.
Lemma copied_in i x : a' <= i < b' - 2 -> ix G i = Some x -> exists y, a <= i - a' + a < b - 2 /\ ix (c_ins c) (i - a' + a) = Some y /\
    x = Instr (if neg (i_idx y) then ti else a' + (i_lo y - a)) (if pos (i_idx y) then ti else a' + (i_hi y - a)) (i_idx y).
Proof.
  pose proof (sg_ab _ _ _ Hg) as Hab.
  intros Hi Hx. destruct (seg_ix _ _ _ Hg (i - a' + a)) as [y Hy]; [lia|]. exists y. split; [lia|]. split; [done|].
  pose proof (copied_inner c HI nr a b Hs Hsm pos neg l Hll Hlk T HT eT HTt (i - a' + a) y ltac:(lia) Hy) as Hc. replace (a' + (i - a' + a - a)) with i in Hc by lia. congruence.
Qed.
Lemma copied_gseg : gseg G a' b'.
Proof.
  pose proof (sg_ab _ _ _ Hg) as Hab. split.
  - lia.
  - symmetry. eapply copied_len; eauto.
  - destruct (sg_term _ _ _ Hg) as (bt&x&y&Hx&Hy&Tx&Ty). exists bt, x, y. split_and!; auto.
    + rewrite <- (copied_term c HI nr a b Hs pos neg l Hll Hlk T HT eT HTt (b - 2) x ltac:(lia) Hx). f_equal. lia.
    + rewrite <- (copied_term c HI nr a b Hs pos neg l Hll Hlk T HT eT HTt (b - 1) y ltac:(lia) Hy). f_equal. lia.
  - intros i x Hi Hx. destruct (copied_in i x Hi Hx) as (y&Hi'&Hy&->). cbn [i_lo i_hi i_idx]. destruct (sg_node _ _ _ Hg _ _ Hi' Hy) as (Hne&Hv&Hlo&Hhi).
    split; [done|]. destruct (neg (i_idx y)), (pos (i_idx y)); lia.
Qed.
Lemma copied_cev z i t d : crep (c_ins c) i t -> a <= i < b -> evp (orlit pos neg t) z = Some d -> cev G z (a' + (i - a)) d.
Proof.
  intros Hr. revert d. induction Hr as [i x u Hx Hu|i x tl th Hx Hne Hv Hlo Hhi Hrl IHl Hrh IHh]; intros d Hi He.
  - assert (Hi' : b - 2 <= i < b).
    { destruct (decide (i < b - 2)); [|lia]. destruct (sg_node _ _ _ Hg i x) as [Hne _]; [lia|done|]. by destruct Hu. }
    cbn [orlit evp] in He. injection He as <-. eapply cev_t; [by eapply copied_term|]. apply Hu.
  - assert (Hi' : a <= i < b - 2).
    { destruct (decide (i < b - 2)); [lia|]. destruct (seg_last _ _ _ Hg i x) as [u [? _]]; [lia|done|done]. }
    destruct (sg_node _ _ _ Hg i x Hi' Hx) as (_&_&Hl1&Hh1). cbn [orlit evp] in He.
    destruct (z !! N.to_nat (i_idx x)) as [u|] eqn:Hu; [|done]. pose proof (sg_ab _ _ _ Hg).
    eapply cev_n with (z := u); [exact (copied_inner c HI nr a b Hs Hsm pos neg l Hll Hlk T HT eT HTt i x Hi' Hx)|exact Hv|exact Hu|]. cbn [i_lo i_hi].
    assert (Htop : forall v, evp (Leaf true) z = Some v -> cev G z ti v).
    { intros v [= <-]. eapply cev_t; [by eapply copied_term|done]. }
    destruct u.
    + destruct (pos (i_idx x)); [by apply Htop|]. apply IHh; [lia|done].
    + destruct (neg (i_idx x)); [by apply Htop|]. apply IHl; [lia|done].
Qed.
End run.

(** the shape of a result *)
Lemma or_var_result c nr pos neg k c' : CInv c -> csmall c -> nr < nr_bdds c -> bdd_or_var c nr pos neg = inr (k, c') ->
  exists a b T eT l ins rem m r x y, cseg c nr a b /\ slice c a b = inr l /\ length l = N.to_nat (b - a) /\ (forall i, (i < N.to_nat (b - a))%nat -> l !! i = ix (c_ins c) (a + N.of_nat i)) /\
    b - 2 <= T < b /\ ix (c_ins c) T = Some eT /\ i_idx eT = ctop /\
    let a' := N.of_nat (length (c_ins c)) in let b' := a' + (b - a) in let G := c_ins c ++ copied c a pos neg (a' + (T - a)) l in
    I2 G a' b' a' ins rem m /\ ix G (b' - 2) = Some x /\ ix G (b' - 1) = Some y /\ take (N.to_nat a') ins = c_ins c /\
    reduce3 a' (reverse (down_to a' (b' - 2))) ins rem = inr r /\ (length r + cntn rem (N.to_nat (b' - a')) = N.to_nat (b' - 2 - a'))%nat /\
    k = nr_bdds c /\ c' = Coll (c_ins c ++ r ++ [x; y]) (c_del c ++ [N.of_nat (length (c_ins c ++ r ++ [x; y]))]).
Proof.
  intros HI Hsm Hn Hrun. destruct (cseg_ex _ _ HI Hn) as (a&b&Hs). pose proof (ci_seg _ HI _ _ _ Hs) as Hg.
  pose proof (sg_ab _ _ _ Hg) as Hab. pose proof (sg_len _ _ _ Hg) as Hlen. pose proof (nr_bdds_len _ HI) as Hdl.
  destruct (slice_eq c a b) as (l&Hl&Hll&Hlk); [lia..|]. assert (HT : exists T eT, b - 2 <= T < b /\ ix (c_ins c) T = Some eT /\ i_idx eT = ctop).
  { destruct (sg_term _ _ _ Hg) as (bt&x&y&Hx&Hy&Tx&Ty). destruct bt; [exists (b - 2), x|exists (b - 1), y]; (split; [lia|]; split; [done|]); [apply Tx|apply Ty]. }
  destruct HT as (T&eT&HT&HeT&HTt). pose proof (or_var_run c HI nr a b Hs Hsm Hn pos neg l Hl Hll Hlk T HT eT HeT HTt) as Hor. rewrite Hor in Hrun.
  pose proof (copied_gseg c HI nr a b Hs Hsm Hn pos neg l Hll Hlk T HT eT HTt) as HG.
  pose proof (copied_len c a b pos neg l Hll T HT eT HTt) as HLL.
  set (a' := N.of_nat (length (c_ins c))) in *. set (L := copied c a pos neg (a' + (T - a)) l) in *. set (b' := a' + (b - a)) in *.
  assert (Hlast : ix (c_del c) (nr_bdds c) = Some a').
  { pose proof (ci_last _ HI) as Hla. rewrite last_lookup in Hla. unfold a'. rewrite <- Hla. f_equal. lia. }
  assert (Hdl' : N.of_nat (length (c_del c ++ [N.of_nat (length (c_ins c ++ L))])) = nr_bdds c + 2) by (rewrite app_length; simpl; lia).
  unfold csmall in Hsm.
  assert (Htk : forall A (u v : list A), take (length u) (u ++ v) = u) by (intros A u v; by rewrite take_app).
  destruct (reduce_gen (c_ins c ++ L) a' b' HG ltac:(unfold two64; lia) (c_del c ++ [N.of_nat (length (c_ins c ++ L))])) as [Hf|(ins&rem&m&r&x&y&HI2&Hx&Hy&Ht&Hr3&Hlr&Hrd)].
  - rewrite Hdl'. replace (nr_bdds c + 2 - 2) with (nr_bdds c) by lia. by apply lookup_app_l_Some.
  - rewrite Hdl'. rewrite lookup_app_r by lia. replace (N.to_nat (nr_bdds c + 2 - 1) - length (c_del c))%nat with 0%nat by lia. simpl. by rewrite HLL.
  - lia.
  - rewrite Hf in Hrun. done.
  - exists a, b, T, eT, l, ins, rem, m, r, x, y. split_and!; auto; try lia. cbv zeta. fold a'. fold L. fold b'.
    assert (Hta : take (N.to_nat a') (c_ins c ++ L) = c_ins c). { unfold a'. rewrite Nat2N.id. apply Htk. }
    rewrite Hta in *. cbv zeta in Hrd. rewrite Hrd in Hrun.
    assert (Htd : take (length (c_del c ++ [N.of_nat (length (c_ins c ++ L))]) - 1) (c_del c ++ [N.of_nat (length (c_ins c ++ L))]) = c_del c).
    { rewrite app_length. simpl. rewrite Nat.add_sub. apply Htk. }
    rewrite Htd in Hrun.
    assert (Hk : k = nr_bdds c /\ c' = Coll (c_ins c ++ r ++ [x; y]) (c_del c ++ [N.of_nat (length (c_ins c ++ r ++ [x; y]))])).
    { clear -Hrun. destruct (assertRR _) as [e|[]] in Hrun; cbn [bindR] in Hrun; [done|]. destruct (assertRR _) as [e|[]] in Hrun; cbn [bindR] in Hrun; [done|].
      injection Hrun as <- <-. done. }
    destruct Hk as [-> ->]. split_and!; auto.
Qed.

(** ** is_bdd and the invariant *)
Lemma is_bdd_loop_inv a b l : forall i seen, is_bdd_loop l i a b seen = true ->
  (forall k x, l !! k = Some x -> i_lo x <> i_hi x /\ i + N.of_nat k < i_lo x < b /\ i + N.of_nat k < i_hi x < b) /\
  (forall k x, l !! k = Some x -> x ∉ seen) /\ (forall k k' x, l !! k = Some x -> l !! k' = Some x -> k = k').
Proof.
  induction l as [|x l IH]; intros i seen; [done|]. cbn [is_bdd_loop]. unfold ci_is_term.
  destruct (N.eqb_spec (i_lo x) (i_hi x)) as [|H1]; [done|].
  destruct (N.leb_spec (i_lo x) i) as [|H2]; [done|]. destruct (N.leb_spec (i_hi x) i) as [|H3]; [done|]. cbn [orb].
  destruct (N.leb_spec b (i_lo x)) as [|H4]; [done|]. destruct (N.leb_spec b (i_hi x)) as [|H5]; [done|]. cbn [orb].
  destruct ((i_lo x <? a) || (i_hi x <? a)); [done|]. destruct (existsb (ci_eqb x) seen) eqn:Hex; [done|].
  intros Hl. destruct (IH _ _ Hl) as (I1&I2&I3). split_and!.
  - intros [|k] y Hy; cbn [lookup list_lookup] in Hy; [injection Hy as <-; lia|]. specialize (I1 k y Hy). lia.
  - intros [|k] y Hy; cbn [lookup list_lookup] in Hy.
    + injection Hy as <-. intros Hin. apply not_true_iff_false in Hex. apply Hex. apply existsb_exists. exists x. split; [by apply elem_of_list_In|by apply ci_eqb_eq].
    + intros Hin. apply (I2 k y Hy). by right.
  - intros [|k] [|k'] y Hy Hy'; cbn [lookup list_lookup] in Hy, Hy'; [done|..].
    + injection Hy as <-. exfalso. apply (I2 _ _ Hy'). left.
    + injection Hy' as <-. exfalso. apply (I2 _ _ Hy). left.
    + f_equal. eauto.
Qed.
Lemma is_bdd_seg c nr a b : nr < nr_bdds c -> cseg c nr a b -> a + 3 <= b -> b <= N.of_nat (length (c_ins c)) -> b < two64 ->
  (exists bt x y, ix (c_ins c) (b - 2) = Some x /\ ix (c_ins c) (b - 1) = Some y /\ cterm bt x /\ cterm (negb bt) y) ->
  (forall i x, a <= i < b - 2 -> ix (c_ins c) i = Some x -> i_idx x < cbot) -> is_bdd c nr = inr true -> seg (c_ins c) a b.
Proof.
  intros Hn Hs Hab Hlen Hsm Ht Hv Hb. pose proof Ht as (bt&x&y&Hx&Hy&Tx&Ty).
  unfold is_bdd, nr_bdd_nodes in Hb. rewrite assertR_true in Hb by (by apply N.ltb_lt). cbn [bindR] in Hb.
  rewrite !(del_at_eq _ _ _ (proj1 Hs)) in Hb. cbn [bindR] in Hb. rewrite !(del_at_eq _ _ _ (proj2 Hs)) in Hb. cbn [bindR] in Hb.
  rewrite sub64_small in Hb by lia. rewrite (proj2 (N.ltb_ge _ _)) in Hb by lia. cbn [bindR] in Hb.
  rewrite (vecR_eq _ _ _ Hy) in Hb. cbn [bindR] in Hb. rewrite (vecR_eq _ _ _ Hx) in Hb. cbn [bindR] in Hb.
  destruct (slice_eq c a (b - 2)) as (l&Hl&Hll&Hlk); [lia..|].
  destruct (negb (ci_is_term y)); [done|]. destruct (negb (ci_is_term x)); [done|]. destruct (ci_eqb x y); [done|]. rewrite Hl in Hb. cbn [bindR] in Hb. injection Hb as Hb.
  apply is_bdd_loop_inv in Hb as (I1&_&I3).
  assert (Hat : forall i e, a <= i < b - 2 -> ix (c_ins c) i = Some e -> l !! N.to_nat (i - a) = Some e).
  { intros i e Hi He. rewrite Hlk by lia. rewrite <- He. f_equal. lia. }
  split; auto.
  - intros i e Hi He. destruct (I1 _ _ (Hat i e Hi He)) as (?&?&?). split_and!; auto; try lia. by eapply Hv.
  - intros i j e Hi Hj He He'. pose proof (I3 _ _ _ (Hat i e Hi He) (Hat j e Hj He')). lia.
Qed.
Lemma reduce3_labels (a : N) l ins rem r : reduce3 a l ins rem = inr r -> (forall i x, i ∈ l -> ix ins i = Some x -> i_idx x < cbot) -> Forall (fun x => i_idx x < cbot) r.
Proof.
  revert r. induction l as [|i l IH]; intros r; cbn [reduce3]; [intros [= <-]; constructor|]. intros Hr Hv.
  destruct (nth (N.to_nat (i - a)) rem false); [apply IH; [done|]; intros j x Hj; apply Hv; by right|].
  unfold vecR in Hr. destruct (ix ins i) as [x|] eqn:Hx; cbn [bindR] in Hr; [|done].
  destruct (removed_before _ _) as [|dl] in Hr; cbn [bindR] in Hr; [done|]. destruct (removed_before _ _) as [|dh] in Hr; cbn [bindR] in Hr; [done|].
  destruct (reduce3 a l ins rem) as [|r'] eqn:Hr'; cbn [bindR] in Hr; [done|]. injection Hr as <-. constructor.
  - cbn [i_idx]. eapply Hv; [|exact Hx]. left.
  - apply IH; [done|]. intros j y Hj. apply Hv. by right.
Qed.
Lemma or_var_CInv c nr pos neg k c' : CInv c -> csmall c -> nr < nr_bdds c -> bdd_or_var c nr pos neg = inr (k, c') ->
  is_bdd c' k = inr true -> (exists y, centry c' k y) -> CInv c'.
Proof.
  intros HI Hsm Hn Hrun Hb Hex.
  destruct (or_var_result c nr pos neg k c' HI Hsm Hn Hrun) as (a&b&T&eT&l&ins&rem&m&r&x&y&Hs&Hl&Hll&Hlk&HT&HeT&HTt&HI2&Hx&Hy&Htk&Hr3&Hlr&->&Hc').
  pose proof (ci_seg _ HI _ _ _ Hs) as Hg. pose proof (sg_ab _ _ _ Hg) as Hab. pose proof (sg_len _ _ _ Hg) as Hlen. unfold csmall in Hsm.
  pose proof (copied_gseg c HI nr a b Hs Hsm Hn pos neg l Hll Hlk T HT eT HTt) as HG.
  pose proof (new_cseg c (r ++ [x; y])) as Hcs. pose proof (cappends_intro c (r ++ [x; y]) HI) as (_&Hnb&_).
  set (a' := N.of_nat (length (c_ins c))) in *. set (b' := a' + (b - a)) in *. set (G := c_ins c ++ copied c a pos neg (a' + (T - a)) l) in *.
  assert (Hrl : (length r <= N.to_nat (b - a))%nat) by lia.
  assert (Hbe : N.of_nat (length (c_ins c) + length (r ++ [x; y])) = a' + N.of_nat (length r) + 2) by (rewrite app_length; cbn [length]; lia).
  assert (H3 : (1 <= length r)%nat).
  { destruct Hex as (u&a0&b0&i&Hs0&Hi&_). rewrite Hc' in Hs0. apply Hcs in Hs0 as [-> ->]; [|done]. lia. }
  assert (Hlab : Forall (fun e => i_idx e < cbot) r).
  { eapply reduce3_labels; [exact Hr3|]. intros i e Hi He. rewrite elem_of_reverse in Hi. apply (down_to_in a' 0 eq_refl) in Hi.
    destruct (gs_ix G a' b' HG ltac:(unfold two64; lia) i) as [g Hgi]; [lia|]. destruct (gs_node _ _ _ HG i g Hi Hgi) as (Hvi&_).
    destruct (decide (i_lo g = i_hi g)) as [Heq|Hne].
    - destruct (i_red _ _ _ _ _ _ _ HI2 i Hi) as [_ Hri]; [split; [lia|by exists g]|]. rewrite Hri, Hgi in He. by injection He as <-.
    - destruct (i_new _ _ _ _ _ _ _ HI2 i g ltac:(lia) Hgi Hne) as (l0&h0&Hn0&_). rewrite Hn0 in He. injection He as <-. exact Hvi. }
  assert (Hseg : seg (c_ins c ++ r ++ [x; y]) a' (N.of_nat (length (c_ins c) + length (r ++ [x; y])))).
  { rewrite Hc' in Hb. pose proof (proj2 (Hcs a' _ HI) (conj eq_refl eq_refl)) as Hs'.
    eapply (is_bdd_seg _ _ _ _ _ Hs'); cbn [c_ins]; rewrite ?Hbe.
    - lia.
    - rewrite !app_length. cbn [length]. lia.
    - unfold two64. lia.
    - destruct (gs_term _ _ _ HG) as (bt&x0&y0&Hx0&Hy0&Tx&Ty). assert (x0 = x) as -> by congruence. assert (y0 = y) as -> by congruence.
      exists bt, x, y. split_and!; auto.
      + rewrite lookup_app_r by lia. rewrite lookup_app_r by lia. by replace (N.to_nat (a' + N.of_nat (length r) + 2 - 2) - length (c_ins c) - length r)%nat with 0%nat by lia.
      + rewrite lookup_app_r by lia. rewrite lookup_app_r by lia. by replace (N.to_nat (a' + N.of_nat (length r) + 2 - 1) - length (c_ins c) - length r)%nat with 1%nat by lia.
    - intros i e Hi He. rewrite lookup_app_r in He by lia. rewrite lookup_app_l in He by lia. rewrite Forall_lookup in Hlab. eauto.
    - exact Hb. }
  rewrite Hc'. apply CInv_app; [exact HI|exact Hseg].
  Unshelve. rewrite Hnb. lia.
Qed.

(** ** rerouting one arc *)
Definition rerouted (z : bool) (j : N) (e : instr) : instr := if z then Instr (i_lo e) j (i_idx e) else Instr j (i_hi e) (i_idx e).
Lemma node_nr_ix c nr a b k m : CInv c -> csmall c -> cseg c nr a b -> node_nr c nr k m -> m = (a + k, nr) /\ a + k < b.
Proof.
  intros HI Hsm Hs (n&Hn&Hk&Hm). pose proof (ci_seg _ HI _ _ _ Hs) as Hg. pose proof (sg_ab _ _ _ Hg). pose proof (sg_len _ _ _ Hg).
  unfold csmall in Hsm. assert (two64 = 2 ^ 62 * 4) by done.
  rewrite (nr_bdd_nodes_eq _ _ _ _ HI Hs) in Hn by lia. injection Hn as <-.
  unfold entry_nth in Hm. rewrite (del_at_eq _ _ _ (proj1 Hs)) in Hm. cbn [bindR] in Hm. unfold add64 in Hm. rewrite N.mod_small in Hm by lia.
  rewrite (mk_cnode_ok c nr a b) in Hm by (done || lia). injection Hm as <-. split; [done|lia].
Qed.
Lemma inner_ix c nr a b i : CInv c -> cseg c nr a b -> a <= i < b -> cn_is_terminal c (i, nr) = inr false -> a <= i < b - 2.
Proof.
  intros HI Hs Hi Ht. pose proof (ci_seg _ HI _ _ _ Hs) as Hg. destruct (decide (i < b - 2)) as [?|Hb]; [lia|exfalso].
  destruct (seg_ix _ _ _ Hg i) as [y Hy]; [lia|]. destruct (seg_last _ _ _ Hg i y) as [d Hd]; [lia|done|].
  unfold cn_is_terminal, cn_instr in Ht. simpl in Ht. rewrite (vecR_eq _ _ _ Hy) in Ht. cbn [bindR] in Ht. by destruct (cterm_instr _ _ Hd) as (Hx&_); rewrite Hx in Ht.
Qed.
Lemma set_arc_eq c nr i j z e : ix (c_ins c) i = Some e -> set_arc z c (i, nr) j = inr (Coll (<[N.to_nat i := rerouted z (fst j) e]> (c_ins c)) (c_del c)).
Proof. intros He. unfold set_arc, cn_set_hi_arc, cn_set_lo_arc, cn_instr, rerouted. destruct z; cbn [fst]; by rewrite (vecR_eq _ _ _ He). Qed.
(** the result of rerouting *)
Lemma set_arc_CInv c nr k k' m n z c' : CInv c -> csmall c -> nr < nr_bdds c -> node_nr c nr k m -> cn_is_terminal c m = inr false -> node_nr c nr k' n ->
  set_arc z c m n = inr c' -> is_bdd c' nr = inr true -> CInv c'.
Proof.
  intros HI Hsm Hn Hm Hmt Hn' Hset Hb. destruct (cseg_ex _ _ HI Hn) as (a&b&Hs). pose proof (ci_seg _ HI _ _ _ Hs) as Hg.
  destruct (node_nr_ix _ _ _ _ _ _ HI Hsm Hs Hm) as [-> Hk]. assert (Hk0 : a <= a + k < b) by lia. pose proof (inner_ix _ _ _ _ _ HI Hs Hk0 Hmt) as Hk2.
  pose proof (sg_ab _ _ _ Hg) as Hab. pose proof (sg_len _ _ _ Hg) as Hlen.
  destruct (seg_ix _ _ _ Hg (a + k)) as [e He]; [lia|]. rewrite (set_arc_eq _ _ _ _ _ _ He) in Hset. injection Hset as <-.
  set (i0 := a + k) in *. set (ins' := <[N.to_nat i0 := rerouted z (fst n) e]> (c_ins c)) in *.
  assert (Hoth : forall i, i <> i0 -> ix ins' i = ix (c_ins c) i) by (intros i Hi; apply list_lookup_insert_ne; lia).
  assert (Hl' : length ins' = length (c_ins c)) by apply insert_length. unfold csmall in Hsm.
  assert (Hseg : seg ins' a b).
  { apply (is_bdd_seg (Coll ins' (c_del c)) nr a b); auto; cbn [c_ins]; try lia.
    - unfold two64. lia.
    - destruct (sg_term _ _ _ Hg) as (bt&x&y&Hx&Hy&Tx&Ty). exists bt, x, y. rewrite !Hoth by lia. done.
    - intros i x Hi Hx. destruct (decide (i = i0)) as [->|Hne].
      + unfold ins' in Hx. rewrite list_lookup_insert in Hx by lia. injection Hx as <-. destruct (sg_node _ _ _ Hg _ e Hk2 He) as (_&Hv&_). unfold rerouted. by destruct z.
      + rewrite Hoth in Hx by done. by destruct (sg_node _ _ _ Hg i x Hi Hx) as (_&?&_). }
  split; cbn [c_ins c_del].
  - apply HI.
  - rewrite Hl'. apply HI.
  - intros nr' a' b' Hs'. change (cseg c nr' a' b') in Hs'. destruct (decide (nr' = nr)) as [->|Hne].
    + assert (a' = a /\ b' = b) as [-> ->] by (destruct Hs, Hs'; split; congruence). done.
    + eapply seg_same; [| |by eapply ci_seg].
      * intros i Hi. apply Hoth. intros ->. apply (cseg_disj _ _ _ _ _ _ _ _ HI Hs Hs' (not_eq_sym Hne) Hi). lia.
      * rewrite Hl'. apply (sg_len _ _ _ (ci_seg _ HI _ _ _ Hs')).
Qed.
End or_var.
