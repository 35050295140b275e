(** * PropsColl8.v -- C50: bdd_or_var on collections of ordered BDDs *)
From Verif Require Export PropsColl7.
Open Scope N_scope.

Section ordered.
Context {E : Env} (HE : env_ok E).

(** in an ordered BDD only the root carries the root's variable *)
Lemma root_only c nr r y : ofbuilt c -> nr < nr_bdds c -> croot_entry c nr r -> centry c nr y -> i_idx y = i_idx r -> y = r.
Proof.
  intros HB Hn (a0&Ha0&Hr) (a&b&i&Hs&Hi&Hy) He. pose proof (built_CInv HE _ (ofbuilt_built _ HB)) as HI. pose proof (ci_seg _ HI _ _ _ Hs) as Hg.
  assert (a0 = a) as -> by (destruct Hs; congruence). pose proof (C45_ordered HE c nr (ofbuilt_obuilt _ HB) Hn) as Hord.
  assert (Hlt : forall n (j : N) (z : instr), N.to_nat (j - a) = n -> a < j < b - 2 -> ix (c_ins c) j = Some z -> i_idx r < i_idx z).
  { intros n. induction (lt_wf n) as [n _ IH]. intros j z Hj Hjb Hz. destruct (ofbuilt_full HE c nr HB a b Hs j Hjb) as (k&w&Hk&Hw&Harc).
    assert (Hwz : i_idx w < i_idx z).
    { apply (Hord w z); [exists a, b, k; split; [done|]; split; [lia|done]|]. destruct Harc as [-> | ->]; auto. }
    destruct (decide (k = a)) as [->|]; [congruence|]. assert (i_idx r < i_idx w); [|lia]. eapply (IH (N.to_nat (k - a))); [lia|done|lia|done]. }
  destruct (decide (i = a)) as [->|]; [congruence|]. pose proof (Hlt _ i y eq_refl ltac:(lia) Hy). lia.
Qed.
Lemma centry_root c nr r : CInv c -> nr < nr_bdds c -> croot_entry c nr r -> centry c nr r.
Proof.
  intros HI Hn (a&Ha&Hr). destruct (cseg_ex _ _ HI Hn) as (a1&b&Hs). assert (a1 = a) as -> by (destruct Hs; congruence).
  exists a, b, a. pose proof (sg_ab _ _ _ (ci_seg _ HI _ _ _ Hs)). split; [done|]. split; [lia|done].
Qed.

(** Whenever bdd_or_var returns for an ordered BDD (built without earlier edits) whose root the literals do not make redundant, and has dropped fewer than 128
    entries, the new BDD is true exactly where BDD [nr] is or a listed literal on a variable that its evaluation looks at. *)
Theorem C50_or_var_ordered c nr pos neg k c' T r n n' : ofbuilt c -> csmall c -> nr < nr_bdds c -> bdd_or_var c nr pos neg = inr (k, c') ->
  ctop_at c nr T -> croot_entry c nr r -> ~ made_redundant pos neg T r -> nr_bdd_nodes c nr = inr n -> nr_bdd_nodes c' k = inr n' -> n < n' + 128 ->
  forall x, ccovers c nr x -> exists d, cval c' k x = Some d /\
    (d = true <-> cval c nr x = Some true \/ exists v, cvisits c nr x v /\ lit_true pos neg x v).
Proof.
  intros HB Hsm Hn Hrun HT Hr Hnr Hn1 Hn2 Hlt. destruct (C50_or_var_returns HE _ _ _ _ _ _ (ofbuilt_built _ HB) Hsm Hn Hrun) as (_&_&_&m&m'&Hm&Hm'&_&Hx).
  rewrite Hn1 in Hm. injection Hm as <-. rewrite Hn2 in Hm'. injection Hm' as <-. apply Hx; [|done].
  exists T, r. split; [done|]. split; [done|]. split; [exact Hnr|]. intros y Hy He. eapply root_only; eauto.
  assert (Hi : i_idx (redirected pos neg T y) = i_idx (redirected pos neg T r)) by by rewrite He. exact Hi.
Qed.

(** For one literal on the root variable of an ordered BDD, bdd_or_var is the disjunction, unless the root's other arc leads to
    the true terminal. *)
Theorem C50_or_var_root c nr T r (d : bool) : ofbuilt c -> csmall c -> nr < nr_bdds c -> ctop_at c nr T -> croot_entry c nr r ->
  (if d then i_lo r else i_hi r) <> T ->
  exists c', bdd_or_var c nr (fun v => d && (v =? i_idx r)) (fun v => negb d && (v =? i_idx r)) = inr (nr_bdds c, c') /\ cappends c c' (nr_bdds c) /\ ckeeps c c' /\
    forall x, ccovers c nr x -> exists e, cval c' (nr_bdds c) x = Some e /\ (e = true <-> cval c nr x = Some true \/ x !! N.to_nat (i_idx r) = Some d).
Proof.
  intros HB Hsm Hn HT Hr Hd. set (pos := fun v => d && (v =? i_idx r)). set (neg := fun v => negb d && (v =? i_idx r)).
  pose proof (ofbuilt_built _ HB) as HB'. pose proof (built_CInv HE _ HB') as HI. destruct HT as (a&b&eT&Hs&HTb&HeT&HTt). pose proof (ci_seg _ HI _ _ _ Hs) as Hg.
  assert (Hother : forall y, centry c nr y -> y <> r -> redirected pos neg T y = y).
  { intros y Hy Hne. unfold redirected, pos, neg. destruct (N.eqb_spec (i_idx y) (i_idx r)) as [He|_]; [|by rewrite !andb_false_r; destruct y]. destruct Hne. by eapply root_only. }
  assert (Hroot : redirected pos neg T r = Instr (if d then i_lo r else T) (if d then T else i_hi r) (i_idx r)).
  { unfold redirected, pos, neg. rewrite N.eqb_refl, !andb_true_r. by destruct d. }
  assert (Hcl : or_clean c nr pos neg).
  { exists T, a, b, eT. split; [done|]. split; [done|]. split; [done|]. split; [done|]. split.
    - intros y Hy. destruct (decide (y = r)) as [->|Hne].
      + rewrite Hroot. cbn [i_lo i_hi]. destruct d; congruence.
      + rewrite Hother by done. destruct Hy as (a1&b1&i&Hs1&Hi&Hy). assert (a1 = a /\ b1 = b) as [-> ->] by (destruct Hs, Hs1; split; congruence). by destruct (sg_node _ _ _ Hg i y Hi Hy).
    - assert (Hidx : forall y z, redirected pos neg T y = redirected pos neg T z -> i_idx y = i_idx z).
      { intros y z He. assert (Hi : i_idx (redirected pos neg T y) = i_idx (redirected pos neg T z)) by by rewrite He. exact Hi. }
      intros y z Hy Hz He. pose proof (Hidx _ _ He) as Hv. destruct (decide (y = r)) as [->|Hy1].
      + symmetry. by eapply root_only.
      + destruct (decide (z = r)) as [->|Hz1]; [by eapply root_only|]. by rewrite !Hother in He. }
  destruct (C50_or_var HE c nr pos neg HB' Hsm Hn Hcl) as (c'&Hrun&_&Happ&Hk&Hx). exists c'. split; [exact Hrun|]. split; [done|]. split; [done|].
  intros x Hc. destruct (Hx x Hc) as (e&He&Hiff). exists e. split; [done|]. rewrite Hiff. unfold lit_true, pos, neg.
  split; (intros [?|H]; [by left|right]).
  - destruct H as (v&_&[[Hp Hv]|[Hp Hv]]); apply andb_true_iff in Hp as [Hd' Hp]; apply N.eqb_eq in Hp; subst v; [destruct d|destruct d]; try done.
  - exists (i_idx r). split.
    + destruct Hr as (a1&Ha1&Hr). exists a1, a1, r. split; [done|]. split; [constructor|]. split; [done|]. split; [|done].
      assert (a1 = a) as -> by (destruct Hs; congruence). pose proof (sg_ab _ _ _ Hg). by destruct (sg_node _ _ _ Hg a r ltac:(lia) Hr).
    + rewrite N.eqb_refl. destruct d; [left|right]; done.
Qed.
(** If it does, the disjunction is true everywhere, but the result is the function of the second stored entry. *)
Theorem C50_or_var_root_refuted c nr a b T r (d : bool) : ofbuilt c -> csmall c -> nr < nr_bdds c -> cseg c nr a b -> a + 4 <= b -> ctop_at c nr T -> croot_entry c nr r ->
  (if d then i_lo r else i_hi r) = T ->
  exists c', bdd_or_var c nr (fun v => d && (v =? i_idx r)) (fun v => negb d && (v =? i_idx r)) = inr (nr_bdds c, c') /\ cappends c c' (nr_bdds c) /\
    forall x, ccovers c nr x -> (cval c nr x = Some true \/ x !! N.to_nat (i_idx r) = Some d) /\ exists e, node_eval c x (a + 1, nr) e /\ cval c' (nr_bdds c) x = Some e.
Proof.
  intros HB Hsm Hn Hs Hab HT Hr Hd. pose proof (ofbuilt_built _ HB) as HB'. pose proof (built_CInv HE _ HB') as HI. pose proof (ci_seg _ HI _ _ _ Hs) as Hg. pose proof Hr as (a1&Ha1&Hr1).
  assert (a1 = a) as -> by (destruct Hs; congruence).
  destruct (C50_root_dropped_refuted HE c nr a b r (fun v => d && (v =? i_idx r)) (fun v => negb d && (v =? i_idx r)) T) as (c'&Hrun&Happ&Hx); try done.
  - intros y Hy He. by eapply root_only.
  - intros v Hv. apply N.eqb_neq in Hv. by rewrite Hv, !andb_false_r.
  - unfold made_redundant, redirected. cbn [i_lo i_hi]. rewrite N.eqb_refl, !andb_true_r. by destruct d.
  - exists c'. split; [done|]. split; [done|]. intros x Hc. split; [|by apply Hx].
    assert (Hcr : centry c nr r) by by apply centry_root. specialize (Hc (i_idx r) ltac:(by apply centry_cvar)).
    destruct (lookup_lt_is_Some_2 x (N.to_nat (i_idx r))) as [u Hu]; [lia|].
    destruct (decide (u = d)) as [->|Hud]; [by right|left].
    apply (cval_cev c nr a b x true HI Hs). destruct HT as (a2&b2&eT&_&_&HeT&HTt). apply (cev_n _ _ a r u true); [done|by destruct (sg_node _ _ _ Hg a r ltac:(lia) Hr1) as (_&?&_)|done|].
    assert ((if u then i_hi r else i_lo r) = T) as -> by (destruct u, d; done). by apply (cev_t _ _ T eT true).
Qed.
End ordered.
