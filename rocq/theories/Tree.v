(** * Tree.v -- decision trees, their functions, and canonicity of reduced ordered trees *)
From stdpp Require Export base numbers list.
From Coq Require Export NArith Lia.
Open Scope N_scope.

Inductive bdd := Leaf (b : bool) | Br (v : N) (lo hi : bdd).
Global Instance bdd_eq_dec : EqDecision bdd.
Proof. solve_decision. Defined.

Definition asgn := N -> bool.
Definition bfun := asgn -> bool.

Fixpoint evalt (t : bdd) (r : asgn) : bool :=
  match t with Leaf b => b | Br v l h => if r v then evalt h r else evalt l r end.

Fixpoint ht (t : bdd) : nat :=
  match t with Leaf _ => 0 | Br _ l h => S (Nat.max (ht l) (ht h)) end.

Fixpoint occurs (u : N) (t : bdd) : Prop :=
  match t with Leaf _ => False | Br v l h => u = v \/ occurs u l \/ occurs u h end.

(** all variables >= lb, strictly increasing downwards *)
Fixpoint ordt (lb : N) (t : bdd) : Prop :=
  match t with Leaf _ => True | Br v l h => lb <= v /\ ordt (v + 1) l /\ ordt (v + 1) h end.

Fixpoint redt (t : bdd) : Prop :=
  match t with Leaf _ => True | Br v l h => l <> h /\ redt l /\ redt h end.

(** subtree-or-self *)
Fixpoint subt (s t : bdd) : Prop :=
  s = t \/ match t with Leaf _ => False | Br _ l h => subt s l \/ subt s h end.

Definition upd (r : asgn) (v : N) (b : bool) : asgn := fun u => if u =? v then b else r u.

Lemma upd_same r v b : upd r v b v = b.
Proof. unfold upd. by rewrite N.eqb_refl. Qed.
Lemma upd_other r v b u : u <> v -> upd r v b u = r u.
Proof. unfold upd. intros. destruct (N.eqb_spec u v); congruence. Qed.

Lemma evalt_ext t r r' : (forall v, occurs v t -> r v = r' v) -> evalt t r = evalt t r'.
Proof.
  induction t as [b|v l IHl h IHh]; simpl; [done|]. intros H.
  rewrite (H v) by auto. destruct (r' v); [apply IHh|apply IHl]; auto.
Qed.

Lemma ordt_weaken t lb lb' : lb' <= lb -> ordt lb t -> ordt lb' t.
Proof. destruct t; simpl; [done|]. intros ? (?&?&?); repeat split; auto; lia. Qed.

Lemma ordt_occurs t lb u : ordt lb t -> occurs u t -> lb <= u.
Proof.
  revert lb; induction t as [b|v l IHl h IHh]; simpl; intros lb; [done|].
  intros (?&Hl&Hh) [->|[Ho|Ho]]; [done| |].
  - specialize (IHl _ Hl Ho); lia.
  - specialize (IHh _ Hh Ho); lia.
Qed.

Lemma evalt_upd_lt t lb u r b : ordt lb t -> u < lb -> evalt t (upd r u b) = evalt t r.
Proof.
  intros Ho Hu. apply evalt_ext. intros v Hv. apply upd_other.
  pose proof (ordt_occurs _ _ _ Ho Hv). lia.
Qed.

Lemma evalt_upd_notin t u r b : ~ occurs u t -> evalt t (upd r u b) = evalt t r.
Proof.
  intros Ho. apply evalt_ext. intros v Hv. apply upd_other. congruence.
Qed.

Lemma evalt_br_lo v l h r lb : ordt lb l -> v < lb -> evalt (Br v l h) (upd r v false) = evalt l r.
Proof. intros. simpl. rewrite upd_same. eapply evalt_upd_lt; eauto. Qed.
Lemma evalt_br_hi v l h r lb : ordt lb h -> v < lb -> evalt (Br v l h) (upd r v true) = evalt h r.
Proof. intros. simpl. rewrite upd_same. eapply evalt_upd_lt; eauto. Qed.

(** Different reduced ordered trees are told apart by some assignment. *)
Lemma distinguish_aux n : forall t1 t2, (ht t1 + ht t2 <= n)%nat ->
  ordt 0 t1 -> ordt 0 t2 -> redt t1 -> redt t2 ->
  t1 <> t2 -> exists r, evalt t1 r <> evalt t2 r.
Proof.
  induction n as [|n IH]; intros t1 t2 Hn Ho1 Ho2 Hr1 Hr2 Hne'.
  { destruct t1 as [b1|], t2 as [b2|]; simpl in Hn; try lia. exists (fun _ => false). simpl. congruence. }
  assert (Hcase : forall w l h t, (ht (Br w l h) + ht t <= S n)%nat ->
    ordt 0 (Br w l h) -> ordt (w + 1) t -> redt (Br w l h) -> redt t ->
    exists r, evalt (Br w l h) r <> evalt t r).
  { intros w l' h' t Hs (Hv&Hl&Hh) Hot (Hne2&Hrl'&Hrh') Hrt.
    destruct (decide (l' = t)) as [->|Hlt].
    - destruct (IH h' t) as [r Hr']; auto; try (eapply ordt_weaken; [|eassumption]; lia).
      { simpl in Hs; lia. }
      exists (upd r w true). rewrite (evalt_br_hi w t h' r (w + 1)) by (auto; lia).
      rewrite (evalt_upd_lt t (w + 1)) by (auto; lia). done.
    - destruct (IH l' t) as [r Hr']; auto; try (eapply ordt_weaken; [|eassumption]; lia).
      { simpl in Hs; lia. }
      exists (upd r w false). rewrite (evalt_br_lo w l' h' r (w + 1)) by (auto; lia).
      rewrite (evalt_upd_lt t (w + 1)) by (auto; lia). done. }
  destruct t1 as [b1|v1 l1 h1], t2 as [b2|v2 l2 h2].
  - exists (fun _ => false). simpl. congruence.
  - destruct (Hcase v2 l2 h2 (Leaf b1)) as [r Hr']; [simpl in *; lia|done..|]. exists r. done.
  - apply Hcase; done.
  - destruct (N.lt_trichotomy v1 v2) as [Hlt|[Heq|Hlt]].
    + apply Hcase; auto. destruct Ho2 as (?&?&?). simpl; repeat split; auto; lia.
    + subst v2. destruct Ho1 as (_&Hl1&Hh1), Ho2 as (_&Hl2&Hh2).
      destruct Hr1 as (_&Hrl1&Hrh1), Hr2 as (_&Hrl2&Hrh2).
      destruct (decide (l1 = l2)) as [->|Hnl].
      * destruct (decide (h1 = h2)) as [->|Hnh]; [done|].
        destruct (IH h1 h2) as [r Hr']; auto; try (eapply ordt_weaken; [|eassumption]; lia).
        { simpl in Hn; lia. }
        exists (upd r v1 true). rewrite !(evalt_br_hi v1 _ _ r (v1 + 1)) by (auto; lia). done.
      * destruct (IH l1 l2) as [r Hr']; auto; try (eapply ordt_weaken; [|eassumption]; lia).
        { simpl in Hn; lia. }
        exists (upd r v1 false). rewrite !(evalt_br_lo v1 _ _ r (v1 + 1)) by (auto; lia). done.
    + destruct (Hcase v2 l2 h2 (Br v1 l1 h1)) as [r Hr']; auto; [simpl in *; lia| |].
      { destruct Ho1 as (?&?&?). simpl; repeat split; auto; lia. }
      exists r. done.
Qed.

Lemma distinguish t1 t2 : ordt 0 t1 -> ordt 0 t2 -> redt t1 -> redt t2 ->
  t1 <> t2 -> exists r, evalt t1 r <> evalt t2 r.
Proof. intros. eapply distinguish_aux; eauto. Qed.

(** Canonicity: reduced ordered trees with the same function are the same tree. *)
Lemma canon t1 t2 : ordt 0 t1 -> ordt 0 t2 -> redt t1 -> redt t2 ->
  (forall r, evalt t1 r = evalt t2 r) -> t1 = t2.
Proof.
  intros ???? He. destruct (decide (t1 = t2)) as [|Hne]; [done|].
  destruct (distinguish t1 t2) as [r Hr]; auto. by rewrite He in Hr.
Qed.

Lemma evalt_upd_comm t u v r b c : u <> v ->
  evalt t (upd (upd r u b) v c) = evalt t (upd (upd r v c) u b).
Proof.
  intros Hne. apply evalt_ext; intros w _; unfold upd.
  destruct (N.eqb_spec w v), (N.eqb_spec w u); congruence.
Qed.

(** every variable of a reduced ordered tree matters *)
Lemma occurs_dep t u : ordt 0 t -> redt t -> occurs u t ->
  exists r, evalt t (upd r u false) <> evalt t (upd r u true).
Proof.
  intros Ho Hr. revert Ho. generalize 0 as lb.
  induction t as [b|v l IHl h IHh]; [done|]; intros lb Ho Hoc.
  destruct Ho as (Hlb&Hol&Hoh). destruct Hr as (Hne&Hrl&Hrh).
  destruct (decide (u = v)) as [->|Huv].
  - destruct (distinguish l h) as [r Hr']; auto; try (eapply ordt_weaken; [|eassumption]; lia).
    exists r. rewrite (evalt_br_lo v l h r (v + 1)), (evalt_br_hi v l h r (v + 1)) by (auto; lia). done.
  - destruct Hoc as [?|[Hoc|Hoc]]; [done| |].
    + destruct (IHl Hrl _ Hol Hoc) as [r Hr']. exists (upd r v false).
      rewrite <- !(evalt_upd_comm _ u v) by done.
      by rewrite !(evalt_br_lo v l h _ (v + 1)) by (auto; lia).
    + destruct (IHh Hrh _ Hoh Hoc) as [r Hr']. exists (upd r v true).
      rewrite <- !(evalt_upd_comm _ u v) by done.
      by rewrite !(evalt_br_hi v l h _ (v + 1)) by (auto; lia).
Qed.

(** a function that ignores variables below lb has a tree above lb *)
Lemma ordt_lb t lb : ordt 0 t -> redt t ->
  (forall u r b, u < lb -> evalt t (upd r u b) = evalt t r) -> ordt lb t.
Proof.
  intros Ho Hr Hind. destruct t as [b|v l h]; simpl; [done|].
  pose proof Ho as (H0&Hl&Hh). repeat split; auto.
  destruct (N.le_gt_cases lb v) as [|Hlt]; [done|].
  destruct (occurs_dep (Br v l h) v Ho Hr) as [r Hr']; [simpl; auto|].
  exfalso. apply Hr'. by rewrite !Hind.
Qed.

Lemma subt_refl t : subt t t.
Proof. destruct t; simpl; auto. Qed.
Lemma subt_ht s t : subt s t -> (ht s <= ht t)%nat.
Proof.
  induction t as [b|v l IHl h IHh]; simpl.
  - intros [->|[]]; simpl; lia.
  - intros [->|[H|H]]; simpl; [lia|apply IHl in H; lia|apply IHh in H; lia].
Qed.
Lemma subt_trans a b c : subt a b -> subt b c -> subt a c.
Proof.
  induction c as [x|v l IHl h IHh]; intros Hab; simpl.
  - intros [->|[]]. done.
  - intros [->|[H|H]]; auto.
Qed.
