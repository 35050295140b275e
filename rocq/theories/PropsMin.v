(** * PropsMin.v -- node counts are minimal (C35) *)
From Verif Require Export PropsState2.
Open Scope N_scope.

(** ** Specification: an arbitrary decision graph.  A node has a variable and two arcs, an arc
    leads to a constant or to a node. *)
Definition garc : Type := bool + N.
Notation graph := (gmap N (N * garc * garc)).

(** [gval g a x b]: following the arcs of [g] from [a] under [x] one arrives at constant [b] *)
Inductive gval (g : graph) : garc -> (N -> bool) -> bool -> Prop :=
| gval_const (b : bool) (x : N -> bool) : gval g (inl b) x b
| gval_node (k v : N) (lo hi : garc) (x : N -> bool) (b : bool) : g !! k = Some (v, lo, hi) -> gval g (if x v then hi else lo) x b -> gval g (inr k) x b.

(** variables increase along the arcs *)
Definition gordered (g : graph) : Prop :=
  forall (k v : N) (lo hi : garc), g !! k = Some (v, lo, hi) -> forall (m u : N) (l h : garc), lo = inr m \/ hi = inr m -> g !! m = Some (u, l, h) -> v < u.

(** no dangling arcs *)
Definition gdef (g : graph) (a : garc) : Prop := match a with inl _ => True | inr k => is_Some (g !! k) end.
Definition gclosed (g : graph) : Prop := forall (k v : N) (lo hi : garc), g !! k = Some (v, lo, hi) -> gdef g lo /\ gdef g hi.

(** ** Proof *)
Inductive grepr (g : graph) : garc -> bdd -> Prop :=
| grepr_const b : grepr g (inl b) (Leaf b)
| grepr_node (k v : N) (lo hi : garc) tl th : g !! k = Some (v, lo, hi) -> grepr g lo tl -> grepr g hi th -> grepr g (inr k) (Br v tl th).

Lemma grepr_fun g a t t' : grepr g a t -> grepr g a t' -> t = t'.
Proof.
  intros H; revert t'; induction H as [b|k v lo hi tl th Hk _ IHl _ IHh]; intros t' H'; inversion H'; simplify_eq; [done|].
  f_equal; auto.
Qed.
Lemma grepr_val g a t x : grepr g a t -> gval g a x (evalt t x).
Proof.
  induction 1 as [b|k v lo hi tl th Hk _ IHl _ IHh]; [constructor|]. econstructor; [done|]. simpl. by destruct (x v).
Qed.
Lemma gval_fun g a x b b' : gval g a x b -> gval g a x b' -> b = b'.
Proof. intros H; revert b'; induction H; intros b' H'; inversion H'; simplify_eq; auto. Qed.

Definition gbound (g : graph) : N := map_fold (fun _ (e : N * garc * garc) m => N.max m (e.1.1 + 1)) 0 g.
Lemma gbound_spec g k v lo hi : g !! k = Some (v, lo, hi) -> v < gbound g.
Proof.
  unfold gbound. revert k v lo hi. apply (map_fold_ind (fun m (g : graph) => forall (k v : N) (lo hi : garc), g !! k = Some (v, lo, hi) -> v < m)).
  - intros k v lo hi Hk. by rewrite lookup_empty in Hk.
  - intros i e m r Hi IH k v lo hi Hk. destruct (decide (i = k)) as [->|Hne].
    + rewrite lookup_insert in Hk. injection Hk as ->. simpl. lia.
    + rewrite lookup_insert_ne in Hk by done. specialize (IH _ _ _ _ Hk). lia.
Qed.
Definition gtop (g : graph) (a : garc) (lb : N) : Prop :=
  match a with inl _ => True | inr k => forall (v : N) (lo hi : garc), g !! k = Some (v, lo, hi) -> lb <= v end.
Lemma gunfold g : gordered g -> gclosed g -> forall n a lb, N.to_nat (gbound g - lb) = n -> gtop g a lb -> gdef g a ->
  exists t, grepr g a t /\ ordt lb t.
Proof.
  intros Ho Hcl n. induction (lt_wf n) as [n _ IH]. intros a lb Hn Htop Hdef. destruct a as [b|k].
  - exists (Leaf b). split; [constructor|done].
  - destruct Hdef as [[[v lo] hi] Hk].
    pose proof (Htop v lo hi Hk) as Hlb. pose proof (gbound_spec _ _ _ _ _ Hk) as Hv. destruct (Hcl _ _ _ _ Hk) as [Hdl Hdh].
    assert (Hc : forall c, (c = lo \/ c = hi) -> gtop g c (v + 1)).
    { intros [cb|m] Hc; simpl; [done|]. intros u l h Hm. specialize (Ho _ _ _ _ Hk m u l h).
      assert (v < u); [|lia]. apply Ho; [|done]. destruct Hc as [<-|<-]; auto. }
    destruct (IH (N.to_nat (gbound g - (v + 1))) ltac:(lia) lo (v + 1) eq_refl) as (tl&Htl&Hol); auto.
    destruct (IH (N.to_nat (gbound g - (v + 1))) ltac:(lia) hi (v + 1) eq_refl) as (th&Hth&Hoh); auto.
    exists (Br v tl th). split; [by econstructor|]. done.
Qed.

(** subfunctions of a reduced ordered tree occur in every ordered tree for the same function *)
Lemma subfunctions T : forall lb t, ordt lb T -> ordt 0 t -> redt t -> (forall r, evalt t r = evalt T r) ->
  forall s, subt s t -> exists s', subt s' T /\ forall r, evalt s r = evalt s' r.
Proof.
  induction T as [b|v L IHL H IHH]; intros lb t HoT Hot Hrt He s Hs.
  - assert (t = Leaf b) as ->; [by apply canon|]. destruct Hs as [->|[]]. exists (Leaf b). split; [by left|done].
  - destruct HoT as (Hlb&HoL&HoH).
    assert (Hot' : ordt v t).
    { apply ordt_lb; auto. intros u r b Hu. rewrite !He. simpl. rewrite upd_other by lia.
      rewrite (evalt_upd_lt L (v + 1)) by (done || lia). by rewrite (evalt_upd_lt H (v + 1)) by (done || lia). }
    assert (Hskip : ordt (v + 1) t -> exists s', subt s' (Br v L H) /\ forall r, evalt s r = evalt s' r).
    { intros Ho1. destruct (IHL (v + 1) t HoL Hot Hrt) with (s := s) as (s'&Hs'&He'); auto.
      - intros r. rewrite <- (evalt_upd_lt t (v + 1) v r false) by (done || lia). rewrite He.
        by rewrite (evalt_br_lo v L H r (v + 1)) by (done || lia).
      - exists s'. split; [|done]. simpl. auto. }
    destruct t as [b|u l h].
    + by apply Hskip.
    + destruct (decide (u = v)) as [->|Hne].
      * destruct Hs as [->|Hs]; [exists (Br v L H); split; [by left|done]|].
        destruct Hot as (_&Hol&Hoh). destruct Hrt as (_&Hrl&Hrh).
        assert (Hl : forall r, evalt l r = evalt L r).
        { intros r. rewrite <- (evalt_br_lo v l h r (v + 1)), He by (done || lia). by rewrite (evalt_br_lo v L H r (v + 1)) by (done || lia). }
        assert (Hh : forall r, evalt h r = evalt H r).
        { intros r. rewrite <- (evalt_br_hi v l h r (v + 1)), He by (done || lia). by rewrite (evalt_br_hi v L H r (v + 1)) by (done || lia). }
        destruct Hs as [Hs|Hs].
        -- destruct (IHL (v + 1) l) with (s := s) as (s'&Hs'&He'); auto; [eapply ordt_weaken; [|eassumption]; lia|].
           exists s'. split; [|done]. simpl. auto.
        -- destruct (IHH (v + 1) h) with (s := s) as (s'&Hs'&He'); auto; [eapply ordt_weaken; [|eassumption]; lia|].
           exists s'. split; [|done]. simpl. auto.
      * apply Hskip. destruct Hot' as (?&?&?). simpl. split_and!; auto. lia.
Qed.
Lemma grepr_sub g a T s v l h : grepr g a T -> subt s T -> s = Br v l h -> exists k, is_Some (g !! k) /\ grepr g (inr k) s.
Proof.
  intros Hg Hs ->. induction Hg as [b|k u lo hi tl th Hk Hgl IHl Hgh IHh].
  - by destruct Hs as [?|[]].
  - destruct Hs as [->|[Hs|Hs]]; auto. exists k. split; [eauto|]. by econstructor.
Qed.

Section min.
Context {E : Env} (HE : env_ok E).

Lemma reach_in_sub h p q t : repr h p t -> reach_in h p q -> exists t', repr h q t' /\ subt t' t.
Proof.
  intros Hr Hq. revert t Hr. induction Hq as [p n Hs Hn|p n q Hs Hn _ IH|p n q Hs Hn _ IH]; intros t Hr.
  - exists t. split; [done|apply subt_refl].
  - destruct (repr_nonsink _ _ _ Hr Hs) as (m&tl&th&Hm&->&Hl&Hh). simplify_eq.
    destruct (IH _ Hl) as (t'&Ht'&Hsub). exists t'. split; [done|]. simpl. auto.
  - destruct (repr_nonsink _ _ _ Hr Hs) as (m&tl&th&Hm&->&Hl&Hh). simplify_eq.
    destruct (IH _ Hh) as (t'&Ht'&Hsub). exists t'. split; [done|]. simpl. auto.
Qed.
Lemma redt_sub s t : subt s t -> redt t -> redt s.
Proof. induction t as [b|v l IHl h IHh]; simpl; [by intros [->|[]]|]. intros [->|[?|?]] (?&?&?); auto. done. Qed.
Lemma ordt_sub s t : forall lb, subt s t -> ordt lb t -> ordt 0 s.
Proof.
  induction t as [b|v l IHl h IHh]; intros lb; simpl; [by intros [->|[]]|].
  intros [->|[Hs|Hs]] (?&?&?); eauto. simpl. split_and!; auto. lia.
Qed.

(** C35: no ordered decision graph for the same function has fewer nodes *)
Theorem C35_minimal md w i f n : md_ord md = true -> reach md w -> evals w i f -> ~ isconst w i ->
  step (QNrNodes i) w = WOk (OutN n) w ->
  forall (g : graph) a, gordered g -> gclosed g -> gdef g a ->
    (forall x, covers w x -> gval g a (asg x) (f x)) ->
    (forall (k v : N) (lo hi : garc), g !! k = Some (v, lo, hi) -> v < nr_variables (w_s w)) ->
    n <= N.of_nat (size g).
Proof.
  intros Ho HR Hf Hc Hn g a Hgo Hgc Hgd Hgv Hgb. pose proof (reach_inv HE _ _ HR) as HW.
  destruct (evals_hrep HE _ _ _ _ HW Hf) as (p&t&Hr&Hx). pose proof Hr as (Hp&H0&Ht).
  destruct (C16_nr_nodes HE _ _ _ _ HR Hp H0) as (l&Hl&Hnd&Hin); [done|]. rewrite Hn in Hl. injection Hl as ->.
  destruct (gunfold g Hgo Hgc _ a 0 eq_refl) as (T&HT&HoT); [destruct a; simpl; [done|intros; lia]|done|].
  assert (Hoct : forall v, occurs v T -> v < nr_variables (w_s w)).
  { clear -HT Hgb. induction HT as [b|k v lo hi tl th Hk _ IHl _ IHh]; simpl; [done|]. intros u [->|[?|?]]; eauto. }
  assert (He : forall r, evalt t r = evalt T r).
  { intros r. rewrite <- (tabx_val _ _ _ _ _ r HW Hr).
    rewrite <- (evalt_ext T (asg (tabx w r)) r).
    - rewrite <- Hx by apply tabx_covers. eapply gval_fun; [apply Hgv, tabx_covers|]. by apply grepr_val.
    - intros v Hv. unfold asg. by rewrite tabx_lookup by auto. }
  assert (Hot : ordt 0 t) by (eapply ho_ord; [apply HW|done|exact Ht]).
  assert (Hred : redt t) by (eapply repr_redt; [apply HW|exact Ht]).
  assert (Hmap : forall q, q ∈ l -> exists k s s', k ∈ dom g /\ repr (s_heap (w_s w)) q s /\ grepr g (inr k) s' /\ forall r, evalt s r = evalt s' r).
  { intros q Hq. apply Hin, subnode_reach in Hq. destruct (reach_in_sub _ _ _ _ Ht Hq) as (s&Hs&Hsub).
    destruct (reach_node _ _ _ Hq) as [Hns _]. destruct (repr_nonsink _ _ _ Hs Hns) as (m&tl&th&Hm&->&_&_).
    pose proof (redt_sub _ _ Hsub Hred) as Hrs. pose proof (ordt_sub _ _ _ Hsub Hot) as Hos.
    destruct (subfunctions T 0 t HoT Hot Hred He _ Hsub) as (s'&Hsub'&Hes).
    destruct s' as [b|v l' h'].
    { exfalso. assert (Br (n_idx m) tl th = Leaf b); [|done]. by apply canon. }
    destruct (grepr_sub _ _ _ _ _ _ _ HT Hsub' eq_refl) as (k&Hk&Hgk).
    exists k. eexists _, _. split_and!; eauto. by apply elem_of_dom. }
  assert (Hsz : exists ks : list N, length ks = length l /\ NoDup ks /\ forall k, k ∈ ks -> k ∈ dom g /\
      exists q s s', q ∈ l /\ repr (s_heap (w_s w)) q s /\ grepr g (inr k) s' /\ forall r, evalt s r = evalt s' r).
  { clear Hn Hin. induction l as [|q l IH]; [exists []; split_and!; [done|constructor|]; intros k Hk; by apply elem_of_nil in Hk|].
    apply NoDup_cons in Hnd as [Hq Hnd]. destruct IH as (ks&Hlen&Hndk&Hks); auto.
    { intros q' Hq'. apply Hmap. by right. }
    destruct (Hmap q) as (k&s&s'&Hk&Hs&Hs'&He'); [by left|]. exists (k :: ks). split_and!.
    - simpl. by rewrite Hlen.
    - apply NoDup_cons. split; [|done]. intros Hkin. destruct (Hks _ Hkin) as (_&q2&s2&s2'&Hq2&Hs2&Hs2'&He2).
      assert (s2' = s') as -> by (by eapply grepr_fun). apply Hq.
      assert (q = q2) as ->; [|done]. eapply (repr_canon _ _ _ _ _ _ _ (i_heap _ _ _ HW) Ho Hs Hs2).
      intros r. by rewrite He', He2.
    - intros k' [->|Hk']%elem_of_cons.
      + split; [done|]. exists q, s, s'. split_and!; auto. by left.
      + destruct (Hks _ Hk') as (?&q2&s2&s2'&?&?&?&?). split; [done|]. exists q2, s2, s2'. split_and!; auto. by right. }
  destruct Hsz as (ks&Hlen&Hndk&Hks). rewrite <- Hlen, <- (size_dom (D := gset N) g), <- (size_list_to_set (C := gset N) ks) by done.
  apply N2Z.inj_le. rewrite !nat_N_Z. apply Nat2Z.inj_le. apply subseteq_size. intros k Hk. apply elem_of_list_to_set in Hk. by apply Hks.
Qed.
End min.
