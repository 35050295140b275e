(** * PropsSize.v -- sizes of results (C63, C64) *)
From Verif Require Export PropsEnv PropsOps.
Open Scope N_scope.

(** ** Specification *)
(** handle [i] has [n] inner nodes (what nr_nodes() returns for a non-constant handle, C16) *)
Definition nnodes {E : Env} (w : world) (i : nat) (n : nat) : Prop :=
  exists p l, hnd w i = Some p /\ p <> 0 /\ NoDup l /\ (forall q, q ∈ l <-> subnode (w_s w) p q) /\ length l = n.
(** the function "variable [v]" *)
Definition var_fn (v : N) (x : list bool) : bool := default false (x !! N.to_nat v).

(** ** Cofactors of ordered trees *)
(** the part of [t] that is left when the variables below [v] have the values [r0] *)
Fixpoint walk (r0 : asgn) (v : N) (t : bdd) : bdd :=
  match t with
  | Leaf b => Leaf b
  | Br u l h => if u <? v then (if r0 u then walk r0 v h else walk r0 v l) else Br u l h
  end.
Definition mix (v : N) (r0 r : asgn) : asgn := fun u => if u <? v then r0 u else r u.
Lemma walk_eval r0 v t : forall lb r, ordt lb t -> evalt (walk r0 v t) r = evalt t (mix v r0 r).
Proof.
  induction t as [b|u l IHl h IHh]; intros lb r Ho; [done|]. cbn [walk]. destruct (N.ltb_spec u v) as [Hu|Hu].
  - simpl. unfold mix at 1. destruct (N.ltb_spec u v); [|lia]. destruct Ho as (_&Hl&Hh). destruct (r0 u); eauto.
  - apply evalt_ext. intros x Hx. unfold mix. destruct (N.ltb_spec x v); [|done].
    assert (Hou : ordt u (Br u l h)) by (destruct Ho as (?&?&?); simpl; split_and!; auto; lia).
    pose proof (ordt_occurs _ _ _ Hou Hx). lia.
Qed.
Lemma walk_sub r0 v t : subt (walk r0 v t) t.
Proof.
  induction t as [b|u l IHl h IHh]; [by left|]. cbn [walk]. destruct (u <? v); [|apply subt_refl]. simpl. right. destruct (r0 u); auto.
Qed.
Lemma walk_ext r0 r1 v t : (forall u, occurs u t -> r0 u = r1 u) -> walk r0 v t = walk r1 v t.
Proof.
  induction t as [b|u l IHl h IHh]; intros H; [done|]. simpl. simpl in H. rewrite (H u) by auto. rewrite IHl, IHh by auto. done.
Qed.
Lemma sub_walk v l h t : forall lb, ordt lb t -> subt (Br v l h) t -> lb <= v /\ exists r0, walk r0 v t = Br v l h.
Proof.
  induction t as [b|u tl IHl th IHh]; intros lb Ho Hs; [by destruct Hs as [?|[]]|].
  destruct Ho as (Hlb&Hl&Hh). destruct Hs as [Heq|[Hs|Hs]].
  - injection Heq as <- <- <-. split; [done|]. exists (fun _ => false). cbn [walk]. by rewrite N.ltb_irrefl.
  - destruct (IHl _ Hl Hs) as (Hv&r0&Hw). split; [lia|]. exists (upd r0 u false). cbn [walk].
    destruct (N.ltb_spec u v); [|lia]. rewrite upd_same. rewrite <- Hw. apply walk_ext. intros x Hx.
    apply upd_other. pose proof (ordt_occurs _ _ _ Hl Hx). lia.
  - destruct (IHh _ Hh Hs) as (Hv&r0&Hw). split; [lia|]. exists (upd r0 u true). cbn [walk].
    destruct (N.ltb_spec u v); [|lia]. rewrite upd_same. rewrite <- Hw. apply walk_ext. intros x Hx.
    apply upd_other. pose proof (ordt_occurs _ _ _ Hh Hx). lia.
Qed.
Lemma sub_cofactor v l h t : ordt 0 t -> subt (Br v l h) t -> exists r0, forall r, evalt (Br v l h) r = evalt t (mix v r0 r).
Proof.
  intros Ho Hs. destruct (sub_walk _ _ _ _ _ Ho Hs) as (_&r0&Hw). exists r0. intros r. rewrite <- Hw. by eapply walk_eval.
Qed.

(** ** Counting *)
Lemma count_inj {A B} (L : list A) (C : list B) (R : A -> B -> Prop) : NoDup L ->
  (forall u, u ∈ L -> exists c, c ∈ C /\ R u c) -> (forall u u' c, u ∈ L -> u' ∈ L -> R u c -> R u' c -> u = u') -> (length L <= length C)%nat.
Proof.
  intros Hnd Hex Hinj.
  assert (exists cs, Forall2 (fun u c => c ∈ C /\ R u c) L cs) as [cs Hcs].
  { clear Hnd Hinj. induction L as [|u L IH]; [exists []; constructor|].
    destruct (Hex u) as [c Hc]; [by left|]. destruct IH as [cs Hcs]; [intros; apply Hex; by right|]. exists (c :: cs). by constructor. }
  assert (NoDup cs).
  { apply NoDup_alt. intros a b c Ha Hb. destruct (Forall2_lookup_r _ _ _ _ _ Hcs Ha) as (u&Hu&_&Hru).
    destruct (Forall2_lookup_r _ _ _ _ _ Hcs Hb) as (u'&Hu'&_&Hru').
    assert (u = u') as -> by (eapply Hinj; eauto using elem_of_list_lookup_2). by eapply NoDup_lookup. }
  rewrite (Forall2_length _ _ _ Hcs). apply submseteq_length, NoDup_submseteq; [done|]. intros c Hc.
  apply elem_of_list_lookup in Hc as [a Ha]. destruct (Forall2_lookup_r _ _ _ _ _ Hcs Ha) as (u&_&Hc&_). done.
Qed.
Definition inn (ts : list bdd) (t : bdd) : Prop := NoDup ts /\ forall s, s ∈ ts <-> subt s t /\ exists v l h, s = Br v l h.
Lemma inn_canon ts t u u' : inn ts t -> ordt 0 t -> redt t -> u ∈ ts -> u' ∈ ts -> (forall r, evalt u r = evalt u' r) -> u = u'.
Proof.
  intros [_ Hin] Ho Hr Hu Hu' He. apply Hin in Hu as [Hu _]. apply Hin in Hu' as [Hu' _].
  apply canon; [by eapply ordt_sub|by eapply ordt_sub|by eapply redt_sub|by eapply redt_sub|done].
Qed.
(** an inner subtree is not constant *)
Lemma inn_nonconst ts t u b : inn ts t -> ordt 0 t -> redt t -> u ∈ ts -> ~ (forall r, evalt u r = b).
Proof.
  intros [_ Hin] Ho Hr Hu He. apply Hin in Hu as [Hu (v&l&h&->)].
  assert (Br v l h = Leaf b); [|done]. apply canon; [by eapply ordt_sub|done|by eapply redt_sub|done|done].
Qed.
Lemma inn_walk ts t r0 v : inn ts t -> walk r0 v t ∈ ts \/ exists b, walk r0 v t = Leaf b.
Proof.
  intros [_ Hin]. pose proof (walk_sub r0 v t) as Hs. destruct (walk r0 v t) as [b|u l h]; [by right; eauto|].
  left. apply Hin. eauto.
Qed.
(** results of a binary operation [op] with neutral element [e] and absorbing element [negb e] *)
Lemma bin_bound (op : bool -> bool -> bool) (e : bool) t1 t2 t ts1 ts2 ts :
  (forall b, op e b = b) -> (forall b, op b e = b) -> (forall b, op (negb e) b = negb e) -> (forall b, op b (negb e) = negb e) ->
  ordt 0 t1 -> ordt 0 t2 -> ordt 0 t -> redt t -> inn ts1 t1 -> inn ts2 t2 -> inn ts t ->
  (forall r, evalt t r = op (evalt t1 r) (evalt t2 r)) ->
  (length ts + 1 <= (length ts1 + 1) * (length ts2 + 1))%nat.
Proof.
  intros He1 He2 Ha1 Ha2 Ho1 Ho2 Ho Hr H1 H2 Hi Hop.
  set (C := (Leaf e, Leaf e) :: (list_prod [Leaf e] ts2 ++ list_prod ts1 (Leaf e :: ts2))).
  assert (HC : length C = ((length ts1 + 1) * (length ts2 + 1))%nat).
  { unfold C. cbn [length]. rewrite app_length, !prod_length. simpl. lia. }
  rewrite <- HC. unfold C. cbn [length]. rewrite Nat.add_1_r. apply le_n_S.
  set (R := fun (u : bdd) (c : bdd * bdd) => forall r, evalt u r = op (evalt c.1 r) (evalt c.2 r)).
  apply (count_inj ts _ R).
  - apply Hi.
  - intros u Hu. pose proof Hu as Hu'. apply Hi in Hu as [Hs (v&l&h&->)]. destruct (sub_cofactor _ _ _ _ Ho Hs) as [r0 Hc].
    assert (HR : R (Br v l h) (walk r0 v t1, walk r0 v t2)).
    { intros r. cbn [fst snd]. rewrite Hc, Hop. by rewrite (walk_eval _ _ t1 0), (walk_eval _ _ t2 0). }
    exists (walk r0 v t1, walk r0 v t2). split; [|done].
    assert (Hb1 : forall b, walk r0 v t1 = Leaf b -> b = e).
    { intros b Hb. destruct (decide (b = e)) as [|Hne]; [done|]. exfalso. assert (b = negb e) as -> by (by destruct b, e).
      apply (inn_nonconst _ _ _ (negb e) Hi Ho Hr Hu'). intros r. rewrite (HR r). cbn [fst snd]. rewrite Hb. apply Ha1. }
    assert (Hb2 : forall b, walk r0 v t2 = Leaf b -> b = e).
    { intros b Hb. destruct (decide (b = e)) as [|Hne]; [done|]. exfalso. assert (b = negb e) as -> by (by destruct b, e).
      apply (inn_nonconst _ _ _ (negb e) Hi Ho Hr Hu'). intros r. rewrite (HR r). cbn [fst snd]. rewrite Hb. apply Ha2. }
    apply elem_of_app. rewrite !elem_of_list_In, !in_prod_iff, <- !elem_of_list_In, elem_of_list_singleton, elem_of_cons.
    destruct (inn_walk ts1 t1 r0 v H1) as [Hw1|[b1 Hw1]], (inn_walk ts2 t2 r0 v H2) as [Hw2|[b2 Hw2]].
    + auto.
    + right. rewrite Hw2, (Hb2 _ Hw2). auto.
    + left. rewrite Hw1, (Hb1 _ Hw1). auto.
    + exfalso. apply (inn_nonconst _ _ _ e Hi Ho Hr Hu'). intros r. rewrite (HR r). cbn [fst snd].
      rewrite Hw1, Hw2, (Hb1 _ Hw1), (Hb2 _ Hw2). simpl. apply He1.
  - intros u u' c Hu Hu' HR1 HR2. apply (inn_canon ts t); [done..|]. intros r. by rewrite (HR1 r), (HR2 r).
Qed.
(** results of a ternary operation *)
Lemma ter_bound (op : bool -> bool -> bool -> bool) t1 t2 t3 t ts1 ts2 ts3 ts :
  ordt 0 t1 -> ordt 0 t2 -> ordt 0 t3 -> ordt 0 t -> redt t -> inn ts1 t1 -> inn ts2 t2 -> inn ts3 t3 -> inn ts t ->
  (forall r, evalt t r = op (evalt t1 r) (evalt t2 r) (evalt t3 r)) ->
  (length ts <= (length ts1 + 2) * (length ts2 + 2) * (length ts3 + 2))%nat.
Proof.
  intros Ho1 Ho2 Ho3 Ho Hr H1 H2 H3 Hi Hop.
  set (lv := [Leaf false; Leaf true]).
  set (C := list_prod (list_prod (lv ++ ts1) (lv ++ ts2)) (lv ++ ts3)).
  assert (HC : length C = ((length ts1 + 2) * (length ts2 + 2) * (length ts3 + 2))%nat).
  { unfold C. rewrite !prod_length, !app_length. simpl. lia. }
  rewrite <- HC. set (R := fun (u : bdd) (c : bdd * bdd * bdd) => forall r, evalt u r = op (evalt c.1.1 r) (evalt c.1.2 r) (evalt c.2 r)).
  apply (count_inj ts _ R).
  - apply Hi.
  - intros u Hu. pose proof Hu as Hu'. apply Hi in Hu as [Hs (v&l&h&->)]. destruct (sub_cofactor _ _ _ _ Ho Hs) as [r0 Hc].
    exists (walk r0 v t1, walk r0 v t2, walk r0 v t3). split.
    + assert (Hall : forall ts' t', inn ts' t' -> walk r0 v t' ∈ lv ++ ts').
      { intros ts' t' Hi'. apply elem_of_app. destruct (inn_walk ts' t' r0 v Hi') as [?|[[] ->]]; auto; left; unfold lv; rewrite !elem_of_cons; auto. }
      unfold C. rewrite elem_of_list_In, !in_prod_iff, <- !elem_of_list_In. auto.
    + intros r. cbn [fst snd]. rewrite Hc, Hop. by rewrite (walk_eval _ _ t1 0), (walk_eval _ _ t2 0), (walk_eval _ _ t3 0).
  - intros u u' c Hu Hu' HR1 HR2. apply (inn_canon ts t); [done..|]. intros r. by rewrite (HR1 r), (HR2 r).
Qed.

(** ** Symmetric functions of variables *)
Definition pcnt (p : N -> bool) (vs : list N) : nat := length (filter (fun v => p v = true) vs).
Lemma pcnt_cons p v vs : pcnt p (v :: vs) = ((if p v then 1 else 0) + pcnt p vs)%nat.
Proof. unfold pcnt. rewrite filter_cons. destruct (p v); simpl; [by destruct (decide (true = true))|by destruct (decide (false = true))]. Qed.
Lemma pcnt_split (p q1 q2 : N -> bool) vs : (forall v : N, ((if p v then 1 else 0) = (if q1 v then 1 else 0) + (if q2 v then 1 else 0))%nat) -> pcnt p vs = (pcnt q1 vs + pcnt q2 vs)%nat.
Proof. intros H. induction vs as [|v vs IH]; [done|]. rewrite !pcnt_cons, IH, H. lia. Qed.
Lemma pcnt_ext p q vs : (forall v, v ∈ vs -> p v = q v) -> pcnt p vs = pcnt q vs.
Proof.
  induction vs as [|v vs IH]; intros H; [done|]. rewrite !pcnt_cons, IH, (H v); [done|by left|]. intros u Hu. apply H. by right.
Qed.
Lemma sym_bound vs nv (P : nat -> bool) B t ts : ordt 0 t -> redt t -> inn ts t -> (forall m, (B <= m)%nat -> P m = P B) ->
  (forall r, evalt t r = P (pcnt (fun v => (v <? nv) && r v) vs)) -> (length ts <= length vs * B)%nat.
Proof.
  intros Ho Hr Hi HB Ht.
  replace (length vs * B)%nat with (length (list_prod vs (seq 0 B))) by (by rewrite prod_length, seq_length).
  set (ge := fun (v : N) (r : asgn) => pcnt (fun u => negb (u <? v) && ((u <? nv) && r u)) vs).
  set (R := fun (u : bdd) (c : N * nat) => forall r, evalt u r = P (c.2 + ge c.1 r)%nat).
  apply (count_inj ts _ R); [apply Hi| |].
  - intros u Hu. pose proof Hu as Hu'. apply Hi in Hu as [Hs (v&l&h&->)]. destruct (sub_cofactor _ _ _ _ Ho Hs) as [r0 Hc].
    set (c := pcnt (fun u => (u <? v) && ((u <? nv) && r0 u)) vs).
    assert (HR : forall r, evalt (Br v l h) r = P (c + ge v r)%nat).
    { intros r. rewrite Hc, Ht. f_equal. unfold c, ge. apply pcnt_split. intros x. unfold mix.
      destruct (x <? v), (x <? nv), (r0 x), (r x); done. }
    exists (v, c). split; [|exact HR]. rewrite elem_of_list_In, in_prod_iff, <- !elem_of_list_In. split.
    + destruct (decide (v ∈ vs)) as [|Hv]; [done|]. exfalso.
      destruct (occurs_dep (Br v l h) v) as [r Hd]; [by eapply ordt_sub|by eapply redt_sub|by left|].
      apply Hd. rewrite !HR. do 2 f_equal. unfold ge. apply pcnt_ext. intros x Hx. rewrite !upd_other by congruence. done.
    + apply elem_of_seq. split; [lia|]. destruct (decide (c < B)%nat) as [|Hge]; [lia|]. exfalso.
      apply (inn_nonconst _ _ _ (P B) Hi Ho Hr Hu'). intros r. rewrite HR. apply HB. lia.
  - intros u u' c Hu Hu' HR1 HR2. apply (inn_canon ts t); [done..|]. intros r. by rewrite (HR1 r), (HR2 r).
Qed.

(** ** Theorems about handles *)
Section size.
Context {E : Env} (HE : env_ok E).

Lemma nnodes_inn md w i p t n : WInv md w -> hrep w i p t -> nnodes w i n -> exists ts, length ts = n /\ inn ts t.
Proof.
  intros HW (Hi&H0&Hr) (q&l&Hq&_&Hnd&Hin&<-). rewrite Hi in Hq. injection Hq as <-.
  destruct (count_trees md w p t l HW Hr Hnd Hin) as (ts&Hl&Hn&Hs). exists ts. split; [done|]. by split.
Qed.
(** evaluate on tabulated assignments *)
Lemma evals_tree md w i f : md_ord md = true -> WInv md w -> evals w i f ->
  exists p t, hrep w i p t /\ ordt 0 t /\ redt t /\ forall r, evalt t r = f (tabx w r).
Proof.
  intros Ho HW Hf. destruct (evals_hrep HE _ _ _ _ HW Hf) as (p&t&Hr&Hx). exists p, t.
  destruct (hrep_shape _ _ _ _ _ HW Ho Hr) as [H1 H2]. split_and!; auto. intros r. rewrite Hx by apply tabx_covers.
  by rewrite (tabx_val _ _ _ _ _ r HW Hr).
Qed.

Theorem C63_and md w i j k f g a b n : md_ord md = true -> reach md w ->
  evals w i f -> evals w j g -> evals w k (fun x => f x && g x) ->
  nnodes w i a -> nnodes w j b -> nnodes w k n -> (n + 1 <= (a + 1) * (b + 1))%nat.
Proof.
  intros Ho HR Hf Hg Hk Ha Hb Hn. pose proof (reach_inv HE _ _ HR) as HW.
  destruct (evals_tree _ _ _ _ Ho HW Hf) as (p1&t1&Hr1&Ho1&_&Hx1). destruct (evals_tree _ _ _ _ Ho HW Hg) as (p2&t2&Hr2&Ho2&_&Hx2).
  destruct (evals_tree _ _ _ _ Ho HW Hk) as (p&t&Hr&Hot&Hred&Hx).
  destruct (nnodes_inn _ _ _ _ _ _ HW Hr1 Ha) as (ts1&<-&H1). destruct (nnodes_inn _ _ _ _ _ _ HW Hr2 Hb) as (ts2&<-&H2).
  destruct (nnodes_inn _ _ _ _ _ _ HW Hr Hn) as (ts&<-&H3).
  apply (bin_bound andb true t1 t2 t); auto; try (by intros []). intros r. by rewrite Hx, Hx1, Hx2.
Qed.
Theorem C63_or md w i j k f g a b n : md_ord md = true -> reach md w ->
  evals w i f -> evals w j g -> evals w k (fun x => f x || g x) ->
  nnodes w i a -> nnodes w j b -> nnodes w k n -> (n + 1 <= (a + 1) * (b + 1))%nat.
Proof.
  intros Ho HR Hf Hg Hk Ha Hb Hn. pose proof (reach_inv HE _ _ HR) as HW.
  destruct (evals_tree _ _ _ _ Ho HW Hf) as (p1&t1&Hr1&Ho1&_&Hx1). destruct (evals_tree _ _ _ _ Ho HW Hg) as (p2&t2&Hr2&Ho2&_&Hx2).
  destruct (evals_tree _ _ _ _ Ho HW Hk) as (p&t&Hr&Hot&Hred&Hx).
  destruct (nnodes_inn _ _ _ _ _ _ HW Hr1 Ha) as (ts1&<-&H1). destruct (nnodes_inn _ _ _ _ _ _ HW Hr2 Hb) as (ts2&<-&H2).
  destruct (nnodes_inn _ _ _ _ _ _ HW Hr Hn) as (ts&<-&H3).
  apply (bin_bound orb false t1 t2 t); auto; try (by intros []). intros r. by rewrite Hx, Hx1, Hx2.
Qed.
Theorem C63_ite md w i j k m f g h a b c n : md_ord md = true -> reach md w ->
  evals w i f -> evals w j g -> evals w k h -> evals w m (fun x => if f x then g x else h x) ->
  nnodes w i a -> nnodes w j b -> nnodes w k c -> nnodes w m n -> (n <= (a + 2) * (b + 2) * (c + 2))%nat.
Proof.
  intros Ho HR Hf Hg Hh Hk Ha Hb Hc Hn. pose proof (reach_inv HE _ _ HR) as HW.
  destruct (evals_tree _ _ _ _ Ho HW Hf) as (p1&t1&Hr1&Ho1&_&Hx1). destruct (evals_tree _ _ _ _ Ho HW Hg) as (p2&t2&Hr2&Ho2&_&Hx2).
  destruct (evals_tree _ _ _ _ Ho HW Hh) as (p3&t3&Hr3&Ho3&_&Hx3). destruct (evals_tree _ _ _ _ Ho HW Hk) as (p&t&Hr&Hot&Hred&Hx).
  destruct (nnodes_inn _ _ _ _ _ _ HW Hr1 Ha) as (ts1&<-&H1). destruct (nnodes_inn _ _ _ _ _ _ HW Hr2 Hb) as (ts2&<-&H2).
  destruct (nnodes_inn _ _ _ _ _ _ HW Hr3 Hc) as (ts3&<-&H3). destruct (nnodes_inn _ _ _ _ _ _ HW Hr Hn) as (ts&<-&H4).
  apply (ter_bound (fun x y z => if x then y else z) t1 t2 t3 t); auto. intros r. by rewrite Hx, Hx1, Hx2, Hx3.
Qed.
Lemma neg_le md w i k f a n : md_ord md = true -> reach md w -> evals w i f -> evals w k (fun x => negb (f x)) ->
  nnodes w i a -> nnodes w k n -> (n <= a)%nat.
Proof.
  intros Ho HR Hf Hk Ha Hn. pose proof (reach_inv HE _ _ HR) as HW.
  destruct (evals_tree _ _ _ _ Ho HW Hf) as (p1&t1&Hr1&Ho1&_&Hx1). destruct (evals_tree _ _ _ _ Ho HW Hk) as (p&t&Hr&Hot&Hred&Hx).
  destruct (nnodes_inn _ _ _ _ _ _ HW Hr1 Ha) as (ts1&<-&H1). destruct (nnodes_inn _ _ _ _ _ _ HW Hr Hn) as (ts&<-&H4).
  apply (count_inj ts _ (fun u c => forall r, evalt u r = negb (evalt c r))); [apply H4| |].
  - intros u Hu. pose proof Hu as Hu'. apply H4 in Hu as [Hs (v&l&h&->)]. destruct (sub_cofactor _ _ _ _ Hot Hs) as [r0 Hc].
    assert (HRR : forall r, evalt (Br v l h) r = negb (evalt (walk r0 v t1) r)).
    { intros r. rewrite Hc, Hx, <- Hx1. by rewrite (walk_eval _ _ t1 0). }
    exists (walk r0 v t1). split; [|done]. destruct (inn_walk ts1 t1 r0 v H1) as [|[b Hb]]; [done|]. exfalso.
    apply (inn_nonconst _ _ _ (negb b) H4 Hot Hred Hu'). intros r. by rewrite HRR, Hb.
  - intros u u' c Hu Hu' HR1 HR2. apply (inn_canon ts t); [done..|]. intros r. by rewrite (HR1 r), (HR2 r).
Qed.
Theorem C63_negate md w i k f a n : md_ord md = true -> reach md w -> evals w i f -> evals w k (fun x => negb (f x)) ->
  nnodes w i a -> nnodes w k n -> n = a.
Proof.
  intros Ho HR Hf Hk Ha Hn. assert (n <= a)%nat by (by eapply (neg_le md w i k f)).
  assert (a <= n)%nat; [|lia]. eapply (neg_le md w k i _ _ _ Ho HR Hk); [|done|done].
  intros x Hx. rewrite (Hf x Hx). by rewrite negb_involutive.
Qed.
(** functions of the number of true variables *)
Theorem C64_symmetric md w k vs (P : nat -> bool) B n : md_ord md = true -> reach md w ->
  evals w k (fun x => P (ntrue (map var_fn vs) x)) -> (forall m, (B <= m)%nat -> P m = P B) ->
  nnodes w k n -> (n <= length vs * B)%nat.
Proof.
  intros Ho HR Hk HB Hn. pose proof (reach_inv HE _ _ HR) as HW.
  destruct (evals_tree _ _ _ _ Ho HW Hk) as (p&t&Hr&Hot&Hred&Hx). destruct (nnodes_inn _ _ _ _ _ _ HW Hr Hn) as (ts&<-&H4).
  apply (sym_bound vs (nr_variables (w_s w)) P B t); auto. intros r. rewrite Hx. f_equal.
  clear. induction vs as [|v vs IH]; [done|]. rewrite pcnt_cons, <- IH. unfold ntrue. cbn [map]. rewrite filter_cons.
  assert (Hv : var_fn v (tabx w r) = (v <? nr_variables (w_s w)) && r v).
  { unfold var_fn. destruct (N.ltb_spec v (nr_variables (w_s w))) as [Hlt|Hge].
    - by rewrite tabx_lookup.
    - rewrite lookup_ge_None_2; [done|]. unfold tabx. rewrite map_length, seq_length. unfold nr_variables in Hge. lia. }
  rewrite Hv. destruct ((v <? nr_variables (w_s w)) && r v); simpl; [by destruct (decide (true = true))|by destruct (decide (false = true))].
Qed.

(** ** The same for the calls *)
Lemma live_evals md w i : WInv md w -> live w i -> exists f, evals w i f.
Proof.
  intros HW Hi. destruct (live_hrep _ _ _ HW Hi) as (p&t&Hr). exists (fun x => evalt t (asg x)). intros x Hx. by eapply val_covers.
Qed.
Lemma nnodes_step md w o r w' i n : reach md w -> allowed md w o -> step o w = WOk r w' -> ~ touches o i -> nnodes w i n -> nnodes w' i n.
Proof.
  intros HR Ha Hs Ht (p&l&Hp&H0&Hnd&Hin&Hl). destruct (C22_persistent HE _ _ _ _ _ _ _ HR Ha Hs Hp Ht) as [Hp' _].
  exists p, l. split_and!; auto. intros q. rewrite Hin. symmetry. by eapply (C22_nodes HE).
Qed.
Lemma evals_step md w o r w' i f : reach md w -> allowed md w o -> step o w = WOk r w' -> ~ touches o i -> evals w i f -> evals w' i f.
Proof.
  intros HR Ha Hs Ht Hf x Hx. pose proof (reach_inv HE _ _ HR) as HW. destruct (evals_hrep HE _ _ _ _ HW Hf) as (p&t&(Hp&_&_)&_).
  destruct (C22_persistent HE _ _ _ _ _ _ _ HR Ha Hs Hp Ht) as [_ Hv]. rewrite Hv. apply Hf.
  pose proof (step_good HE _ _ _ HW Ha) as Hg. rewrite Hs in Hg. destruct Hg as (_&Hl&_). by eapply lext_covers.
Qed.
Lemma yields_ok w o phi r w' : yields w o phi -> step o w = WOk r w' -> evals w' (length (w_h w)) phi.
Proof. intros Hy Hs. unfold yields in Hy. rewrite Hs in Hy. by destruct Hy as (p&_&_&He). Qed.

Theorem C63_and_rec md w i j r w' a b n : md_ord md = true -> reach md w -> live w i -> live w j ->
  step (OAnd i j) w = WOk r w' -> nnodes w i a -> nnodes w j b -> nnodes w' (length (w_h w)) n -> (n + 1 <= (a + 1) * (b + 1))%nat.
Proof.
  intros Ho HR Hi Hj Hs Ha Hb Hn. pose proof (reach_inv HE _ _ HR) as HW. assert (Hal : allowed md w (OAnd i j)) by done.
  destruct (live_evals _ _ _ HW Hi) as [f Hf]. destruct (live_evals _ _ _ HW Hj) as [g Hg].
  pose proof (yields_ok _ _ _ _ _ (C01_and_rec HE _ _ _ _ _ _ HR Hf Hg) Hs) as Hk.
  assert (HR' : reach md w') by (by eapply reach_step).
  eapply (C63_and md w' i j _ f g); eauto using evals_step, nnodes_step.
Qed.
Theorem C63_or_rec md w i j r w' a b n : md_ord md = true -> reach md w -> live w i -> live w j ->
  step (OOr i j) w = WOk r w' -> nnodes w i a -> nnodes w j b -> nnodes w' (length (w_h w)) n -> (n + 1 <= (a + 1) * (b + 1))%nat.
Proof.
  intros Ho HR Hi Hj Hs Ha Hb Hn. pose proof (reach_inv HE _ _ HR) as HW.
  assert (Hal : allowed md w (OOr i j)) by (split_and!; auto; by destruct md). assert (Hx : md_xor md = false) by (by destruct md).
  destruct (live_evals _ _ _ HW Hi) as [f Hf]. destruct (live_evals _ _ _ HW Hj) as [g Hg].
  pose proof (yields_ok _ _ _ _ _ (C02_or_rec HE _ _ _ _ _ _ Hx HR Hf Hg) Hs) as Hk.
  assert (HR' : reach md w') by (by eapply reach_step).
  eapply (C63_or md w' i j _ f g); eauto using evals_step, nnodes_step.
Qed.
Theorem C63_negate_rec md w i r w' a n : md_ord md = true -> reach md w -> live w i ->
  step (ONot i) w = WOk r w' -> nnodes w i a -> nnodes w' (length (w_h w)) n -> n = a.
Proof.
  intros Ho HR Hi Hs Ha Hn. pose proof (reach_inv HE _ _ HR) as HW. assert (Hal : allowed md w (ONot i)) by done.
  destruct (live_evals _ _ _ HW Hi) as [f Hf]. pose proof (yields_ok _ _ _ _ _ (C03_negate HE _ _ _ _ HR Hf) Hs) as Hk.
  assert (HR' : reach md w') by (by eapply reach_step).
  eapply (C63_negate md w' i _ f); eauto using evals_step, nnodes_step.
Qed.
Lemma var_evals w l vs : Forall2 (fun i v => evals w i (var_fn v)) l vs -> Forall2 (evals w) l (map var_fn vs) /\ length l = length vs.
Proof. intros H. split; [|by eapply Forall2_length]. induction H; constructor; auto. Qed.
(** the counting constraints over variables (in any order, repetitions allowed) *)
Theorem C64_cardinality md w l vs b r w' n : md_ord md = true -> reach md w -> l <> [] ->
  Forall2 (fun i v => evals w i (var_fn v)) l vs -> step (OCard l b) w = WOk r w' ->
  nnodes w' (length (w_h w)) n -> (n <= length l * (b + 1))%nat.
Proof.
  intros Ho HR Hl Hv Hs Hn. destruct (var_evals _ _ _ Hv) as [Hf ->]. assert (Hx : md_xor md = false) by (by destruct md).
  pose proof (C12_cardinality HE _ _ _ _ b Hx HR Hf Hl) as Hy. pose proof (reach_inv HE _ _ HR) as HW.
  assert (Hal : allowed md w (OCard l b)).
  { split_and!; [|destruct l; [done|simpl; lia]|by destruct md]. apply Forall_forall. intros i Hi. apply elem_of_list_lookup in Hi as [k Hk].
    destruct (Forall2_lookup_l _ _ _ _ _ Hf Hk) as (f&_&Hef). destruct (evals_hrep HE _ _ _ _ HW Hef) as (p&t&Hr&_). by eapply hrep_live. }
  assert (HR' : reach md w') by (by eapply reach_step).
  apply (C64_symmetric md w' (length (w_h w)) vs (fun m => m =? b)%nat (b + 1) n Ho HR' (yields_ok _ _ _ _ _ Hy Hs)); [|done].
  intros m Hm. destruct (Nat.eqb_spec m b), (Nat.eqb_spec (b + 1) b); lia || done.
Qed.
Theorem C64_simplex md w l vs r w' n : md_ord md = true -> reach md w -> l <> [] ->
  Forall2 (fun i v => evals w i (var_fn v)) l vs -> step (OSimplex l) w = WOk r w' ->
  nnodes w' (length (w_h w)) n -> (n <= length l * 2)%nat.
Proof.
  intros Ho HR Hl Hv Hs Hn. destruct (var_evals _ _ _ Hv) as [Hf ->]. assert (Hx : md_xor md = false) by (by destruct md).
  pose proof (C09_simplex HE _ _ _ _ Hx HR Hf Hl) as Hy. pose proof (reach_inv HE _ _ HR) as HW.
  assert (Hal : allowed md w (OSimplex l)).
  { split_and!; [|destruct l; [done|simpl; lia]|by destruct md]. apply Forall_forall. intros i Hi. apply elem_of_list_lookup in Hi as [k Hk].
    destruct (Forall2_lookup_l _ _ _ _ _ Hf Hk) as (f&_&Hef). destruct (evals_hrep HE _ _ _ _ HW Hef) as (p&t&Hr&_). by eapply hrep_live. }
  assert (HR' : reach md w') by (by eapply reach_step).
  apply (C64_symmetric md w' (length (w_h w)) vs (fun m => m =? 1)%nat 2 n Ho HR' (yields_ok _ _ _ _ _ Hy Hs)); [|done].
  intros m Hm. destruct (Nat.eqb_spec m 1); lia || done.
Qed.
Theorem C64_at_most_one md w l vs r w' n : md_ord md = true -> reach md w -> l <> [] ->
  Forall2 (fun i v => evals w i (var_fn v)) l vs -> step (OAtMostOne l) w = WOk r w' ->
  nnodes w' (length (w_h w)) n -> (n <= length l * 2)%nat.
Proof.
  intros Ho HR Hl Hv Hs Hn. destruct (var_evals _ _ _ Hv) as [Hf ->]. assert (Hx : md_xor md = false) by (by destruct md).
  pose proof (C09_at_most_one HE _ _ _ _ Hx HR Hf Hl) as Hy. pose proof (reach_inv HE _ _ HR) as HW.
  assert (Hal : allowed md w (OAtMostOne l)).
  { split_and!; [|destruct l; [done|simpl; lia]|by destruct md]. apply Forall_forall. intros i Hi. apply elem_of_list_lookup in Hi as [k Hk].
    destruct (Forall2_lookup_l _ _ _ _ _ Hf Hk) as (f&_&Hef). destruct (evals_hrep HE _ _ _ _ HW Hef) as (p&t&Hr&_). by eapply hrep_live. }
  assert (HR' : reach md w') by (by eapply reach_step).
  apply (C64_symmetric md w' (length (w_h w)) vs (fun m => m <=? 1)%nat 2 n Ho HR' (yields_ok _ _ _ _ _ Hy Hs)); [|done].
  intros m Hm. destruct (Nat.leb_spec m 1); lia || done.
Qed.
Theorem C64_at_least md w l vs b r w' n : md_ord md = true -> reach md w -> l <> [] ->
  Forall2 (fun i v => evals w i (var_fn v)) l vs -> step (OAtLeast l b) w = WOk r w' ->
  nnodes w' (length (w_h w)) n -> (n <= length l * b)%nat.
Proof.
  intros Ho HR Hl Hv Hs Hn. destruct (var_evals _ _ _ Hv) as [Hf ->]. assert (Hx : md_xor md = false) by (by destruct md).
  pose proof (C10_at_least HE _ _ _ _ b Hx HR Hf Hl) as Hy. pose proof (reach_inv HE _ _ HR) as HW.
  assert (Hal : allowed md w (OAtLeast l b)).
  { split_and!; [|destruct l; [done|simpl; lia]|by destruct md]. apply Forall_forall. intros i Hi. apply elem_of_list_lookup in Hi as [k Hk].
    destruct (Forall2_lookup_l _ _ _ _ _ Hf Hk) as (f&_&Hef). destruct (evals_hrep HE _ _ _ _ HW Hef) as (p&t&Hr&_). by eapply hrep_live. }
  assert (HR' : reach md w') by (by eapply reach_step).
  apply (C64_symmetric md w' (length (w_h w)) vs (fun m => b <=? m)%nat b n Ho HR' (yields_ok _ _ _ _ _ Hy Hs)); [|done].
  intros m Hm. destruct (Nat.leb_spec b m), (Nat.leb_spec b b); lia || done.
Qed.
(** a variable has one node *)
Theorem C64_projection md w v r w' n : md_ord md = true -> reach md w -> v < topsink_index ->
  step (OProj v) w = WOk r w' -> nnodes w' (length (w_h w)) n -> n = 1%nat.
Proof.
  intros Ho HR Hv Hs Hn. pose proof (C06_projection HE _ _ _ HR Hv) as Hy. pose proof (yields_ok _ _ _ _ _ Hy Hs) as Hk.
  assert (HR' : reach md w') by (eapply (reach_step _ w (OProj v)); eauto).
  pose proof (C06_projection_vars HE _ _ _ _ _ HR Hv Hs) as Hnv.
  assert (n <= length [v] * 1)%nat.
  { eapply (C64_symmetric md w' _ [v] (fun m => negb (m =? 0)%nat) 1); [done|done| | |exact Hn].
    - intros x Hx. rewrite (Hk x Hx). f_equal. unfold ntrue. cbn [map]. rewrite filter_cons, filter_nil. unfold var_fn.
      destruct (default false (x !! N.to_nat v)); [by destruct (decide (true = true))|by destruct (decide (false = true))].
    - intros m Hm. by destruct m; [lia|]. }
  cbn [length] in H. destruct n as [|n]; [|lia]. exfalso.
  pose proof (reach_inv HE _ _ HR') as HW'. destruct (evals_tree _ _ _ _ Ho HW' Hk) as (p&t&Hr&Hot&Hred&Hx).
  destruct (nnodes_inn _ _ _ _ _ _ HW' Hr Hn) as (ts&Hts&Hi). apply nil_length_inv in Hts as ->.
  destruct t as [b|u l h].
  - assert (Hb : forall r, evalt (Leaf b) r = r v). { intros r0. rewrite Hx, tabx_lookup by lia. done. }
    pose proof (Hb (fun _ => true)) as H1. pose proof (Hb (fun _ => false)) as H2. simpl in H1, H2. congruence.
  - apply (not_elem_of_nil (Br u l h)). apply Hi. split; [apply subt_refl|eauto].
Qed.
Theorem C64_at_most md w l vs b r w' n : md_ord md = true -> reach md w -> l <> [] -> (b <= length l)%nat ->
  Forall2 (fun i v => evals w i (var_fn v)) l vs -> step (OAtMost l b) w = WOk r w' ->
  nnodes w' (length (w_h w)) n -> (n <= length l * (b + 1))%nat.
Proof.
  intros Ho HR Hl Hb Hv Hs Hn. destruct (var_evals _ _ _ Hv) as [Hf Hlen]. assert (Hx : md_xor md = false) by (by destruct md).
  pose proof (C11_at_most HE _ _ _ _ b Hx HR Hf Hl Hb) as Hy. pose proof (reach_inv HE _ _ HR) as HW.
  assert (Hal : allowed md w (OAtMost l b)).
  { split_and!; [|destruct l; [done|simpl; lia]|by destruct md]. apply Forall_forall. intros i Hi. apply elem_of_list_lookup in Hi as [k Hk].
    destruct (Forall2_lookup_l _ _ _ _ _ Hf Hk) as (f&_&Hef). destruct (evals_hrep HE _ _ _ _ HW Hef) as (p&t&Hr&_). by eapply hrep_live. }
  assert (HR' : reach md w') by (by eapply reach_step). rewrite Hlen.
  apply (C64_symmetric md w' (length (w_h w)) vs (fun m => m <=? b)%nat (b + 1) n Ho HR' (yields_ok _ _ _ _ _ Hy Hs)); [|done].
  intros m Hm. destruct (Nat.leb_spec m b), (Nat.leb_spec (b + 1) b); lia || done.
Qed.
(** a BDD has at least one node for every variable its function depends on *)
Lemma occurs_subt v t : occurs v t -> exists l h, subt (Br v l h) t.
Proof.
  induction t as [b|u l IHl h IHh]; simpl; [done|]. intros [->|[H|H]].
  - exists l, h. by left.
  - destruct (IHl H) as (a&b&Hs). exists a, b. simpl. by right; left.
  - destruct (IHh H) as (a&b&Hs). exists a, b. simpl. by right; right.
Qed.
Theorem C64_lower md w k vs n : md_ord md = true -> reach md w -> live w k -> NoDup vs -> (forall v, v ∈ vs -> dep w k v) ->
  nnodes w k n -> (length vs <= n)%nat.
Proof.
  intros Ho HR Hlv Hnd Hd Hn. pose proof (reach_inv HE _ _ HR) as HW.
  destruct (live_hrep _ _ _ HW Hlv) as (p&t&Hr). destruct (hrep_shape _ _ _ _ _ HW Ho Hr) as [H1 H2].
  destruct (nnodes_inn _ _ _ _ _ _ HW Hr Hn) as (ts&<-&Hi).
  apply (count_inj vs ts (fun v s => exists l h, s = Br v l h)); [done| |].
  - intros v Hv. apply Hd in Hv. rewrite (dep_depends _ _ _ _ _ v HW Hr), depends_occurs in Hv by done.
    destruct (occurs_subt _ _ Hv) as (a&b&Hs). exists (Br v a b). split; [|eauto]. apply Hi. split; [done|eauto].
  - intros u v s Hu Hv (a&b&->) (a'&b'&He). by injection He.
Qed.
(** a function of the number of true variables, not constant, depends on all of them *)
Lemma ntrue_pcnt vs x : ntrue (map var_fn vs) x = pcnt (fun v => var_fn v x) vs.
Proof.
  induction vs as [|v vs IH]; [done|]. rewrite pcnt_cons, <- IH. unfold ntrue. cbn [map]. rewrite filter_cons.
  destruct (var_fn v x); simpl; [by destruct (decide (true = true))|by destruct (decide (false = true))].
Qed.
Lemma pcnt_none p vs : (forall v, v ∈ vs -> p v = false) -> pcnt p vs = 0%nat.
Proof. induction vs as [|v vs IH]; intros H; [done|]. rewrite pcnt_cons, (H v) by left. apply IH. intros u Hu. apply H. by right. Qed.
Lemma pcnt_all p vs : (forall v, v ∈ vs -> p v = true) -> pcnt p vs = length vs.
Proof. induction vs as [|v vs IH]; intros H; [done|]. rewrite pcnt_cons, (H v) by left. simpl. f_equal. apply IH. intros u Hu. apply H. by right. Qed.
Lemma pcnt_app p l1 l2 : pcnt p (l1 ++ l2) = (pcnt p l1 + pcnt p l2)%nat.
Proof. induction l1 as [|v l IH]; [done|]. rewrite <- app_comm_cons, !pcnt_cons, IH. lia. Qed.
Lemma pcnt_perm p l1 l2 : l1 ≡ₚ l2 -> pcnt p l1 = pcnt p l2.
Proof. induction 1; rewrite ?pcnt_cons; lia. Qed.
Lemma sym_dep w k vs (P : nat -> bool) m v : evals w k (fun x => P (ntrue (map var_fn vs) x)) -> NoDup vs ->
  (m < length vs)%nat -> P m <> P (S m) -> v ∈ vs -> dep w k v.
Proof.
  intros Hk Hnd Hm HP Hv. apply elem_of_list_split in Hv as (l1&l2&->).
  assert (Hp : l1 ++ v :: l2 ≡ₚ v :: (l1 ++ l2)) by (by rewrite Permutation_middle).
  set (L := l1 ++ l2). assert (HLn : NoDup (v :: L)) by (unfold L; by rewrite <- Hp). apply NoDup_cons in HLn as [HvL HL].
  rewrite Hp in Hm. simpl in Hm. fold L in Hm.
  set (bound := (N.to_nat (nr_variables (w_s w)) + S (N.to_nat (N.max v (foldr N.max 0%N L))))%nat).
  set (x := map (fun i => bool_decide (N.of_nat i ∈ take m L)) (seq 0 bound)).
  assert (Hlen : length x = bound) by (unfold x; by rewrite map_length, seq_length).
  assert (Hmax : forall u, u ∈ L -> u <= foldr N.max 0 L).
  { clear. induction L as [|a L IH]; intros u Hu; [by apply elem_of_nil in Hu|]. apply elem_of_cons in Hu as [->|Hu]; cbn [foldr]; [lia|].
    specialize (IH u Hu). lia. }
  assert (Hfn : forall b u, u ∈ L -> var_fn u (<[N.to_nat v := b]> x) = bool_decide (u ∈ take m L)).
  { intros b u Hu. unfold var_fn. rewrite list_lookup_insert_ne by (intros He; apply HvL; replace v with u by lia; done).
    unfold x. rewrite list_lookup_fmap, lookup_seq_lt by (specialize (Hmax u Hu); unfold bound; lia). cbn. by rewrite N2Nat.id. }
  assert (Hfv : forall b, var_fn v (<[N.to_nat v := b]> x) = b).
  { intros b. unfold var_fn. rewrite list_lookup_insert; [done|]. rewrite Hlen. unfold bound. lia. }
  assert (Hcnt : forall b : bool, ntrue (map var_fn (l1 ++ v :: l2)) (<[N.to_nat v := b]> x) = ((if b then 1 else 0) + m)%nat).
  { intros b. rewrite ntrue_pcnt, (pcnt_perm _ _ _ Hp), pcnt_cons, Hfv. f_equal. fold L.
    rewrite <- (take_drop m L) at 1. rewrite pcnt_app, (pcnt_all _ (take m L)), (pcnt_none _ (drop m L)).
    - rewrite take_length. lia.
    - intros u Hu. rewrite Hfn by (rewrite <- (take_drop m L); apply elem_of_app; by right).
      apply bool_decide_eq_false. intros Ht. rewrite <- (take_drop m L) in HL. apply NoDup_app in HL as (_&Hd&_). by apply (Hd u).
    - intros u Hu. rewrite Hfn by (rewrite <- (take_drop m L); apply elem_of_app; by left). by apply bool_decide_eq_true. }
  assert (Hcov : forall b, covers w (<[N.to_nat v := b]> x)).
  { intros b. unfold covers. rewrite insert_length, Hlen. unfold bound. lia. }
  exists x. split; [unfold covers; rewrite Hlen; unfold bound; lia|].
  rewrite (Hk _ (Hcov false)), (Hk _ (Hcov true)), !Hcnt. cbn. congruence.
Qed.
Theorem C64_symmetric_lower md w k vs (P : nat -> bool) m n : md_ord md = true -> reach md w ->
  evals w k (fun x => P (ntrue (map var_fn vs) x)) -> NoDup vs -> (m < length vs)%nat -> P m <> P (S m) ->
  nnodes w k n -> (length vs <= n)%nat.
Proof.
  intros Ho HR Hk Hnd Hm HP Hn. apply (C64_lower md w k vs n Ho HR); [|done| |done].
  - destruct (evals_hrep HE _ _ _ _ (reach_inv HE _ _ HR) Hk) as (p&t&Hr&_). by eapply hrep_live.
  - intros v Hv. by eapply sym_dep.
Qed.
(** a clause over k different variables has k nodes *)
Theorem C64_all_false md w l vs r w' n : md_ord md = true -> reach md w -> l <> [] ->
  Forall2 (fun i v => evals w i (var_fn v)) l vs -> NoDup vs -> step (OAllFalse l) w = WOk r w' ->
  nnodes w' (length (w_h w)) n -> n = length l.
Proof.
  intros Ho HR Hl Hv Hnd Hs Hn. destruct (var_evals _ _ _ Hv) as [Hf Hlen].
  pose proof (C09_all_false HE _ _ _ _ HR Hf Hl) as Hy. pose proof (reach_inv HE _ _ HR) as HW.
  assert (Hal : allowed md w (OAllFalse l)).
  { split; [|destruct l; [done|simpl; lia]]. apply Forall_forall. intros i Hi. apply elem_of_list_lookup in Hi as [k Hk].
    destruct (Forall2_lookup_l _ _ _ _ _ Hf Hk) as (f&_&Hef). destruct (evals_hrep HE _ _ _ _ HW Hef) as (p&t&Hr&_). by eapply hrep_live. }
  assert (HR' : reach md w') by (by eapply reach_step). pose proof (yields_ok _ _ _ _ _ Hy Hs) as Hk. rewrite Hlen.
  assert (0 < length vs)%nat by (rewrite <- Hlen; destruct l; [done|simpl; lia]).
  assert (n <= length vs * 1)%nat by (eapply (C64_symmetric md w' _ vs (fun m => m =? 0)%nat 1); eauto; by intros [|m] ?; [lia|]).
  assert (length vs <= n)%nat by (by eapply (C64_symmetric_lower md w' _ vs (fun m => m =? 0)%nat 0)). lia.
Qed.
Theorem C64_at_least_one md w l vs r w' n : md_ord md = true -> reach md w -> l <> [] ->
  Forall2 (fun i v => evals w i (var_fn v)) l vs -> NoDup vs -> step (OAtLeastOne l) w = WOk r w' ->
  nnodes w' (length (w_h w)) n -> n = length l.
Proof.
  intros Ho HR Hl Hv Hnd Hs Hn. destruct (var_evals _ _ _ Hv) as [Hf Hlen].
  pose proof (C09_at_least_one HE _ _ _ _ HR Hf Hl) as Hy. pose proof (reach_inv HE _ _ HR) as HW.
  assert (Hal : allowed md w (OAtLeastOne l)).
  { split; [|destruct l; [done|simpl; lia]]. apply Forall_forall. intros i Hi. apply elem_of_list_lookup in Hi as [k Hk].
    destruct (Forall2_lookup_l _ _ _ _ _ Hf Hk) as (f&_&Hef). destruct (evals_hrep HE _ _ _ _ HW Hef) as (p&t&Hr&_). by eapply hrep_live. }
  assert (HR' : reach md w') by (by eapply reach_step). pose proof (yields_ok _ _ _ _ _ Hy Hs) as Hk. rewrite Hlen.
  assert (0 < length vs)%nat by (rewrite <- Hlen; destruct l; [done|simpl; lia]).
  assert (n <= length vs * 1)%nat by (eapply (C64_symmetric md w' _ vs (fun m => 1 <=? m)%nat 1); eauto; by intros [|m] ?; [lia|]).
  assert (length vs <= n)%nat by (by eapply (C64_symmetric_lower md w' _ vs (fun m => 1 <=? m)%nat 0)). lia.
Qed.
End size.
