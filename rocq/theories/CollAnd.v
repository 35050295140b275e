(** * CollAnd.v -- bdd_collection::bdd_and: the conjunction algorithm *)
From Verif Require Export CollExp.
Open Scope N_scope.

(** ** trees *)
Fixpoint allt (t : bdd) : Prop := match t with Leaf b => b = true | Br _ l h => allt l /\ allt h end.
Definition rootge (v : N) (t : bdd) : Prop := match t with Leaf _ => True | Br w _ _ => v <= w end.
Definition rootis (v : N) (t : bdd) : Prop := match t with Leaf _ => False | Br w _ _ => w = v end.
Lemma allt_red t : redt t -> allt t -> t = Leaf true.
Proof.
  induction t as [b|v l IHl h IHh]; simpl; [by intros _ ->|]. intros (Hne&Hl&Hh) [Al Ah].
  destruct Hne. by rewrite IHl, IHh.
Qed.
Lemma allt_cof v t : allt (cof v false t) -> allt (cof v true t) -> allt t.
Proof. destruct t as [b|w l h]; simpl; [done|]. unfold cof. destruct (v =? w); done. Qed.
Lemma rootge_ordt lb v t : ordt lb t -> rootge v t -> ordt v t.
Proof. destruct t as [b|w l h]; simpl; [done|]. intros (_&?&?) ?. done. Qed.
Lemma occurs_cof v b t u : occurs u (cof v b t) -> occurs u t.
Proof. destruct t as [z|w l h]; simpl; [done|]. unfold cof. destruct (v =? w), b; simpl; auto. Qed.
Definition conjf (ts : list bdd) (r : asgn) : bool := forallb (fun t => evalt t r) ts.
Definition sumht (ts : list bdd) : nat := foldr (fun t n => (ht t + n)%nat) 0%nat ts.
Lemma conjf_cof v ts r : conjf ts r = if r v then conjf (map (cof v true) ts) r else conjf (map (cof v false) ts) r.
Proof.
  unfold conjf. induction ts as [|t ts IH]; simpl; [by destruct (r v)|]. rewrite IH, (evalt_cof v t r). by destruct (r v).
Qed.
Lemma sumht_cof_le v b ts : (sumht (map (cof v b) ts) <= sumht ts)%nat.
Proof. induction ts as [|t ts IH]; simpl; [lia|]. pose proof (ht_cof v b t). lia. Qed.
Lemma sumht_cof v b ts : Exists (rootis v) ts -> (sumht (map (cof v b) ts) < sumht ts)%nat.
Proof.
  induction 1 as [t ts Ht|t ts _ IH]; simpl.
  - pose proof (sumht_cof_le v b ts). destruct t as [|w l h]; simpl in Ht; [done|subst].
    pose proof (ht_cof_lt v b l h). lia.
  - pose proof (ht_cof v b t). lia.
Qed.

(** ** the node stack *)
Inductive srep (stk : list instr) : N -> bdd -> Prop :=
| srep_bot : srep stk 0 (Leaf false)
| srep_top : srep stk 1 (Leaf true)
| srep_node i x tl th : 2 <= i -> ix stk i = Some x -> i_lo x < i -> i_hi x < i -> i_lo x <> i_hi x -> i_idx x < cbot ->
    srep stk (i_lo x) tl -> srep stk (i_hi x) th -> srep stk i (Br (i_idx x) tl th).
Lemma srep_fun stk i t t' : srep stk i t -> srep stk i t' -> t = t'.
Proof.
  intros H; revert t'; induction H as [| |i x tl th Hi Hx Hl Hh Hne Hv _ IHl _ IHh]; intros t' H'; inversion H'; subst; try done; try lia.
  simplify_eq. f_equal; auto.
Qed.
Lemma srep_ext stk new i t : srep stk i t -> srep (stk ++ new) i t.
Proof. induction 1; econstructor; eauto. by apply lookup_app_l_Some. Qed.
Lemma srep_lt stk i t : (2 <= length stk)%nat -> srep stk i t -> i < N.of_nat (length stk).
Proof. intros Hl. destruct 1 as [| |i x tl th Hi Hx]; [lia|lia|]. apply lookup_lt_Some in Hx. lia. Qed.
Lemma srep_one stk t : srep stk 1 t -> t = Leaf true.
Proof. intros H. eapply srep_fun; [exact H|constructor]. Qed.
Lemma srep_zero stk t : srep stk 0 t -> t = Leaf false.
Proof. intros H. eapply srep_fun; [exact H|constructor]. Qed.

Record SInv (stk : list instr) (red : gmap (N * N * N) N) : Prop := {
  si_len : (2 <= length stk)%nat;
  si_0 : stk !! 0%nat = Some ci_botsink;
  si_1 : stk !! 1%nat = Some ci_topsink;
  si_node : forall i x, 2 <= i -> ix stk i = Some x -> i_lo x < i /\ i_hi x < i /\ i_lo x <> i_hi x /\ i_idx x < cbot;
  si_red : forall l h v m, red !! (l, h, v) = Some m <-> 2 <= m /\ ix stk m = Some (Instr l h v)
}.
Lemma SInv_init : SInv [ci_botsink; ci_topsink] ∅.
Proof.
  split; simpl; try done; try lia.
  - intros i x Hi Hx. apply lookup_lt_Some in Hx. simpl in Hx. lia.
  - intros l h v m. rewrite lookup_empty. split; [done|]. intros [Hm Hx]. apply lookup_lt_Some in Hx. simpl in Hx. lia.
Qed.
Lemma SInv_srep stk red i : SInv stk red -> i < N.of_nat (length stk) -> exists t, srep stk i t.
Proof.
  intros HS. remember (N.to_nat i) as n eqn:Hn. revert i Hn. induction (lt_wf n) as [n _ IH]; intros i -> Hi.
  destruct (decide (i = 0)) as [->|]; [eexists; constructor|]. destruct (decide (i = 1)) as [->|]; [eexists; constructor|].
  destruct (lookup_lt_is_Some_2 stk (N.to_nat i)) as [x Hx]; [lia|].
  destruct (si_node _ _ HS i x) as (?&?&?&?); [lia|done|].
  destruct (IH (N.to_nat (i_lo x)) ltac:(lia) (i_lo x) eq_refl) as [tl Htl]; [lia|].
  destruct (IH (N.to_nat (i_hi x)) ltac:(lia) (i_hi x) eq_refl) as [th Hth]; [lia|].
  exists (Br (i_idx x) tl th). apply srep_node; auto. lia.
Qed.

Section cand.
Context {E : Env} (c : coll).
Notation ins := (c_ins c).

(** stack index [m] is the conjunction of the operands [ts] *)
Definition isconj (stk : list instr) (m : N) (ts : list bdd) (t : bdd) : Prop :=
  srep stk m t /\ (forall r, evalt t r = conjf ts r) /\ (m = 1 -> Forall allt ts) /\
  (forall lb, Forall (ordt lb) ts -> ordt lb t) /\ (forall v, occurs v t -> Exists (occurs v) ts).
Lemma isconj_ext stk new m ts t : isconj stk m ts t -> isconj (stk ++ new) m ts t.
Proof. intros (?&?&?&?&?). split_and!; auto using srep_ext. Qed.
Definition GInv (st : cst) : Prop := forall ks m ts, st_gen st !! ks = Some m -> Forall2 (crep ins) ks ts -> exists t, isconj (st_stack st) m ts t.

Record CPost (limit : N) (ts : list bdd) (st : cst) (r : N) (st' : cst) : Prop := {
  cp_S : SInv (st_stack st') (st_red st');
  cp_G : GInv st';
  cp_new : exists new, st_stack st' = st_stack st ++ new;
  cp_t : exists t, isconj (st_stack st') r ts t;
  cp_lim : N.of_nat (length (st_stack st')) <= limit;
  cp_last : st_stack st' = st_stack st \/ r = N.of_nat (length (st_stack st')) - 1;
  cp_up : forall k, N.of_nat (length (st_stack st)) <= k < N.of_nat (length (st_stack st')) -> k <> r ->
    exists j x, k < j /\ ix (st_stack st') j = Some x /\ (i_lo x = k \/ i_hi x = k)
}.
(** the limit was hit, or the conjunction was found *)
Definition CRes (limit : N) (ts : list bdd) (st : cst) (res : R (N * cst)) : Prop :=
  exists r st', res = inr (r, st') /\ (r = size_max \/ r <> size_max /\ CPost limit ts st r st').

Lemma CPost_r limit ts st r st' : limit < 2 ^ 62 -> CPost limit ts st r st' -> r <> size_max.
Proof.
  intros Hl HP. destruct (cp_t _ _ _ _ _ HP) as (t&Hr&_). apply srep_lt in Hr; [|apply HP].
  pose proof (cp_lim _ _ _ _ _ HP). unfold size_max. lia.
Qed.

(** nothing new is needed *)
Lemma CPost_here limit ts st r t : SInv (st_stack st) (st_red st) -> GInv st -> N.of_nat (length (st_stack st)) <= limit ->
  isconj (st_stack st) r ts t -> CPost limit ts st r st.
Proof.
  intros HS HG Hl Hc. split; auto.
  - exists []. by rewrite app_nil_r.
  - by exists t.
  - intros k Hk. lia.
Qed.

Lemma and_step limit key ts v st lo st1 hi st2 : limit < 2 ^ 62 -> v < cbot ->
  Exists (rootis v) ts -> Forall (rootge v) ts -> Forall2 (crep ins) key ts ->
  CPost limit (map (cof v false) ts) st lo st1 -> CPost limit (map (cof v true) ts) st1 hi st2 ->
  CRes limit ts st (inr (meld key lo hi v limit st2)).
Proof.
  intros Hlim Hv Hex Hge Hkey Hlo Hhi.
  destruct (cp_new _ _ _ _ _ Hlo) as [new1 Hn1]. destruct (cp_new _ _ _ _ _ Hhi) as [new2 Hn2].
  destruct (cp_t _ _ _ _ _ Hlo) as (tlo&Hclo). destruct (cp_t _ _ _ _ _ Hhi) as (thi&Hchi).
  pose proof (cp_S _ _ _ _ _ Hhi) as HS2.
  assert (Hclo2 : isconj (st_stack st2) lo (map (cof v false) ts) tlo) by (rewrite Hn2; by apply isconj_ext).
  destruct Hclo2 as (Hrlo&Helo&H1lo&Holo&Hvlo). destruct Hchi as (Hrhi&Hehi&H1hi&Hohi&Hvhi).
  pose proof (srep_lt _ _ _ (si_len _ _ HS2) Hrlo) as Hltlo. pose proof (srep_lt _ _ _ (si_len _ _ HS2) Hrhi) as Hlthi.
  assert (Hlolt1 : lo < N.of_nat (length (st_stack st1))) by (eapply srep_lt; [apply Hlo|apply Hclo]).
  assert (Hcofo : forall b lb, Forall (ordt lb) ts -> Forall (ordt (v + 1)) (map (cof v b) ts)).
  { intros b lb Ho. apply Forall_fmap, Forall_forall. intros t Ht. rewrite Forall_forall in Ho, Hge. simpl. apply cof_ordt.
    eapply rootge_ordt; eauto. }
  assert (Hocc : forall b u, Exists (occurs u) (map (cof v b) ts) -> Exists (occurs u) ts).
  { intros b u. rewrite !Exists_exists. intros (t'&Ht'&Ho). apply elem_of_list_fmap in Ht' as (t&->&Ht). exists t. split; [done|by eapply occurs_cof]. }
  assert (Hoccv : Exists (occurs v) ts).
  { eapply Exists_impl; [exact Hex|]. intros [|w l h]; simpl; [done|]. auto. }
  assert (Hlbv : forall lb, Forall (ordt lb) ts -> lb <= v).
  { intros lb Ho. apply Exists_exists in Hex as (t&Ht&Hr). rewrite Forall_forall in Ho. specialize (Ho t Ht).
    destruct t; simpl in *; [done|]. lia. }
  assert (Hall : lo = 1 -> hi = 1 -> Forall allt ts).
  { intros Hl1 Hh1. specialize (H1lo Hl1). specialize (H1hi Hh1). clear -H1lo H1hi.
    induction ts as [|t ts IH]; [constructor|]. inversion H1lo; inversion H1hi; subst. constructor; [by eapply allt_cof|auto]. }
  (* new nodes of the two calls have parents *)
  assert (Hup2 : forall k, N.of_nat (length (st_stack st)) <= k < N.of_nat (length (st_stack st2)) -> k <> lo -> k <> hi ->
     exists j x, k < j /\ ix (st_stack st2) j = Some x /\ (i_lo x = k \/ i_hi x = k)).
  { intros k Hk Hkl Hkh. destruct (decide (k < N.of_nat (length (st_stack st1)))) as [Hk1|Hk1].
    - destruct (cp_up _ _ _ _ _ Hlo k) as (j&x&?&Hj&?); [lia|done|]. exists j, x. split_and!; auto.
      rewrite Hn2. by apply lookup_app_l_Some.
    - apply (cp_up _ _ _ _ _ Hhi k); [lia|done]. }
  unfold meld. destruct (N.eqb_spec lo hi) as [<-|Hne].
  { (* both branches equal *)
    pose proof (srep_fun _ _ _ _ Hrlo Hrhi) as <-.
    assert (Hst : st_stack st2 = st_stack st1).
    { destruct (cp_last _ _ _ _ _ Hhi) as [?|Hlast]; [done|]. rewrite Hn2, app_length in Hlast.
      destruct new2 as [|y new2]; [by rewrite app_nil_r in Hn2|]. simpl in Hlast. lia. }
    exists lo, st2. split; [done|right]. split; [by eapply CPost_r|]. split; try apply Hhi.
    - exists (new1 ++ new2). by rewrite Hn2, Hn1, app_assoc.
    - exists tlo. split_and!; auto.
      + intros r. rewrite (conjf_cof v). destruct (r v); auto.
      + intros lb Ho. eapply (ordt_weaken _ (v + 1)); [|eapply Holo; eauto]. specialize (Hlbv _ Ho). lia.
      + intros u Hu. by eapply Hocc, Hvlo.
    - destruct (cp_last _ _ _ _ _ Hlo) as [Hl|Hl]; [left; congruence|right; by rewrite Hst].
    - intros k Hk Hkr. by apply Hup2. }
  destruct (st_red st2 !! (lo, hi, v)) as [m|] eqn:Hm.
  { (* the node exists already *)
    apply (si_red _ _ HS2) in Hm as [Hm2 Hm]. destruct (si_node _ _ HS2 _ _ Hm2 Hm) as (Hl'&Hh'&_). simpl in Hl', Hh'.
    assert (Hmlt : m < N.of_nat (length (st_stack st2))) by (apply lookup_lt_Some in Hm; lia).
    assert (Hst2 : st_stack st2 = st_stack st1).
    { destruct (cp_last _ _ _ _ _ Hhi) as [?|Hlast]; [done|]. lia. }
    assert (Hst1 : st_stack st1 = st_stack st).
    { destruct (cp_last _ _ _ _ _ Hlo) as [?|Hlast]; [done|]. rewrite Hst2 in *. lia. }
    assert (Hc : isconj (st_stack st2) m ts (Br v tlo thi)).
    { split_and!.
      - by apply (srep_node _ m (Instr lo hi v)).
      - intros r. simpl. rewrite (conjf_cof v), Helo, Hehi. by destruct (r v).
      - intros ->. lia.
      - intros lb Ho. simpl. split_and!; [by apply Hlbv|eapply Holo; eauto|eapply Hohi; eauto].
      - intros u [->|[Hu|Hu]]; [done|by eapply Hocc, Hvlo|by eapply Hocc, Hvhi]. }
    assert (HP : CPost limit ts st m st2).
    { split; try apply Hhi.
      - exists []. rewrite app_nil_r. congruence.
      - eauto.
      - left. congruence.
      - intros k Hk. rewrite Hst2, Hst1 in Hk. lia. }
    exists m, st2. split; [done|right]. split; [by eapply CPost_r|done]. }
  (* a new node *)
  set (x := Instr lo hi v). set (stk := st_stack st2 ++ [x]).
  assert (Hlen : length stk = S (length (st_stack st2))) by (unfold stk; rewrite app_length; simpl; lia).
  destruct (N.ltb_spec limit (N.of_nat (length stk))) as [Hx|Hx].
  { eexists _, _. split; [reflexivity|by left]. }
  set (m := N.of_nat (length stk) - 1).
  assert (Hmi : N.to_nat m = length (st_stack st2)) by (unfold m; lia).
  assert (Hmx : ix stk m = Some x).
  { rewrite Hmi. unfold stk. by rewrite lookup_app_r, Nat.sub_diag by lia. }
  assert (Hm2 : 2 <= m) by (pose proof (si_len _ _ HS2); lia).
  assert (Hc : isconj stk m ts (Br v tlo thi)).
  { split_and!.
    - apply (srep_node _ m x); auto; simpl; try lia; unfold stk; by apply srep_ext.
    - intros r. simpl. rewrite (conjf_cof v), Helo, Hehi. by destruct (r v).
    - intros ->. lia.
    - intros lb Ho. simpl. split_and!; [by apply Hlbv|eapply Holo; eauto|eapply Hohi; eauto].
    - intros u [->|[Hu|Hu]]; [done|by eapply Hocc, Hvlo|by eapply Hocc, Hvhi]. }
  match goal with |- CRes _ _ _ (inr (_, ?s3)) => set (st3 := s3) end.
  assert (HP : CPost limit ts st m st3).
  { split; simpl.
    - split; simpl.
      + rewrite Hlen. lia.
      + unfold stk. apply lookup_app_l_Some, HS2.
      + unfold stk. apply lookup_app_l_Some, HS2.
      + intros i y Hi Hy. unfold stk in Hy. apply lookup_app_Some in Hy as [Hy|[Hge' Hy]].
        * by apply (si_node _ _ HS2).
        * apply list_lookup_singleton_Some in Hy as [Hi0 <-]. simpl. split_and!; try done; lia.
      + intros l h w k. destruct (decide ((l, h, w) = (lo, hi, v))) as [[= -> -> ->]|Hk].
        * rewrite lookup_insert. split.
          -- intros [= <-]. done.
          -- intros [Hk2 Hk]. unfold stk in Hk. apply lookup_app_Some in Hk as [Hk|[Hge' Hk]].
             ++ assert (st_red st2 !! (lo, hi, v) = Some k) by (by apply (si_red _ _ HS2)). congruence.
             ++ apply list_lookup_singleton_Some in Hk as [Hi0 _]. f_equal. lia.
        * rewrite lookup_insert_ne by (intros [=]; apply Hk; congruence). rewrite (si_red _ _ HS2). unfold stk. split.
          -- intros [? ?]. split; [done|]. by apply lookup_app_l_Some.
          -- intros [Hk2 Hx']. split; [done|]. apply lookup_app_Some in Hx' as [Hx'|[_ Hx']]; [done|].
             apply list_lookup_singleton_Some in Hx' as [_ [= <- <- <-]]. done.
    - assert (HG2 : forall ks m0 ts0, st_gen st2 !! ks = Some m0 -> Forall2 (crep ins) ks ts0 -> exists t, isconj stk m0 ts0 t).
      { intros ks m0 ts0 Hk Hf. destruct (cp_G _ _ _ _ _ Hhi _ _ _ Hk Hf) as [t Ht]. exists t. by apply isconj_ext. }
      intros ks m0 ts0 Hk Hf. simpl in *. destruct (st_gen st2 !! key) as [o|] eqn:Ho; [by eapply HG2|].
      apply lookup_insert_Some in Hk as [[<- <-]|[Hne' Hk]]; [|by eapply HG2].
      assert (ts0 = ts) as ->; [|eauto].
      clear -Hf Hkey. revert ts0 Hf. induction Hkey as [|k t key ts Hk _ IH]; intros ts0 Hf; inversion Hf; subst; [done|]. f_equal; eauto using crep_fun.
    - exists (new1 ++ new2 ++ [x]). unfold stk. by rewrite Hn2, Hn1, <- !app_assoc.
    - eauto.
    - done.
    - by right.
    - intros k Hk Hkm. destruct (decide (k = lo)) as [->|Hkl]; [exists m, x; split_and!; auto; lia|].
      destruct (decide (k = hi)) as [->|Hkh]; [exists m, x; split_and!; auto; lia|].
      destruct (Hup2 k) as (j&y&?&Hj&?); [lia|done|done|]. exists j, y. split_and!; auto. unfold stk. by apply lookup_app_l_Some. }
  exists m, st3. split; [done|right]. split; [by eapply CPost_r|done].
Qed.

(** next operand indices *)
Lemma crep_cof v b i x t : crep ins i t -> ix ins i = Some x -> v < cbot ->
  crep ins (if v =? i_idx x then (if b : bool then i_hi x else i_lo x) else i) (cof v b t).
Proof.
  intros Hr Hx Hv. inversion Hr as [i' y z Hy [Hy1 Hy2]|i' y tl th Hy Hne Hvy Hl Hh Hrl Hrh]; subst; simplify_eq.
  - assert (v =? i_idx x = false) as ->; [|done]. apply N.eqb_neq. rewrite Hy2. unfold cbot, ctop in *. destruct z; lia.
  - unfold cof. destruct (v =? i_idx x); [by destruct b|done].
Qed.

Lemma crep_root i t : crep ins i t -> exists x, ix ins i = Some x /\
  match t with
  | Leaf b => ci_is_term x = true /\ ci_is_top x = b /\ ci_is_bot x = negb b /\ i_idx x = (if b then ctop else cbot)
  | Br v _ _ => ci_is_term x = false /\ ci_is_top x = false /\ ci_is_bot x = false /\ i_idx x = v /\ v < cbot
  end.
Proof.
  destruct 1 as [i x b Hx Hb|i x tl th Hx Hne Hv Hl Hh Hrl Hrh]; exists x.
  - destruct (cterm_instr _ _ Hb) as (?&?&?). split_and!; auto. apply Hb.
  - destruct (cnode_instr _ Hne Hv) as (?&?&?). done.
Qed.

Lemma conj_leaf stk (SI : exists red, SInv stk red) r ts (b : bool) : r = (if b then 1 else 0) -> (forall x, conjf ts x = b) -> (b = true -> Forall allt ts) ->
  isconj stk r ts (Leaf b).
Proof.
  intros -> Hc Ha. split_and!.
  - destruct b; constructor.
  - intros x. by rewrite Hc.
  - destruct b; [auto|done].
  - done.
  - done.
Qed.

Lemma impl2_spec fuel : forall fi gi tf tg limit st, limit < 2 ^ 62 -> SInv (st_stack st) (st_red st) -> GInv st ->
  N.of_nat (length (st_stack st)) <= limit -> crep ins fi tf -> crep ins gi tg -> (ht tf + ht tg < fuel)%nat ->
  CRes limit [tf; tg] st (bdd_and_impl2 fuel c fi gi limit st).
Proof.
  induction fuel as [|fuel IH]; intros fi gi tf tg limit st Hlim HS HG Hl Hf Hg Hfu; [lia|]. cbn [bdd_and_impl2].
  destruct (st_gen st !! [fi; gi]) as [r|] eqn:Hgen.
  { destruct (HG _ _ [tf; tg] Hgen) as [t Ht]; [by repeat constructor|].
    assert (HP : CPost limit [tf; tg] st r st) by (by eapply CPost_here).
    exists r, st. split; [done|right]. split; [by eapply CPost_r|done]. }
  destruct (crep_root _ _ Hf) as (x&Hx&Hxr). destruct (crep_root _ _ Hg) as (y&Hy&Hyr).
  rewrite (vecR_eq _ _ _ Hx), (vecR_eq _ _ _ Hy). cbn [bindR].
  assert (Hleaf : forall b, (forall x, conjf [tf; tg] x = b) -> (b = true -> Forall allt [tf; tg]) ->
    CRes limit [tf; tg] st (inr ((if b : bool then 1 else 0), st))).
  { intros b H1 H2. assert (HP : CPost limit [tf; tg] st (if b : bool then 1 else 0) st).
    { eapply CPost_here; eauto. eapply conj_leaf; eauto. }
    eexists _, _. split; [reflexivity|right]. split; [by eapply CPost_r|done]. }
  assert (Hgo : forall v, v = N.min (i_idx x) (i_idx y) -> v < cbot -> rootis v tf \/ rootis v tg -> rootge v tf -> rootge v tg ->
    CRes limit [tf; tg] st (letR* (lo, st) := bdd_and_impl2 fuel c (if v =? i_idx x then i_lo x else fi) (if v =? i_idx y then i_lo y else gi) limit st in
        if lo =? size_max then inr (size_max, st) else
        letR* (hi, st) := bdd_and_impl2 fuel c (if v =? i_idx x then i_hi x else fi) (if v =? i_idx y then i_hi y else gi) limit st in
        if hi =? size_max then inr (size_max, st) else inr (meld [fi; gi] lo hi v limit st))).
  { intros v Hv Hvb Hri Hgf Hgg.
    assert (Hex : Exists (rootis v) [tf; tg]) by (destruct Hri; [by left|right; by left]).
    pose proof (crep_cof v false _ _ _ Hf Hx Hvb) as Hf0. pose proof (crep_cof v false _ _ _ Hg Hy Hvb) as Hg0.
    pose proof (crep_cof v true _ _ _ Hf Hx Hvb) as Hf1. pose proof (crep_cof v true _ _ _ Hg Hy Hvb) as Hg1.
    pose proof (sumht_cof v false _ Hex) as Ht0. pose proof (sumht_cof v true _ Hex) as Ht1. simpl in Ht0, Ht1.
    destruct (IH _ _ _ _ limit st Hlim HS HG Hl Hf0 Hg0) as (lo&st1&->&Hlo); [lia|]. cbn [bindR].
    destruct Hlo as [->|[Hne Hlo]]; [rewrite N.eqb_refl; eexists _, _; split; [reflexivity|by left]|].
    rewrite (proj2 (N.eqb_neq _ _) Hne).
    destruct (IH _ _ _ _ limit st1 Hlim (cp_S _ _ _ _ _ Hlo) (cp_G _ _ _ _ _ Hlo) (cp_lim _ _ _ _ _ Hlo) Hf1 Hg1) as (hi&st2&->&Hhi); [lia|]. cbn [bindR].
    destruct Hhi as [->|[Hne' Hhi]]; [rewrite N.eqb_refl; eexists _, _; split; [reflexivity|by left]|].
    rewrite (proj2 (N.eqb_neq _ _) Hne').
    eapply (and_step limit [fi; gi] [tf; tg] v); eauto; by repeat constructor. }
  destruct tf as [bf|vf lf hf], tg as [bg|vg lg hg]; simpl in Hxr, Hyr.
  - destruct Hxr as (->&->&Hxb&_). destruct Hyr as (->&->&Hyb&_). cbn [andb negb].
    destruct bf, bg; cbn [andb]; [apply (Hleaf true)|apply (Hleaf false)|apply (Hleaf false)|apply (Hleaf false)]; try done; by repeat constructor.
  - destruct Hxr as (->&Hxt&->&Hxi). destruct Hyr as (->&Hyt&Hyb&Hyi&Hv). cbn [andb negb].
    destruct bf; cbn [andb negb]; [|by apply (Hleaf false)].
    apply Hgo; [done| |right| |]; rewrite ?Hxi, ?Hyi; unfold ctop, cbot in *; simpl; lia.
  - destruct Hxr as (->&Hxt&Hxb&Hxi&Hv). destruct Hyr as (->&Hyt&Hyb&Hyi). cbn [andb negb].
    apply Hgo; [done| |left| |]; rewrite ?Hxi, ?Hyi; unfold ctop, cbot in *; simpl; destruct bg; lia.
  - destruct Hxr as (->&Hxt&Hxb&Hxi&Hv). destruct Hyr as (->&Hyt&Hyb&Hyi&Hv'). cbn [andb negb].
    apply Hgo; [done|lia| | |]; rewrite ?Hxi, ?Hyi; simpl; lia.
Qed.

(** ** more than two operands *)
Lemma vecsR_spec ks ts : Forall2 (crep ins) ks ts -> exists fs, vecsR ins ks = inr fs /\
  Forall2 (fun i x => ix ins i = Some x) ks fs.
Proof.
  induction 1 as [|i t ks ts Hi _ (fs&IH&Hf)]; [by exists []|]. destruct (crep_root _ _ Hi) as (x&Hx&_).
  exists (x :: fs). simpl. rewrite (vecR_eq _ _ _ Hx), IH. split; [done|by constructor].
Qed.
Lemma zip_cof v b ks ts fs : v < cbot -> Forall2 (crep ins) ks ts -> Forall2 (fun i x => ix ins i = Some x) ks fs ->
  Forall2 (crep ins) (zip_with (fun f i => if i_idx f =? v then (if b : bool then i_hi f else i_lo f) else i) fs ks) (map (cof v b) ts).
Proof.
  intros Hv Hk. revert fs. induction Hk as [|i t ks ts Hi _ IH]; intros fs Hf; inversion Hf as [|? x ? fs' Hx Hf']; subst; simpl; constructor; auto.
  rewrite N.eqb_sym. by apply crep_cof.
Qed.
Lemma minfold_le fs x : x ∈ fs -> foldr N.min size_max (map i_idx fs) <= i_idx x.
Proof. induction fs as [|y fs IH]; [by intros ?%elem_of_nil|]. simpl. intros [->|H]%elem_of_cons; [lia|]. specialize (IH H). lia. Qed.
Lemma minfold_in fs : foldr N.min size_max (map i_idx fs) < size_max -> exists x, x ∈ fs /\ i_idx x = foldr N.min size_max (map i_idx fs).
Proof.
  induction fs as [|y fs IH]; simpl; [lia|]. intros Hlt. destruct (decide (i_idx y <= foldr N.min size_max (map i_idx fs))) as [Hle|Hgt].
  - exists y. split; [by left|lia].
  - destruct IH as (x&Hx&Hxe); [lia|]. exists x. split; [by right|lia].
Qed.
Lemma Forall2_both {A B C} (P : A -> B -> Prop) (Q : A -> C -> Prop) ks ts fs : Forall2 P ks ts -> Forall2 Q ks fs ->
  Forall2 (fun t x => exists k, P k t /\ Q k x) ts fs.
Proof. intros H. revert fs. induction H; intros fs Hf; inversion Hf; subst; constructor; eauto. Qed.

(** the case distinction at the top of bdd_and_implN *)
Lemma implN_head ks ts fs : Forall2 (crep ins) ks ts -> Forall2 (fun i x => ix ins i = Some x) ks fs ->
  let v := foldr N.min size_max (map i_idx fs) in
  (forallb ci_is_top fs = true /\ Forall (fun t => t = Leaf true) ts) \/
  (forallb ci_is_top fs = false /\ existsb ci_is_bot fs = true /\ Exists (fun t => t = Leaf false) ts) \/
  (forallb ci_is_top fs = false /\ existsb ci_is_bot fs = false /\ v < cbot /\ Exists (rootis v) ts /\ Forall (rootge v) ts).
Proof.
  intros Hk Hfs v. pose proof (Forall2_both _ _ _ _ _ Hk Hfs) as Htx.
  assert (Hroot : Forall2 (fun t x => match t with
    | Leaf b => ci_is_top x = b /\ ci_is_bot x = negb b /\ i_idx x = (if b then ctop else cbot)
    | Br v _ _ => ci_is_top x = false /\ ci_is_bot x = false /\ i_idx x = v /\ v < cbot end) ts fs).
  { eapply Forall2_impl; [exact Htx|]. intros t x (k&Hr&Hx). destruct (crep_root _ _ Hr) as (x'&Hx'&Hr'). simplify_eq. destruct t; naive_solver. }
  destruct (forallb ci_is_top fs) eqn:Htop.
  { left. split; [done|]. clear -Hroot Htop. induction Hroot as [|t x ts fs Hr _ IH]; [constructor|]. simpl in Htop. apply andb_true_iff in Htop as [Hx Ht].
      constructor; [|auto]. destruct t; destruct Hr as (Hr&_); congruence. }
  right. destruct (existsb ci_is_bot fs) eqn:Hbot.
  { left. split_and!; [done|done|]. clear -Hroot Hbot. induction Hroot as [|t x ts fs Hr _ IH]; [done|]. simpl in Hbot. apply orb_true_iff in Hbot as [Hx|Ht]; [left|right; auto].
      destruct t as [[]|]; destruct Hr as (_&Hr&_); simpl in Hr; congruence. }
  assert (Hinner : exists x w l h t, x ∈ fs /\ t ∈ ts /\ t = Br w l h /\ i_idx x = w /\ w < cbot).
  { clear -Hroot Htop Hbot. induction Hroot as [|t x ts fs Hr _ IH]; [done|]. simpl in Htop, Hbot. apply orb_false_iff in Hbot as [Hb1 Hb2].
    destruct t as [b|w l h].
    - destruct Hr as (H1&H2&_). rewrite H2 in Hb1. destruct b; [|done]. rewrite H1 in Htop. simpl in Htop.
      destruct (IH Htop Hb2) as (x'&w&l&h&t&?&?&?). exists x', w, l, h, t. split_and!; try (by right); tauto.
    - exists x, w, l, h, (Br w l h). split_and!; try (by left); tauto. }
  destruct Hinner as (x0&w0&l0&h0&t0&Hx0&_&_&Hw0&Hw0b).
  assert (Hvb : v < cbot) by (pose proof (minfold_le fs x0 Hx0); unfold v; lia).
  assert (Hex : Exists (rootis v) ts).
  { destruct (minfold_in fs) as (x&Hx&Hxe); [fold v; unfold cbot, size_max in *; lia|]. fold v in Hxe.
    apply elem_of_list_lookup in Hx as [k Hx]. destruct (Forall2_lookup_r _ _ _ _ _ Hroot Hx) as (t&Ht&Hr).
    apply Exists_exists. exists t. split; [by eapply elem_of_list_lookup_2|]. destruct t as [b|w l h]; simpl.
    - destruct Hr as (_&_&Hr). rewrite Hxe in Hr. unfold ctop, cbot in *. destruct b; lia.
    - destruct Hr as (_&_&Hr&_). congruence. }
  assert (Hge : Forall (rootge v) ts).
  { apply Forall_lookup_2. intros k t Ht. destruct (Forall2_lookup_l _ _ _ _ _ Hroot Ht) as (x&Hx&Hr).
    pose proof (minfold_le fs x (elem_of_list_lookup_2 _ _ _ Hx)) as Hle. fold v in Hle. destruct t; simpl; [done|]. destruct Hr as (_&_&<-&_). done. }
  right. done.
Qed.

Lemma implN_spec fuel : forall ks ts limit st, limit < 2 ^ 62 -> SInv (st_stack st) (st_red st) -> GInv st ->
  N.of_nat (length (st_stack st)) <= limit -> Forall2 (crep ins) ks ts -> (sumht ts < fuel)%nat ->
  CRes limit ts st (bdd_and_implN fuel c ks limit st).
Proof.
  induction fuel as [|fuel IH]; intros ks ts limit st Hlim HS HG Hl Hk Hfu; [lia|]. cbn [bdd_and_implN].
  destruct (st_gen st !! ks) as [r|] eqn:Hgen.
  { destruct (HG _ _ ts Hgen) as [t Ht]; [done|].
    assert (HP : CPost limit ts st r st) by (by eapply CPost_here).
    exists r, st. split; [done|right]. split; [by eapply CPost_r|done]. }
  destruct (vecsR_spec _ _ Hk) as (fs&->&Hfs). cbn [bindR].
  assert (Hleaf : forall b, (forall x, conjf ts x = b) -> (b = true -> Forall allt ts) ->
    CRes limit ts st (inr ((if b : bool then 1 else 0), st))).
  { intros b H1 H2. assert (HP : CPost limit ts st (if b : bool then 1 else 0) st).
    { eapply CPost_here; eauto. eapply conj_leaf; eauto. }
    eexists _, _. split; [reflexivity|right]. split; [by eapply CPost_r|done]. }
  destruct (implN_head _ _ _ Hk Hfs) as [(->&Hall)|[(->&->&Hex)|(->&->&Hvb&Hex&Hge)]].
  { apply (Hleaf true).
    - intros x. unfold conjf. apply forallb_forall. intros t Ht. rewrite Forall_forall in Hall. by rewrite (Hall t) by (by apply elem_of_list_In).
    - intros _. eapply Forall_impl; [exact Hall|]. by intros ? ->. }
  { apply (Hleaf false); [|done]. intros x. unfold conjf. apply Exists_exists in Hex as (t&Ht&->).
    apply not_true_iff_false. rewrite forallb_forall. intros Hx. specialize (Hx (Leaf false) (proj1 (elem_of_list_In _ _) Ht)). done. }
  set (v := foldr N.min size_max (map i_idx fs)) in *.
  pose proof (zip_cof v false _ _ _ Hvb Hk Hfs) as Hz0. pose proof (zip_cof v true _ _ _ Hvb Hk Hfs) as Hz1. cbv iota in Hz0, Hz1.
  pose proof (sumht_cof v false _ Hex) as Ht0. pose proof (sumht_cof v true _ Hex) as Ht1.
  destruct (IH _ _ limit st Hlim HS HG Hl Hz0) as (lo&st1&->&Hlo); [lia|]. cbn [bindR].
  destruct Hlo as [->|[Hne Hlo]]; [rewrite N.eqb_refl; eexists _, _; split; [reflexivity|by left]|].
  rewrite (proj2 (N.eqb_neq _ _) Hne).
  destruct (IH _ _ limit st1 Hlim (cp_S _ _ _ _ _ Hlo) (cp_G _ _ _ _ _ Hlo) (cp_lim _ _ _ _ _ Hlo) Hz1) as (hi&st2&->&Hhi); [lia|]. cbn [bindR].
  destruct Hhi as [->|[Hne' Hhi]]; [rewrite N.eqb_refl; eexists _, _; split; [reflexivity|by left]|].
  rewrite (proj2 (N.eqb_neq _ _) Hne').
  by eapply (and_step limit ks ts v).
Qed.

(** ** the limit only decides whether the result is delivered *)
Lemma meld_grow key lo hi v limit st : (length (st_stack st) <= length (st_stack (snd (meld key lo hi v limit st))))%nat.
Proof.
  unfold meld. destruct (lo =? hi); [done|]. destruct (st_red st !! _); [done|]. destruct (limit <? _); simpl; rewrite app_length; simpl; lia.
Qed.
Lemma meld_limit key lo hi v L L' st r st' : meld key lo hi v L st = (r, st') -> r <> size_max ->
  N.of_nat (length (st_stack st')) <= L' -> meld key lo hi v L' st = (r, st').
Proof.
  unfold meld. destruct (lo =? hi); [done|]. destruct (st_red st !! _); [done|]. destruct (L <? _); [by intros [= <- <-]|].
  intros [= <- <-] _ Hl. simpl in Hl. by rewrite (proj2 (N.ltb_ge _ _)).
Qed.
Lemma impl2_grow fuel : forall fi gi L st r st', bdd_and_impl2 fuel c fi gi L st = inr (r, st') ->
  (length (st_stack st) <= length (st_stack st'))%nat.
Proof.
  induction fuel as [|fuel IH]; intros fi gi L st r st'; cbn [bdd_and_impl2]; [done|].
  destruct (st_gen st !! _); [by intros [= <- <-]|]. destruct (vecR ins fi) as [|f]; [done|]. destruct (vecR ins gi) as [|g]; [done|]. cbn [bindR].
  destruct (_ && _); [by intros [= <- <-]|]. destruct (_ && _); [by intros [= <- <-]|].
  destruct (bdd_and_impl2 fuel c _ _ L st) as [|[lo st1]] eqn:H1; [done|]. cbn [bindR]. apply IH in H1.
  destruct (lo =? size_max); [by intros [= <- <-]|].
  destruct (bdd_and_impl2 fuel c _ _ L st1) as [|[hi st2]] eqn:H2; [done|]. cbn [bindR]. apply IH in H2.
  destruct (hi =? size_max); [intros [= <- <-]; lia|]. intros [= Hm].
  pose proof (meld_grow [fi; gi] lo hi (N.min (i_idx f) (i_idx g)) L st2) as Hg. rewrite Hm in Hg. simpl in Hg. lia.
Qed.
Lemma impl2_limit fuel L L' : forall fi gi st r st', bdd_and_impl2 fuel c fi gi L st = inr (r, st') -> r <> size_max ->
  N.of_nat (length (st_stack st')) <= L' -> bdd_and_impl2 fuel c fi gi L' st = inr (r, st').
Proof.
  induction fuel as [|fuel IH]; intros fi gi st r st'; cbn [bdd_and_impl2]; [done|].
  destruct (st_gen st !! _); [done|]. destruct (vecR ins fi) as [|f]; [done|]. destruct (vecR ins gi) as [|g]; [done|]. cbn [bindR].
  destruct (_ && _); [done|]. destruct (_ && _); [done|].
  destruct (bdd_and_impl2 fuel c _ _ L st) as [|[lo st1]] eqn:H1; [done|]. cbn [bindR].
  destruct (N.eqb_spec lo size_max) as [->|Hlo]; [by intros [= <- <-]|].
  destruct (bdd_and_impl2 fuel c _ _ L st1) as [|[hi st2]] eqn:H2; [done|]. cbn [bindR].
  destruct (N.eqb_spec hi size_max) as [->|Hhi]; [by intros [= <- <-]|]. intros [= Hm] Hr Hl.
  pose proof (meld_grow [fi; gi] lo hi (N.min (i_idx f) (i_idx g)) L st2) as Hg. rewrite Hm in Hg. simpl in Hg.
  pose proof (impl2_grow _ _ _ _ _ _ _ H2). apply (IH _ _ _ _ _) in H1; [|done|lia]. apply (IH _ _ _ _ _) in H2; [|done|lia].
  rewrite H1. cbn [bindR]. rewrite (proj2 (N.eqb_neq _ _) Hlo), H2. cbn [bindR]. rewrite (proj2 (N.eqb_neq _ _) Hhi).
  f_equal. by eapply meld_limit.
Qed.
Lemma implN_grow fuel : forall ks L st r st', bdd_and_implN fuel c ks L st = inr (r, st') ->
  (length (st_stack st) <= length (st_stack st'))%nat.
Proof.
  induction fuel as [|fuel IH]; intros ks L st r st'; cbn [bdd_and_implN]; [done|].
  destruct (st_gen st !! _); [by intros [= <- <-]|]. destruct (vecsR ins ks) as [|fs]; [done|]. cbn [bindR].
  destruct (forallb _ _); [by intros [= <- <-]|]. destruct (existsb _ _); [by intros [= <- <-]|].
  set (v := foldr N.min size_max (map i_idx fs)).
  destruct (bdd_and_implN fuel c _ L st) as [|[lo st1]] eqn:H1; [done|]. cbn [bindR]. apply IH in H1.
  destruct (lo =? size_max); [by intros [= <- <-]|].
  destruct (bdd_and_implN fuel c _ L st1) as [|[hi st2]] eqn:H2; [done|]. cbn [bindR]. apply IH in H2.
  destruct (hi =? size_max); [intros [= <- <-]; lia|]. intros [= Hm].
  pose proof (meld_grow ks lo hi v L st2) as Hg. rewrite Hm in Hg. simpl in Hg. lia.
Qed.
Lemma implN_limit fuel L L' : forall ks st r st', bdd_and_implN fuel c ks L st = inr (r, st') -> r <> size_max ->
  N.of_nat (length (st_stack st')) <= L' -> bdd_and_implN fuel c ks L' st = inr (r, st').
Proof.
  induction fuel as [|fuel IH]; intros ks st r st'; cbn [bdd_and_implN]; [done|].
  destruct (st_gen st !! _); [done|]. destruct (vecsR ins ks) as [|fs]; [done|]. cbn [bindR].
  destruct (forallb _ _); [done|]. destruct (existsb _ _); [done|].
  set (v := foldr N.min size_max (map i_idx fs)).
  destruct (bdd_and_implN fuel c _ L st) as [|[lo st1]] eqn:H1; [done|]. cbn [bindR].
  destruct (N.eqb_spec lo size_max) as [->|Hlo]; [by intros [= <- <-]|].
  destruct (bdd_and_implN fuel c _ L st1) as [|[hi st2]] eqn:H2; [done|]. cbn [bindR].
  destruct (N.eqb_spec hi size_max) as [->|Hhi]; [by intros [= <- <-]|]. intros [= Hm] Hr Hl.
  pose proof (meld_grow ks lo hi v L st2) as Hg. rewrite Hm in Hg. simpl in Hg.
  pose proof (implN_grow _ _ _ _ _ _ H2). apply (IH _ _ _ _) in H1; [|done|lia]. apply (IH _ _ _ _) in H2; [|done|lia].
  rewrite H1. cbn [bindR]. rewrite (proj2 (N.eqb_neq _ _) Hlo), H2. cbn [bindR]. rewrite (proj2 (N.eqb_neq _ _) Hhi).
  f_equal. by eapply meld_limit.
Qed.
End cand.
