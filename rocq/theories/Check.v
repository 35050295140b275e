(** * Check.v -- executable checks, used to exhibit concrete reachable worlds *)
From Verif Require Export PropsEnv TestEnv.
Open Scope N_scope.

Section check.
Context {E : Env} (HE : env_ok E).

Definition liveb (w : world) (i : nat) : bool := match hnd w i with Some p => negb (p =? 0) | None => false end.
Definition someb (w : world) (i : nat) : bool := match hnd w i with Some _ => true | None => false end.
Definition constb (w : world) (i : nat) : bool :=
  match hnd w i with Some p => (p =? botsink) || (p =? topsink) | None => false end.
Definition varsb (w : world) (i : nat) : list N :=
  match step (QVars i) w with WOk (OutL l) _ => l | _ => [] end.
Definition unmarkedb : bool := e_ndebug || (negb e_botmark && negb e_topmark).

Lemma liveb_ok w i : liveb w i = true -> live w i.
Proof. unfold liveb, live. destruct (hnd w i) as [p|]; [|done]. intros H. exists p. split; [done|]. apply negb_true_iff, N.eqb_neq in H. done. Qed.
Lemma someb_ok w i : someb w i = true -> is_Some (hnd w i).
Proof. unfold someb. destruct (hnd w i); eauto; done. Qed.
Lemma constb_ok w i : constb w i = false -> ~ isconst w i.
Proof.
  unfold constb, isconst. destruct (hnd w i) as [p|]; [|by intros _ [?|?]]. intros [H1 H2]%orb_false_iff [[= ->]|[= ->]]; rewrite N.eqb_refl in *; done.
Qed.
Lemma supp_varsb w i v : supp w i v -> v ∈ varsb w i.
Proof. intros (l&w'&Hs&Hv). unfold varsb. by rewrite Hs. Qed.
Lemma unmarkedb_ok : unmarkedb = true -> sinks_unmarked.
Proof. unfold unmarkedb, sinks_unmarked. destruct e_ndebug, e_botmark, e_topmark; simpl; auto. Qed.
Lemma forallb_alive w l : forallb (liveb w) l = true -> alive w l.
Proof. rewrite forallb_forall. intros H. apply Forall_forall. intros i Hi. apply liveb_ok, H. by apply elem_of_list_In. Qed.

(** increasing on a list of variables *)
Definition monob (f : N -> option N) (l : list N) : bool :=
  forallb (fun a => forallb (fun b => negb (a <? b) || match f a, f b with Some x, Some y => x <? y | _, _ => true end) l) l.
Lemma monob_ok f l a b a' b' : monob f l = true -> a ∈ l -> b ∈ l -> a < b -> f a = Some a' -> f b = Some b' -> a' < b'.
Proof.
  unfold monob. rewrite forallb_forall. intros H Ha Hb Hlt Hfa Hfb. apply elem_of_list_In in Ha, Hb. specialize (H a Ha).
  rewrite forallb_forall in H. specialize (H b Hb). apply orb_true_iff in H as [H|H].
  - apply negb_true_iff, N.ltb_ge in H. lia.
  - rewrite Hfa, Hfb in H. by apply N.ltb_lt.
Qed.
Definition mapb (P : N -> bool) (vm : gmap N N) : bool := forallb (fun x => P x.2) (map_to_list vm).

(** sufficient condition for [allowed] *)
Definition allowedb (md : mode) (w : world) (o : op) : bool :=
  let nv := nr_variables (w_s w) in
  let or_ok := md_or md in
  let xor_ok := md_xor md in
  match o with
  | OAddVar => nv <? topsink_index
  | OProj v => v <? topsink_index
  | ONegProj v => v <? nv
  | OTop | OBot | ONull | QNrVars | QMgrNodes => true
  | OUnique v i j => (v <? nv) && liveb w i && liveb w j && (negb (md_ord md) || forallb (fun u => v <? u) (varsb w i ++ varsb w j))
  | ONot i | OpNot i | QOne i | QVars i | QRefs i | QVar i | QIsBot i | QIsTop i | QIsTerm i
  | QFindMgr i | OBotOf i | OTopOf i => liveb w i
  | OAnd i j | OpAnd i j => liveb w i && liveb w j
  | OAndV i l => liveb w i && forallb (liveb w) l && negb (length l =? 0)%nat
  | OAndR l => forallb (liveb w) l && (2 <=? length l)%nat
  | OAndLim i j limit => liveb w i && liveb w j && unmarkedb && (limit <? size_max) && (mgr_nr_nodes (w_s w) <? size_max)
  | OOr i j | OpOr i j => liveb w i && liveb w j && or_ok
  | OOrV i l => liveb w i && forallb (liveb w) l && negb (length l =? 0)%nat && or_ok
  | OOrR l => forallb (liveb w) l && (2 <=? length l)%nat && or_ok
  | OXor i j | OpXor i j => liveb w i && liveb w j && xor_ok
  | OXorV i l => liveb w i && forallb (liveb w) l && negb (length l =? 0)%nat && xor_ok
  | OXorR l => forallb (liveb w) l && (2 <=? length l)%nat && xor_ok
  | OIte i j k => liveb w i && liveb w j && liveb w k && or_ok && forallb (fun v => negb (v =? nv - 1)) (varsb w i)
  | ORebaseM i vm => liveb w i && (negb (constb w i) || unmarkedb) &&
      forallb (fun v => match vm !! v with Some _ => true | None => false end) (varsb w i) &&
      mapb (fun u => u <? topsink_index) vm && (negb (md_ord md) || monob (fun v => vm !! v) (varsb w i))
  | ORebaseV i vm => liveb w i && negb (constb w i) && forallb (fun v => v <? N.of_nat (length vm)) (varsb w i) &&
      forallb (fun u => u <? topsink_index) vm && (negb (md_ord md) || monob (fun v => vm !! N.to_nat v) (varsb w i))
  | OAllFalse l | OAtLeastOne l => forallb (liveb w) l && (1 <=? length l)%nat
  | OSimplex l | OAtMostOne l | OAtLeast l _ | OAtMost l _ | OCard l _ => forallb (liveb w) l && (1 <=? length l)%nat && or_ok
  | OCopy i | ODrop i | OMove i => someb w i
  | OAssign i j | QEq i j => someb w i && someb w j
  | OLow i | OHigh i | QBfs i | QPrint i | OBfsAll i => liveb w i && negb (constb w i)
  | QNrNodes i | QPost i | OPostAll i => liveb w i && (negb (constb w i) || unmarkedb)
  | QEval i x => liveb w i && forallb (fun v => v <? N.of_nat (length x)) (varsb w i)
  | OGc _ | OImport _ _ | QCollAdd _ _ | OExport _ _ => false
  end.
Lemma constb_ok' w i : negb (constb w i) || unmarkedb = true -> isconst w i -> sinks_unmarked.
Proof. intros [H|H]%orb_true_iff Hc; [|by apply unmarkedb_ok]. apply negb_true_iff in H. by apply constb_ok in H. Qed.
Lemma forallb_in (P : N -> bool) l v : forallb P l = true -> v ∈ l -> P v = true.
Proof. rewrite forallb_forall. intros H Hv. apply H. by apply elem_of_list_In. Qed.
Lemma allowedb_ok md w o : allowedb md w o = true -> allowed md w o.
Proof.
  destruct o; simpl; intros H; try done; rewrite ?andb_true_iff, ?orb_true_iff, ?negb_true_iff in H; destruct_and?;
    split_and?; auto using liveb_ok, someb_ok, forallb_alive, unmarkedb_ok, constb_ok.
  all: try (by apply N.ltb_lt).
  all: try (by apply Nat.leb_le).
  all: try (by apply Nat.eqb_neq; intros ->).
  all: try (intros ->; done).
  all: try (by apply constb_ok', orb_true_iff; rewrite negb_true_iff).
  - intros Ho u Hu. rewrite Ho in *. select (_ \/ forallb _ _ = true) (fun H => destruct H as [H'|H']); [done|]. apply N.ltb_lt.
    eapply (forallb_in (fun u => v <? u)); [exact H'|].
    rewrite elem_of_app. destruct Hu as [Hu|Hu]; [left|right]; by apply supp_varsb.
  - right. intros Hs%supp_varsb. select (forallb _ _ = true) (fun H => pose proof (forallb_in _ _ _ H Hs) as Hc). cbv beta in Hc. by rewrite N.eqb_refl in Hc.
  - intros v Hs%supp_varsb. select (forallb _ _ = true) (fun H => pose proof (forallb_in _ _ _ H Hs) as Hc). cbv beta in Hc. destruct (vm !! v); eauto; done.
  - intros v u Hv. select (mapb _ _ = true) (fun H => rename H into Hm). unfold mapb in Hm. rewrite forallb_forall in Hm. apply N.ltb_lt. apply (Hm (v, u)). apply elem_of_list_In. by apply elem_of_map_to_list.
  - intros Ho a b a' b' Ha%supp_varsb Hb%supp_varsb. select (_ \/ monob _ _ = true) (fun H => destruct H as [H'|H']); [congruence|]. by eapply (monob_ok (fun v => vm !! v)).
  - intros v Hs%supp_varsb. apply N.ltb_lt. by apply (forallb_in (fun v => v <? N.of_nat (length vm)) (varsb w i)).
  - apply Forall_forall. intros u Hu. apply N.ltb_lt. by apply (forallb_in (fun u => u <? topsink_index) vm).
  - intros Ho a b a' b' Ha%supp_varsb Hb%supp_varsb. select (_ \/ monob _ _ = true) (fun H => destruct H as [H'|H']); [congruence|]. by eapply (monob_ok (fun v => vm !! N.to_nat v)).
  - intros v Hs%supp_varsb. apply N.ltb_lt. by apply (forallb_in (fun v => v <? N.of_nat (length x)) (varsb w i)).
Qed.

(** run a program, checking every step *)
Fixpoint go (md : mode) (os : list op) (w : world) : option world :=
  match os with
  | [] => Some w
  | o :: os => if allowedb md w o then match step o w with WOk _ w => go md os w | WFail _ _ => None end else None
  end.
Lemma go_reach md os : forall w w', reach md w -> go md os w = Some w' -> reach md w'.
Proof.
  induction os as [|o os IH]; simpl; intros w w' HR; [by intros [= <-]|].
  destruct (allowedb md w o) eqn:Ha; [|done]. destruct (step o w) as [r w1|] eqn:Hs; [|done]. apply IH.
  eapply reach_step; [done|by apply allowedb_ok|done].
Qed.

(** evaluation by truth table *)
Fixpoint all_bits (n : nat) : list (list bool) :=
  match n with O => [[]] | S n => map (cons false) (all_bits n) ++ map (cons true) (all_bits n) end.
Lemma all_bits_in n x : length x = n -> x ∈ all_bits n.
Proof.
  revert n. induction x as [|b x IH]; intros n <-; simpl; [by apply elem_of_list_singleton|].
  apply elem_of_app. destruct b; [right|left]; apply elem_of_list_fmap; exists x; auto.
Qed.
Definition tableb (w : world) (i : nat) (f : list bool -> bool) : bool :=
  forallb (fun x => match val w i x with Some b => Bool.eqb b (f x) | None => false end) (all_bits (length (s_vars (w_s w)))).
Lemma evals_table md w i f : reach md w -> liveb w i = true -> tableb w i f = true ->
  (forall x, covers w x -> f x = f (take (length (s_vars (w_s w))) x)) -> evals w i f.
Proof.
  intros HR Hi Ht Hf x Hx. pose proof (reach_inv HE _ _ HR) as HW. destruct (live_hrep _ _ _ HW (liveb_ok _ _ Hi)) as (p&t&Hr).
  rewrite (val_covers _ _ _ _ _ _ HW Hr Hx), Hf by done. unfold covers, nr_variables in Hx.
  set (y := take (length (s_vars (w_s w))) x). assert (Hy : length y = length (s_vars (w_s w))) by (unfold y; rewrite take_length; lia).
  unfold tableb in Ht. rewrite forallb_forall in Ht. specialize (Ht y). cbv beta in Ht.
  rewrite (val_covers _ _ _ _ _ y HW Hr) in Ht by (unfold covers, nr_variables; lia).
  rewrite <- (eqb_prop _ _ (Ht ltac:(by apply elem_of_list_In, all_bits_in))). f_equal. apply evalt_ext. intros v Hv.
  unfold asg, y. rewrite lookup_take; [done|]. pose proof (hrep_occurs _ _ _ _ _ _ HW Hr Hv) as Ho. unfold nr_variables in Ho. lia.
Qed.

(** evaluation against a Boolean expression *)
Inductive bexp := BV (v : nat) | BC (b : bool) | BN (e : bexp) | BA (a b : bexp) | BO (a b : bexp) | BX (a b : bexp).
Fixpoint bev (e : bexp) (x : list bool) : bool :=
  match e with
  | BV v => nth v x false
  | BC b => b
  | BN e => negb (bev e x)
  | BA a b => bev a x && bev b x
  | BO a b => bev a x || bev b x
  | BX a b => xorb (bev a x) (bev b x)
  end.
Fixpoint bmax (e : bexp) : nat :=
  match e with
  | BV v => S v | BC _ => O | BN e => bmax e
  | BA a b | BO a b | BX a b => Nat.max (bmax a) (bmax b)
  end.
Lemma bev_take e n x : (bmax e <= n)%nat -> bev e x = bev e (take n x).
Proof.
  induction e; simpl; intros Hn; rewrite ?IHe, ?IHe1, ?IHe2 by lia; try done.
  rewrite !nth_lookup. by rewrite lookup_take by lia.
Qed.
Definition isb (w : world) (i : nat) (e : bexp) : bool :=
  liveb w i && tableb w i (bev e) && (bmax e <=? length (s_vars (w_s w)))%nat.
Lemma isb_ok md w i e : reach md w -> isb w i e = true -> evals w i (bev e).
Proof.
  intros HR [[Hl Ht]%andb_true_iff Hb]%andb_true_iff. apply Nat.leb_le in Hb.
  eapply evals_table; eauto. intros x _. by apply bev_take.
Qed.
End check.
