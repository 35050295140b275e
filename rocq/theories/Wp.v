(** * Wp.v -- total-correctness triples for the monad, and representation of trees in the heap *)
From Verif Require Export Spec Tree.
Open Scope N_scope.

Section wp.
Context {E : Env}.

(** the computation succeeds with [Q], or throws because a table is full *)
Definition sat {A} (m : M A) (s : mstate) (Q : A -> mstate -> Prop) : Prop :=
  match m s with
  | Ok a s' => Q a s'
  | Fail EThrow s' => thrown s'
  | Fail _ _ => False
  end.

Lemma sat_mono {A} (m : M A) s (Q Q' : A -> mstate -> Prop) :
  sat m s Q -> (forall a s', Q a s' -> Q' a s') -> sat m s Q'.
Proof. unfold sat. destruct (m s) as [a s'|[] s']; auto. Qed.

Lemma sat_bind {A B} (m : M A) (k : A -> M B) s Q :
  sat m s (fun a s' => sat (k a) s' Q) -> sat (bind m k) s Q.
Proof. unfold sat, bind. destruct (m s) as [a s'|[] s']; auto. Qed.

Lemma sat_bind_inv {A B} (m : M A) (k : A -> M B) s Q Q' :
  sat m s Q' -> (forall a s', Q' a s' -> sat (k a) s' Q) -> sat (bind m k) s Q.
Proof. intros H1 H2. apply sat_bind. eapply sat_mono; eauto. Qed.

Lemma sat_ret {A} (a : A) s (Q : A -> mstate -> Prop) : Q a s -> sat (ret a) s Q.
Proof. done. Qed.

Lemma sat_get s (Q : mstate -> mstate -> Prop) : Q s s -> sat get s Q.
Proof. done. Qed.

Lemma sat_liftR {A} (r : R A) a s (Q : A -> mstate -> Prop) : r = inr a -> Q a s -> sat (liftR r) s Q.
Proof. intros ->. done. Qed.

Lemma sat_assert b s (Q : unit -> mstate -> Prop) : b = true -> Q tt s -> sat (assert_ b) s Q.
Proof. intros -> ?. done. Qed.

Lemma assertR_true b : b = true -> assertR b = inr tt.
Proof. intros ->. done. Qed.

Lemma sat_assertM (m : M bool) s (Q : unit -> mstate -> Prop) :
  (e_ndebug = false -> sat m s (fun b s' => b = true /\ s' = s)) -> Q tt s -> sat (assertM m) s Q.
Proof.
  intros Hm HQ. unfold assertM. destruct e_ndebug eqn:Hd; [done|].
  apply sat_bind. eapply sat_mono; [by apply Hm|]. intros b s' [-> ->]. by apply sat_assert.
Qed.

Lemma sat_getN p n s (Q : node -> mstate -> Prop) : s_heap s !! p = Some n -> Q n s -> sat (getN p) s Q.
Proof. intros H ?. unfold sat, getN. rewrite H. done. Qed.

Lemma sat_getV v t s (Q : vtab -> mstate -> Prop) : s_vars s !! N.to_nat v = Some t -> Q t s -> sat (getV v) s Q.
Proof. intros H ?. unfold sat, getV. rewrite H. done. Qed.

(** ** Trees in the heap *)

Definition sink (p : ptr) : Prop := p = botsink \/ p = topsink.
Global Instance sink_dec p : Decision (sink p).
Proof. unfold sink. solve_decision. Defined.

Inductive repr (h : heap) : ptr -> bdd -> Prop :=
| repr_bot : repr h botsink (Leaf false)
| repr_top : repr h topsink (Leaf true)
| repr_br p n tl th : ~ sink p -> h !! p = Some n ->
    repr h (n_lo n) tl -> repr h (n_hi n) th -> repr h p (Br (n_idx n) tl th).

Lemma bot_neq_top : botsink <> topsink.
Proof. unfold botsink, topsink, node_size. lia. Qed.

Lemma repr_fun h p t t' : repr h p t -> repr h p t' -> t = t'.
Proof.
  intros H; revert t'; induction H as [| |p n tl th Hs Hp Hl IHl Hh IHh]; intros t' H';
    inversion H'; subst; try done; try (exfalso; apply bot_neq_top; congruence);
    try (exfalso; unfold sink in *; tauto).
  simplify_eq. f_equal; auto.
Qed.

Lemma repr_bot_inv h t : repr h botsink t -> t = Leaf false.
Proof. intros H. eapply repr_fun; [exact H|constructor]. Qed.
Lemma repr_top_inv h t : repr h topsink t -> t = Leaf true.
Proof. intros H. eapply repr_fun; [exact H|constructor]. Qed.
Lemma repr_br_inv h p v tl th : repr h p (Br v tl th) ->
  ~ sink p /\ exists n, h !! p = Some n /\ n_idx n = v /\ repr h (n_lo n) tl /\ repr h (n_hi n) th.
Proof. inversion 1; subst. eauto 10. Qed.
Lemma repr_leaf_inv h p b : repr h p (Leaf b) -> p = if b then topsink else botsink.
Proof. inversion 1; subst; done. Qed.
Lemma repr_nonsink h p t : repr h p t -> ~ sink p ->
  exists n tl th, h !! p = Some n /\ t = Br (n_idx n) tl th /\ repr h (n_lo n) tl /\ repr h (n_hi n) th.
Proof. intros H Hs. inversion H; subst; try (exfalso; apply Hs; unfold sink; tauto). eauto 10. Qed.

(** same node up to the reference count *)
Definition same_core (n n' : node) : Prop :=
  n_lo n = n_lo n' /\ n_hi n = n_hi n' /\ n_idx n = n_idx n' /\ n_key n = n_key n' /\ n_mark n = n_mark n'.
Lemma same_core_refl n : same_core n n.
Proof. done. Qed.
Lemma same_core_trans a b c : same_core a b -> same_core b c -> same_core a c.
Proof. unfold same_core. intuition congruence. Qed.

(** [h'] extends [h]: all old nodes are still there, unchanged up to reference counts *)
Definition hext (h h' : heap) : Prop :=
  forall p n, h !! p = Some n -> exists n', h' !! p = Some n' /\ same_core n n'.

Lemma hext_refl h : hext h h.
Proof. intros p n H. eauto using same_core_refl. Qed.
Lemma hext_trans a b c : hext a b -> hext b c -> hext a c.
Proof.
  intros H1 H2 p n Hp. destruct (H1 _ _ Hp) as (n1&Hp1&Hc1). destruct (H2 _ _ Hp1) as (n2&Hp2&Hc2).
  eauto using same_core_trans.
Qed.

Lemma repr_ext h h' p t : hext h h' -> repr h p t -> repr h' p t.
Proof.
  intros He. induction 1 as [| |p n tl th Hs Hp Hl IHl Hh IHh]; [constructor|constructor|].
  destruct (He _ _ Hp) as (n'&Hp'&Hlo&Hhi&Hi&_). rewrite Hi.
  constructor; [done|done|congruence|congruence].
Qed.

(** ** A path visits distinct cells: tree height is bounded by the number of cells *)
Lemma repr_path h p t : repr h p t ->
  exists l, NoDup l /\ length l = ht t /\
    forall q, q ∈ l -> ~ sink q /\ q ∈ dom h /\ exists t', repr h q t' /\ (0 < ht t' <= ht t)%nat.
Proof.
  induction 1 as [| |p n tl th Hs Hp Hl (ll&Hndl&Hlenl&Hinl) Hh (lh&Hndh&Hlenh&Hinh)].
  - exists []. split_and!; [constructor|done|]. intros q Hq. by apply elem_of_nil in Hq.
  - exists []. split_and!; [constructor|done|]. intros q Hq. by apply elem_of_nil in Hq.
  - assert (Hrp : repr h p (Br (n_idx n) tl th)) by (constructor; auto).
    assert (Hgen : forall l, NoDup l -> length l = Nat.max (ht tl) (ht th) ->
      (forall q, q ∈ l -> ~ sink q /\ q ∈ dom h /\ exists t', repr h q t' /\ (0 < ht t' <= Nat.max (ht tl) (ht th))%nat) ->
      exists l, NoDup l /\ length l = ht (Br (n_idx n) tl th) /\
       forall q, q ∈ l -> ~ sink q /\ q ∈ dom h /\ exists t', repr h q t' /\ (0 < ht t' <= ht (Br (n_idx n) tl th))%nat).
    { intros l Hnd Hlen Hin. exists (p :: l). split_and!.
      - apply NoDup_cons; split; [|done]. intros Hq. destruct (Hin _ Hq) as (_&_&t'&Ht'&Hle).
        rewrite (repr_fun _ _ _ _ Ht' Hrp) in Hle. simpl in Hle. lia.
      - simpl. lia.
      - intros q [->|Hq]%elem_of_cons.
        + split_and!; [done|by apply elem_of_dom_2 in Hp|]. eexists; split; [exact Hrp|simpl; lia].
        + destruct (Hin _ Hq) as (?&?&t'&?&?). split_and!; auto. exists t'. split; [done|simpl; lia]. }
    destruct (le_ge_dec (ht tl) (ht th)).
    + apply (Hgen lh); auto; [lia|]. intros q Hq. destruct (Hinh _ Hq) as (?&?&t'&?&?).
      split_and!; auto. exists t'. split; [done|lia].
    + apply (Hgen ll); auto; [lia|]. intros q Hq. destruct (Hinl _ Hq) as (?&?&t'&?&?).
      split_and!; auto. exists t'. split; [done|lia].
Qed.

Lemma repr_ht h p t : repr h p t -> (ht t <= size h)%nat.
Proof.
  intros H. destruct (repr_path _ _ _ H) as (l&Hnd&Hlen&Hin).
  rewrite <- Hlen, <- (size_dom (D := gset N) h), <- (size_list_to_set (C := gset N) l) by done.
  apply subseteq_size. intros q Hq. apply elem_of_list_to_set in Hq. by apply Hin.
Qed.

(** ** Number of stored arcs into a node *)
Definition arcs (n : node) (p : ptr) : Z :=
  ((if decide (n_lo n = p) then 1 else 0) + (if decide (n_hi n = p) then 1 else 0))%Z.
Definition refs (h : heap) (p : ptr) : Z :=
  map_fold (fun q n acc => if decide (sink q) then acc else (acc + arcs n p)%Z) 0%Z h.

Lemma refs_empty p : refs ∅ p = 0%Z.
Proof. done. Qed.
Lemma refs_insert h q n p : h !! q = None ->
  refs (<[q := n]> h) p = (refs h p + if decide (sink q) then 0 else arcs n p)%Z.
Proof.
  intros H. unfold refs. rewrite map_fold_insert_L; [|intros; repeat case_decide; lia|done].
  case_decide; lia.
Qed.
Lemma refs_delete h q n p : h !! q = Some n ->
  refs h p = (refs (delete q h) p + if decide (sink q) then 0 else arcs n p)%Z.
Proof.
  intros H. rewrite <- (insert_delete h q n) at 1 by done. apply refs_insert, lookup_delete.
Qed.
(** changing a node in place without touching its arcs *)
Lemma refs_update h q n n' p : h !! q = Some n -> n_lo n = n_lo n' -> n_hi n = n_hi n' ->
  refs (<[q := n']> h) p = refs h p.
Proof.
  intros H Hl Hh. rewrite (refs_delete h q n p H), (refs_delete (<[q:=n']> h) q n' p) by apply lookup_insert.
  rewrite delete_insert_delete. unfold arcs. by rewrite Hl, Hh.
Qed.
Lemma refs_nonneg h p : (0 <= refs h p)%Z.
Proof.
  unfold refs. apply (map_fold_ind (fun r _ => 0 <= r)%Z); [done|].
  intros q n m r _ Hr. case_decide; [done|]. unfold arcs. repeat case_decide; lia.
Qed.
End wp.
