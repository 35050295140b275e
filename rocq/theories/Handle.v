(** * Handle.v -- acquiring, releasing and assigning handles *)
From Verif Require Export Api.
Open Scope N_scope.

Section handle.
Context {E : Env}.

(** the same nodes up to reference counts *)
Definition heq (h h' : heap) : Prop := hext h h' /\ hext h' h.

Lemma heq_dom h h' : heq h h' -> dom h = dom h'.
Proof.
  intros [H1 H2]. apply set_eq. intros p. rewrite !elem_of_dom. split; intros [n Hn].
  - destruct (H1 _ _ Hn) as (?&?&_). eauto.
  - destruct (H2 _ _ Hn) as (?&?&_). eauto.
Qed.
Lemma heq_size h h' : heq h h' -> size h = size h'.
Proof. intros H. by rewrite <- !(size_dom (D := gset N)), (heq_dom _ _ H). Qed.

Lemma heap_ok_heq md nv h h' : heq h h' -> heap_ok md nv h -> heap_ok md nv h'.
Proof.
  intros [H1 H2] []. constructor.
  - destruct ho_sink as [[x Hb] [y Ht]]. destruct (H1 _ _ Hb) as ([]&Hb'&Hc). destruct (H1 _ _ Ht) as ([]&Ht'&Hc').
    unfold same_core in *. simpl in *. destruct Hc as (<-&<-&<-&<-&<-). destruct Hc' as (<-&<-&<-&<-&<-).
    split; eexists; eauto.
  - intros p n Hp Hs. destruct (H2 _ _ Hp) as (n'&Hp'&(Hl&Hh&Hi&Hk&Hm)).
    destruct (ho_node p n' Hp' Hs) as (?&?&?&t&?). rewrite Hi, Hl, Hh, Hm.
    split_and!; auto. exists t. by apply (repr_ext h h').
  - intros p q n m Hp Hq Hn Hm Hi Hl Hh. destruct (H2 _ _ Hn) as (n'&Hn'&(?&?&?&?&?)). destruct (H2 _ _ Hm) as (m'&Hm'&(?&?&?&?&?)).
    apply (ho_uniq p q n' m'); congruence.
  - intros Ho p t Hr. eapply ho_ord; [done|]. by apply (repr_ext h' h).
Qed.

Lemma var_nodes_heq h h' v p : heq h h' -> var_nodes h v p <-> var_nodes h' v p.
Proof.
  intros [H1 H2]. unfold var_nodes. split; intros (Hs&n&Hn&Hi); (split; [done|]).
  - destruct (H1 _ _ Hn) as (n'&Hn'&(_&_&Hi'&_)). exists n'. split; [done|congruence].
  - destruct (H2 _ _ Hn) as (n'&Hn'&(_&_&Hi'&_)). exists n'. split; [done|congruence].
Qed.

Lemma tab_ok_heq h h' v t : heq h h' -> tab_ok h v t -> tab_ok h' v t.
Proof.
  intros Hq (k&?&?&HT&?&?&?&?&?). exists k. split_and!; auto.
  eapply ptab_proper; [|eapply ptab_ext; [apply Hq|exact HT]]. intros p. by apply var_nodes_heq.
Qed.

Lemma inv_heq md H H' s h' : Inv md H s -> heq (s_heap s) h' -> xref_ok H' h' ->
  (forall p, (0 <= H' p)%Z) -> (forall p, H' p <> 0%Z -> p ∈ dom h') -> Inv md H' (set_s_heap h' s).
Proof.
  intros HI Hq Hx Hp Hd. pose proof (heq_dom _ _ Hq) as Hdom. pose proof (heq_size _ _ Hq) as Hsz.
  destruct HI. constructor; simpl; auto.
  - by eapply heap_ok_heq.
  - intros v t Hv. eapply tab_ok_heq; eauto.
  - eapply memo_ok_ext; [apply Hq|done].
  - destruct i_nc as (?&?&?&?&?&Ha). split_and!; auto; [congruence|].
    intros p. rewrite <- Hdom. apply Ha.
Qed.

Definition addH (H : ptr -> Z) (p : ptr) (d : Z) : ptr -> Z := fun q => if decide (q = p) then (H q + d)%Z else H q.

Definition addx (d : Z) (p : ptr) (h : heap) : heap := alter (with_xref (fun x => (x + d)%Z)) p h.
Lemma addx_lookup d p h q : addx d p h !! q = (fun n => if decide (q = p) then with_xref (fun x => (x + d)%Z) n else n) <$> h !! q.
Proof.
  unfold addx. destruct (decide (q = p)) as [->|Hne].
  - by rewrite lookup_alter.
  - rewrite lookup_alter_ne by done. by destruct (h !! q).
Qed.
Lemma addx_core d (q p : N) n : same_core n (if decide (q = p) then with_xref (fun x => (x + d)%Z) n else n).
Proof. case_decide; done. Qed.
Lemma same_core_sym n m : same_core n m -> same_core m n.
Proof. unfold same_core. intuition congruence. Qed.
Lemma addx_heq d p h : heq h (addx d p h).
Proof.
  split; intros q n Hq.
  - rewrite addx_lookup, Hq. simpl. eexists. split; [done|]. apply addx_core.
  - rewrite addx_lookup in Hq. destruct (h !! q) as [m|]; simpl in Hq; [|done]. simplify_eq.
    exists m. split; [done|]. apply same_core_sym, addx_core.
Qed.
Lemma refs_addx d p h q : refs (addx d p h) q = refs h q.
Proof.
  destruct (h !! p) as [n|] eqn:Hp.
  - assert (addx d p h = <[p := with_xref (fun x => (x + d)%Z) n]> h) as ->.
    { unfold addx. apply map_eq. intros q'. destruct (decide (q' = p)) as [->|Hne].
      - by rewrite lookup_alter, Hp, lookup_insert.
      - by rewrite lookup_alter_ne, lookup_insert_ne by done. }
    by apply (refs_update h p n).
  - unfold addx.
    assert (alter (with_xref (fun x => (x + d)%Z)) p h = h) as ->; [|done].
    apply map_eq. intros q'. destruct (decide (q' = p)) as [->|Hne].
    + by rewrite lookup_alter, Hp.
    + by rewrite lookup_alter_ne by done.
Qed.

Lemma inv_addx md H s p d : Inv md H s -> p ∈ dom (s_heap s) -> (0 <= H p + d)%Z ->
  Inv md (addH H p d) (set_s_heap (addx d p (s_heap s)) s).
Proof.
  intros HI Hp Hd. eapply inv_heq; [done|apply addx_heq|..].
  - intros q n Hq. rewrite addx_lookup in Hq. destruct (s_heap s !! q) as [m|] eqn:Hm; simpl in Hq; [|done].
    pose proof (i_xref _ _ _ HI _ _ Hm) as Hx. rewrite refs_addx. unfold addH. simplify_eq.
    destruct (decide (q = p)); simpl; rewrite Hx; lia.
  - intros q. unfold addH. pose proof (i_H _ _ _ HI q). case_decide; [subst; lia|done].
  - intros q. unfold addH. rewrite <- (heq_dom _ _ (addx_heq d p (s_heap s))).
    case_decide; [by subst|]. apply HI.
Qed.

Lemma modx_eq d p s n : s_heap s !! p = Some n ->
  modN p (with_xref (fun x => (x + d)%Z)) s = Ok tt (set_s_heap (addx d p (s_heap s)) s).
Proof.
  intros Hn. unfold modN. rewrite (bind_eq _ _ _ _ _ (getN_eq _ _ _ Hn)). unfold set_heap, set_s_heap.
  do 2 f_equal. unfold addx. apply map_eq. intros q. destruct (decide (q = p)) as [->|Hne].
  - by rewrite lookup_alter, Hn, lookup_insert.
  - by rewrite lookup_alter_ne, lookup_insert_ne by done.
Qed.

(** handles: a null handle is not counted *)
Definition hadd (H : ptr -> Z) (p : ptr) (d : Z) : ptr -> Z := if decide (p = 0) then H else addH H p d.

Lemma ref_acquire_spec md H s p : Inv md H s -> (p <> 0 -> p ∈ dom (s_heap s)) ->
  exists s', ref_acquire p s = Ok tt s' /\ Inv md (hadd H p 1) s' /\ ext s s' /\ ext s' s.
Proof.
  intros HI Hp. unfold ref_acquire, hadd. destruct (N.eqb_spec p 0) as [->|Hne].
  - rewrite decide_True by done. exists s. split_and!; auto using ext_refl.
  - rewrite decide_False by done. destruct (elem_of_dom (s_heap s) p) as [[n Hn] _]; [auto|].
    eexists. split; [eapply modx_eq; exact Hn|]. destruct (addx_heq 1 p (s_heap s)).
    split_and!; [|by split|by split]. apply inv_addx; auto. pose proof (i_H _ _ _ HI p). lia.
Qed.

Lemma ref_release_spec md H s p : Inv md H s -> (p <> 0 -> (0 < H p)%Z) ->
  exists s', ref_release p s = Ok tt s' /\ Inv md (hadd H p (-1)) s' /\ ext s s' /\ ext s' s.
Proof.
  intros HI Hp. unfold ref_release, hadd. destruct (N.eqb_spec p 0) as [->|Hne].
  - rewrite decide_True by done. exists s. split_and!; auto using ext_refl.
  - rewrite decide_False by done. specialize (Hp Hne).
    assert (Hd : p ∈ dom (s_heap s)) by (apply HI; lia).
    destruct (elem_of_dom (s_heap s) p) as [[n Hn] _]; [auto|].
    rewrite (bind_eq _ _ _ _ _ (getN_eq _ _ _ Hn)).
    assert (Hx : (0 < n_xref n)%Z).
    { rewrite (i_xref _ _ _ HI _ _ Hn). pose proof (refs_nonneg (s_heap s) p). case_decide; lia. }
    rewrite (bind_eq _ _ _ _ _ (assert_eq _ s (proj2 (Z.ltb_lt _ _) Hx))).
    eexists. split; [apply (modx_eq (-1) p s n Hn)|]. destruct (addx_heq (-1) p (s_heap s)).
    split_and!; [|by split|by split]. apply inv_addx; auto. lia.
Qed.

Lemma ref_assign_spec md H s p q : Inv md H s -> (p <> 0 -> (0 < H p)%Z) -> (q <> 0 -> q ∈ dom (s_heap s)) ->
  exists s', ref_assign p q s = Ok q s' /\ Inv md (hadd (hadd H p (-1)) q 1) s' /\ ext s s' /\ ext s' s.
Proof.
  intros HI Hp Hq.
  assert (H1 : exists s1, (if p =? 0 then ret tt else xref_dec p) s = Ok tt s1 /\ Inv md (hadd H p (-1)) s1 /\ ext s s1 /\ ext s1 s).
  { unfold hadd. destruct (N.eqb_spec p 0) as [->|Hne].
    - rewrite decide_True by done. exists s. split_and!; auto using ext_refl.
    - rewrite decide_False by done. specialize (Hp Hne).
      assert (Hd : p ∈ dom (s_heap s)) by (apply HI; lia).
      destruct (elem_of_dom (s_heap s) p) as [[n Hn] _]; [auto|].
      eexists. split; [apply (modx_eq (-1) p s n Hn)|]. destruct (addx_heq (-1) p (s_heap s)).
      split_and!; [|by split|by split]. apply inv_addx; auto. lia. }
  destruct H1 as (s1&H1&HI1&He1&He1').
  destruct (ref_acquire_spec md _ s1 q HI1) as (s2&H2&HI2&He2&He2').
  { intros Hne. specialize (Hq Hne). destruct He1 as [He1 _]. apply elem_of_dom in Hq as [n Hn].
    destruct (He1 _ _ Hn) as (m&Hm&_). apply elem_of_dom. eauto. }
  exists s2. unfold ref_assign. rewrite (bind_eq _ _ _ _ _ H1). unfold ref_acquire in H2. rewrite (bind_eq _ _ _ _ _ H2).
  split_and!; auto; eapply ext_trans; eauto.
Qed.

End handle.
