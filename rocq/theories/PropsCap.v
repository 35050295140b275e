(** * PropsCap.v -- capacity limits: nodes per variable (C26), number of variables (C56) *)
From Verif Require Export PropsGc Refute PropsOps.
Open Scope N_scope.

Section cap.
Context {E : Env} (HE : env_ok E).

(** ** C26 *)
(** an operation fails only by throwing, and only when a variable labels more than 2^18 nodes *)
Theorem C26_throws_only_full md w o e w' : reach md w -> allowed md w o -> step o w = WFail e w' ->
  e = EThrow /\ exists v, 262144 < N.of_nat (size (nodes_of (s_heap (w_s w')) v)).
Proof.
  intros HR Ha Hs. pose proof (C22_total HE md w o HR Ha) as Hg. rewrite Hs in Hg. unfold ensures in Hg.
  destruct e; try done. split; [done|]. by destruct Hg as [Hf _].
Qed.

Lemma tab_used_ge h v t k (l : list N) : vt_shape k t -> ptab h k (pg_slots (vt_page t)) (var_nodes h v) ->
  NoDup l -> (forall p, p ∈ l -> var_nodes h v p) -> (length l <= tsize k - zeros k (pg_slots (vt_page t)))%nat.
Proof.
  intros Hs HT Hnd Hl. rewrite <- (filter_used (pg_slots (vt_page t)) k) by apply Hs.
  apply submseteq_length, NoDup_submseteq; [done|]. intros p Hp. destruct (pt_all _ _ _ _ HT p (Hl p Hp)) as (Hp0&i&Hi&Hli).
  apply elem_of_list_filter. split; [done|]. apply elem_of_list_lookup. exists i. by apply lookup_take_Some.
Qed.
Lemma used_max k z : k <= 19 -> (2 * (tsize k - z) <= tsize k + 2)%nat -> N.of_nat (tsize k - z) <= 262145.
Proof.
  intros Hk Hu. unfold tsize in *. pose proof (N.pow_le_mono_r 2 k 19 ltac:(lia) Hk) as Hp. change (2 ^ 19) with 524288 in Hp. lia.
Qed.
(** no variable ever labels more than 2^18 + 1 nodes *)
Theorem C26_capacity md w v : reach md w -> v < nr_variables (w_s w) -> N.of_nat (size (nodes_of (s_heap (w_s w)) v)) <= 262145.
Proof.
  intros HR Hv. pose proof (reach_inv HE _ _ HR) as HW. unfold nr_variables in Hv.
  destruct (lookup_lt_is_Some_2 (s_vars (w_s w)) (N.to_nat v)) as [t Ht]; [lia|].
  destruct (i_tab _ _ _ HW _ _ Ht) as (k&Hs&Hk&HT&Hf&Hused&_). rewrite N2Nat.id in HT.
  set (h := s_heap (w_s w)) in *. set (l := elements (dom (nodes_of h v))).
  assert (Hl : (length l <= tsize k - zeros k (pg_slots (vt_page t)))%nat).
  { apply (tab_used_ge h v); auto; [apply NoDup_elements|]. intros p [n Hp%map_filter_lookup_Some]%elem_of_elements%elem_of_dom.
    destruct Hp as [Hp Hi]. simpl in Hi. split; [|by exists n]. intros Hsp.
    apply (sink_not_node _ _ _ p n (i_heap _ _ _ HW) (i_nv _ _ _ HW) Hp) in Hsp. pose proof (i_nv _ _ _ HW).
    unfold botsink_index, topsink_index in *. lia. }
  assert (size (nodes_of h v) = length l) as ->.
  { unfold l. rewrite <- (size_dom (D := gset N)). done. }
  pose proof (used_max k _ Hk Hused). lia.
Qed.

(** after a throw the manager cannot even be destroyed: the destructor reads past the table *)
Definition pv {A} (m : M A) : Prop := forall s a s', m s = Ok a s' -> s_vars s' = s_vars s.
Lemma pv_bind {A B} (m : M A) (k : A -> M B) : pv m -> (forall a, pv (k a)) -> pv (bind m k).
Proof.
  intros Hm Hk s b s'. unfold bind. destruct (m s) as [a s1|] eqn:Hs; [|done]. intros Hk'.
  rewrite (Hk a _ _ _ Hk'). by eapply Hm.
Qed.
Lemma pv_getN p : pv (getN p).
Proof. intros s a s'. unfold getN. destruct (_ !! _); [|done]. by intros [= _ <-]. Qed.
Lemma pv_assert b : pv (assert_ b).
Proof. intros s a s'. unfold assert_, liftR. destruct (assertR b); [done|]. by intros [= _ <-]. Qed.
Lemma pv_modN p f : pv (modN p f).
Proof. apply pv_bind; [apply pv_getN|]. intros n s a s' [= _ <-]. done. Qed.
Lemma free_node_vars p : pv (free_node p).
Proof.
  unfold free_node. repeat (apply pv_bind; [first [apply pv_getN | apply pv_assert | apply pv_modN | by intros ? ? ? [= <- <-]]|intros ?]).
  by intros s ? s' [= _ <-].
Qed.
Lemma release_loop_vars l : forall s s', release_loop l s = Ok tt s' -> s_vars s' = s_vars s.
Proof.
  induction l as [|p l IH]; intros s s'; cbn [release_loop]; [by intros [= <-]|]. unfold bind.
  destruct (p =? 0); [apply IH|]. destruct (free_node p s) as [[] s1|] eqn:Hf; [|done]. intros Hr.
  rewrite (IH _ _ Hr). by apply free_node_vars in Hf.
Qed.
Lemma release_all_stuck vs : forall s, (exists v t, v ∈ vs /\ s_vars s !! v = Some t /\
  N.of_nat (length (pg_slots (vt_page t))) < vt_mask t + 1) -> forall s', release_all vs s <> Ok tt s'.
Proof.
  induction vs as [|u vs IH]; intros s (v&t&Hv&Ht&Hlt) s'; [by apply elem_of_nil in Hv|].
  cbn [release_all]. unfold bind at 1. destruct (release_nodes (N.of_nat u) s) as [[] s1|] eqn:Hr; [|done].
  unfold release_nodes in Hr. unfold bind at 1 in Hr. unfold getV in Hr. rewrite Nat2N.id in Hr.
  destruct (s_vars s !! u) as [tu|] eqn:Hu; [|done]. unfold bind at 1 in Hr. unfold cells in Hr.
  destruct (Nat.leb_spec (N.to_nat (vt_size tu)) (length (pg_slots (vt_page tu)))) as [Hle|Hgt]; [|done]. cbn [liftR] in Hr.
  unfold bind at 1 in Hr. destruct (release_loop _ s) as [[] s2|] eqn:Hl; [|done]. apply release_loop_vars in Hl.
  unfold setV, set_vars in Hr. injection Hr as <-.
  assert (u <> v). { intros ->. assert (tu = t) as -> by congruence. unfold vt_size in Hle. lia. }
  apply IH. exists v, t. split_and!; [|cbn [s_vars]; by rewrite Nat2N.id, list_lookup_insert_ne, Hl|done].
  by apply elem_of_cons in Hv as [?|?].
Qed.
Theorem C26_after_throw_refuted md w o w' : reach md w -> allowed md w o -> step o w = WFail EThrow w' ->
  forall s, mgr_destroy (w_s w') <> Ok tt s.
Proof.
  intros HR Ha Hs. pose proof (C22_total HE md w o HR Ha) as Hg. rewrite Hs in Hg. destruct Hg as (_&(v&t&Ht&Hlt)&_).
  intros s. unfold mgr_destroy. rewrite (bind_eq get _ _ _ _ eq_refl). unfold bind.
  destruct (release_all _ _) as [[] s1|] eqn:Hra; [|done]. exfalso. revert Hra. apply release_all_stuck. exists v, t. split_and!; auto.
  apply elem_of_seq. apply lookup_lt_Some in Ht. lia.
Qed.

(** the exception does happen: x0 & x1, x0 & x2, ... *)
Definition throws : Prop := exists w o w', reach or_mode w /\ allowed or_mode w o /\ step o w = WFail EThrow w'.
Lemma yields_or md w o phi : reach md w -> allowed md w o -> (forall k, ~ touches o k) -> yields w o phi ->
  (exists w', step o w = WFail EThrow w') \/
  exists w' p, step o w = WOk (OutP p) w' /\ reach md w' /\ evals w' (length (w_h w)) phi /\ live w' (length (w_h w)) /\
    (forall k f, evals w k f -> evals w' k f).
Proof.
  intros HR Ha Ht Hy. unfold yields, ensures in Hy. destruct (step o w) as [r w'|e w'] eqn:Hs.
  - right. destruct Hy as (p&->&Hp&Hv). exists w', p. pose proof (reach_step _ _ _ _ _ HR Ha Hs) as HR'.
    pose proof (reach_inv HE _ _ HR) as HW. pose proof (reach_inv HE _ _ HR') as HW'.
    pose proof (step_good HE _ _ _ HW Ha) as Hg. rewrite Hs in Hg. cbn [ensures] in Hg. destruct Hg as (_&Hl&_).
    split_and!; auto.
    + destruct (evals_hrep HE _ _ _ _ HW' Hv) as (p'&t&Hr&_). by eapply hrep_live.
    + intros k f Hk x Hc. pose proof (lext_covers _ _ _ Hl Hc) as Hc'. rewrite <- (Hk x Hc').
      destruct (evals_hrep HE _ _ _ _ HW Hk) as (q&t&(Hq&_)&_).
      by apply (C22_persistent HE md w o (OutP p) w' k q).
  - left. destruct e; try done. eauto.
Qed.

Lemma many_projs n : N.of_nat n < topsink_index -> throws \/ exists w, reach or_mode w /\ length (w_h w) = n /\
  forall i, (i < n)%nat -> evals w i (fun x => default false (x !! i)).
Proof.
  induction n as [|n IH]; intros Hn.
  - right. exists w_init. split_and!; [constructor|done|lia].
  - destruct IH as [?|(w&HR&Hl&Hv)]; [lia|by left|].
    assert (Ha : allowed or_mode w (OProj (N.of_nat n))) by (simpl; lia).
    destruct (yields_or or_mode w (OProj (N.of_nat n)) (fun x => default false (x !! N.to_nat (N.of_nat n))) HR Ha) as [[w' Hw']|(w'&p&Hs&HR'&He&_&Hk)].
    + by intros k [].
    + apply (C06_projection HE or_mode); [done|lia].
    + left. exists w, (OProj (N.of_nat n)), w'. done.
    + right. exists w'. rewrite Nat2N.id, Hl in He. split_and!; [done| |].
      * pose proof (reach_inv HE _ _ HR) as HW. pose proof (step_good HE _ _ _ HW Ha) as Hg. rewrite Hs in Hg. destruct Hg as (_&_&Hh).
        rewrite Hh. simpl. rewrite app_length. simpl. lia.
      * intros i Hi. destruct (decide (i = n)) as [->|]; [done|]. apply Hk, Hv. lia.
Qed.
Lemma many_ands n m : N.of_nat n < topsink_index -> (m < n)%nat -> throws \/ exists w, reach or_mode w /\ length (w_h w) = (n + m)%nat /\
  (forall i, (i < n)%nat -> evals w i (fun x => default false (x !! i))) /\
  forall i, (i < m)%nat -> evals w (n + i) (fun x => default false (x !! 0%nat) && default false (x !! S i)).
Proof.
  intros Hn. induction m as [|m IH]; intros Hm.
  - destruct (many_projs n Hn) as [?|(w&HR&Hl&Hv)]; [by left|right]. exists w. split_and!; auto; lia.
  - destruct IH as [?|(w&HR&Hl&Hv&Hw)]; [lia|by left|].
    pose proof (reach_inv HE _ _ HR) as HW.
    assert (Ha : allowed or_mode w (OAnd 0 (S m))).
    { destruct (evals_hrep HE _ _ _ _ HW (Hv 0%nat ltac:(lia))) as (?&?&?&_). destruct (evals_hrep HE _ _ _ _ HW (Hv (S m) ltac:(lia))) as (?&?&?&_).
      split; by eapply hrep_live. }
    destruct (yields_or or_mode w (OAnd 0 (S m)) (fun x => default false (x !! 0%nat) && default false (x !! S m)) HR Ha) as [[w' Hw']|(w'&p&Hs&HR'&He&_&Hk)].
    + by intros k [].
    + apply (C01_and_rec HE or_mode); [done|apply Hv; lia|apply Hv; lia].
    + left. exists w, (OAnd 0 (S m)), w'. done.
    + right. exists w'. rewrite Hl in He. split_and!; [done| | |].
      * pose proof (step_good HE _ _ _ HW Ha) as Hg. rewrite Hs in Hg. destruct Hg as (_&_&Hh).
        rewrite Hh. simpl. rewrite app_length. simpl. lia.
      * intros i Hi. by apply Hk, Hv.
      * intros i Hi. destruct (decide (i = m)) as [->|]; [done|]. apply Hk, Hw. lia.
Qed.

Theorem C26_throw_reachable : exists w o w', reach or_mode w /\ allowed or_mode w o /\ step o w = WFail EThrow w'.
Proof.
  change throws. set (m := N.to_nat 262146).
  destruct (many_ands (S m) m) as [?|(w&HR&Hl&Hp&Hw)]; [unfold m, topsink_index; lia|lia|done|exfalso].
  pose proof (reach_inv HE _ _ HR) as HW.
  (* the addresses of x0 & x_(i+1) *)
  assert (Hq : forall i, (i < m)%nat -> exists q t, hrep w (S m + i) q t /\
     (forall x, covers w x -> default false (x !! 0%nat) && default false (x !! S i) = evalt t (asg x)) /\ var_nodes (s_heap (w_s w)) 0 q).
  { intros i Hi. destruct (evals_hrep HE _ _ _ _ HW (Hw i Hi)) as (q&t&Hr&Hx). exists q, t. split_and!; [done|done|].
    destruct (evals_hrep HE _ _ _ _ HW (Hp (S i) ltac:(lia))) as (q'&t'&Hr'&Hx').
    assert (Hnv : (S i < length (s_vars (w_s w)))%nat).
    { destruct (decide (occurs (N.of_nat (S i)) t')) as [Ho|Ho].
      - pose proof (hrep_occurs _ _ _ _ _ _ HW Hr' Ho) as Hlt. unfold nr_variables in Hlt. lia.
      - exfalso. set (L := Nat.max (length (s_vars (w_s w))) (S (S i))).
        pose proof (Hx' (replicate L false)) as H0. pose proof (Hx' (<[S i := true]> (replicate L false))) as H1.
        unfold covers, nr_variables in *. rewrite insert_length, replicate_length in H1. rewrite replicate_length in H0.
        rewrite list_lookup_insert in H1 by (rewrite replicate_length; lia). simpl in H1.
        assert (Hr0 : replicate L false !! S i = Some false) by (apply lookup_replicate_2; lia).
        rewrite Hr0 in H0. simpl in H0. specialize (H0 ltac:(lia)). specialize (H1 ltac:(lia)).
        assert (evalt t' (asg (<[S i:=true]> (replicate L false))) = evalt t' (asg (replicate L false))) as Heq; [|congruence].
        apply evalt_ext. intros v Hv. unfold asg. rewrite list_lookup_insert_ne; [done|]. intros Hiv. apply Ho. by rewrite Hiv, N2Nat.id. }
    set (L := length (s_vars (w_s w))) in *.
    set (x1 := <[S i := true]> (replicate L false)). set (x2 := <[0%nat := true]> x1).
    assert (H1 : evalt t (asg x1) = false).
    { rewrite <- Hx. 2:{ unfold covers, nr_variables, x1. rewrite insert_length, replicate_length. fold L. lia. }
      unfold x1. rewrite list_lookup_insert_ne by done. assert (replicate L false !! 0%nat = Some false) as ->; [|done]. apply lookup_replicate_2. lia. }
    assert (H2 : evalt t (asg x2) = true).
    { rewrite <- Hx. 2:{ unfold covers, nr_variables, x2, x1. rewrite !insert_length, replicate_length. fold L. lia. }
      unfold x2. rewrite list_lookup_insert by (unfold x1; rewrite insert_length, replicate_length; lia).
      rewrite list_lookup_insert_ne by done. unfold x1. rewrite list_lookup_insert by (rewrite replicate_length; lia). done. }
    assert (Ho : occurs 0 t).
    { destruct (decide (occurs 0 t)) as [|Hn]; [done|]. exfalso.
      assert (evalt t (asg x2) = evalt t (asg x1)) as Heq; [|congruence]. apply evalt_ext. intros v Hv. unfold asg, x2.
      rewrite list_lookup_insert_ne; [done|]. intros Hv0. apply Hn. by assert (v = 0) as <- by lia. }
    destruct Hr as (_&_&Hr). pose proof (ho_ord _ _ _ (i_heap _ _ _ HW) eq_refl _ _ Hr) as Hord.
    destruct t as [b|v tl th]; [done|]. apply repr_br_inv in Hr as (Hs&n&Hn&Hv&_).
    split; [done|]. exists n. split; [done|]. simpl in Hord, Ho. destruct Hord as (_&Hol&Hoh).
    destruct Ho as [Ho|[Ho|Ho]]; [congruence| |]; [pose proof (ordt_occurs _ _ _ Hol Ho)|pose proof (ordt_occurs _ _ _ Hoh Ho)]; lia. }
  (* collect them *)
  assert (Hlist : forall j, (j <= m)%nat -> exists l, length l = j /\ NoDup l /\ (forall q, q ∈ l -> var_nodes (s_heap (w_s w)) 0 q) /\
     forall q, q ∈ l -> exists i, (i < j)%nat /\ hnd w (S m + i) = Some q).
  { induction j as [|j IH]; intros Hj.
    - exists []. split_and!; [done|by apply NoDup_nil| |]; intros q Hin; by apply elem_of_nil in Hin.
    - destruct IH as (l&Hlen&Hnd&Hvn&Hhn); [lia|]. destruct (Hq j) as (q&t&Hr&Hx&Hvq); [lia|].
      exists (q :: l). split_and!; [simpl; lia| | |].
      + apply NoDup_cons. split; [|done]. intros Hin. destruct (Hhn q Hin) as (i&Hi&Hqi).
        destruct (Hq i) as (q'&t'&Hr'&Hx'&_); [lia|]. assert (q' = q) as -> by (destruct Hr'; congruence).
        assert (t' = t) as -> by (destruct Hr as (_&_&?), Hr' as (_&_&?); by eapply repr_fun).
        set (L := Nat.max (length (s_vars (w_s w))) (S (S j))).
        set (x := <[0%nat := true]> (<[S j := true]> (replicate L false))).
        assert (Hc : covers w x). { unfold covers, nr_variables, x. rewrite !insert_length, replicate_length. lia. }
        pose proof (Hx x Hc) as H1. pose proof (Hx' x Hc) as H2. rewrite <- H1 in H2. unfold x in H2.
        rewrite list_lookup_insert in H2 by (rewrite insert_length, replicate_length; lia).
        rewrite !(list_lookup_insert_ne _ 0%nat) in H2 by done. rewrite list_lookup_insert in H2 by (rewrite replicate_length; lia).
        rewrite list_lookup_insert_ne in H2 by lia. assert (replicate L false !! S i = Some false) as Hr0 by (apply lookup_replicate_2; lia).
        rewrite Hr0 in H2. done.
      + intros q' [->|Hq']%elem_of_cons; [done|by apply Hvn].
      + intros q' [->|Hq']%elem_of_cons; [exists j; split; [lia|apply Hr]|]. destruct (Hhn q' Hq') as (i&?&?). exists i. split; [lia|done]. }
  destruct (Hlist m ltac:(lia)) as (l&Hlen&Hnd&Hvn&_).
  assert (Hl0 : exists q, q ∈ l). { destruct l as [|q l]; [simpl in Hlen; unfold m in Hlen; lia|]. exists q. by left. }
  destruct Hl0 as [q Hql]. destruct (Hvn q Hql) as (Hsq&n&Hn&Hi). destruct (ho_node _ _ _ (i_heap _ _ _ HW) q n Hn Hsq) as (Hlt&_).
  rewrite Hi in Hlt. destruct (lookup_lt_is_Some_2 (s_vars (w_s w)) 0) as [t Ht]; [lia|].
  destruct (i_tab _ _ _ HW _ _ Ht) as (k&Hs&Hk&HT&Hf&Hused&_).
  pose proof (tab_used_ge _ _ _ _ l Hs HT Hnd Hvn) as Hge. pose proof (used_max k _ Hk Hused) as Hle. unfold m in Hlen. lia.
Qed.

(** ** C56: variable numbers 2^41-2 and 2^41-1 are taken for the constants *)
(** partial correctness: what holds if the call returns; no throw *)
Definition part {A} (m : M A) (s : mstate) (Q : A -> mstate -> Prop) : Prop :=
  match m s with Ok a s' => Q a s' | Fail e _ => e <> EThrow end.
Lemma part_bind {A B} (m : M A) (k : A -> M B) s Q : part m s (fun a s' => part (k a) s' Q) -> part (bind m k) s Q.
Proof. unfold part, bind. by destruct (m s). Qed.
Lemma part_mono {A} (m : M A) s (Q Q' : A -> mstate -> Prop) : part m s Q -> (forall a s', Q a s' -> Q' a s') -> part m s Q'.
Proof. unfold part. destruct (m s); auto. Qed.
Lemma part_assert b s (Q : unit -> mstate -> Prop) : Q tt s -> part (assert_ b) s Q.
Proof. unfold part, assert_, liftR, assertR. by destruct (_ || _). Qed.
Lemma part_getN p s (Q : node -> mstate -> Prop) : (forall n, s_heap s !! p = Some n -> Q n s) -> part (getN p) s Q.
Proof. unfold part, getN. destruct (_ !! _); auto. Qed.
Lemma part_modN p f s (Q : unit -> mstate -> Prop) :
  (forall n, s_heap s !! p = Some n -> Q tt (set_s_heap (<[p := f n]> (s_heap s)) s)) -> part (modN p f) s Q.
Proof. intros HQ. apply part_bind, part_getN. intros n Hn. by apply HQ. Qed.
Definition nothrow {A} (r : R A) : Prop := r <> inl EThrow.
Lemma part_liftR {A} (r : R A) s (Q : A -> mstate -> Prop) : nothrow r -> (forall a, r = inr a -> Q a s) -> part (liftR r) s Q.
Proof. unfold part, liftR, nothrow. intros Hr HQ. destruct r; [congruence|by apply HQ]. Qed.
Lemma nothrow_bind {A B} (r : R A) (k : A -> R B) : nothrow r -> (forall a, nothrow (k a)) -> nothrow (bindR r k).
Proof. unfold nothrow. destruct r; simpl; auto. congruence. Qed.
Lemma nothrow_assert b : nothrow (assertR b).
Proof. unfold nothrow, assertR. by destruct (_ || _). Qed.
Lemma nothrow_deref h p : nothrow (derefR h p).
Proof. unfold nothrow, derefR. by destruct (_ !! _). Qed.
Lemma nothrow_fetch t k : nothrow (fetch_node t k).
Proof. apply nothrow_bind; [apply nothrow_assert|]. intros _. unfold nothrow. by destruct (_ !! _). Qed.
Lemma nothrow_base t k : nothrow (base_index t k).
Proof. apply nothrow_bind; [apply nothrow_assert|]. done. Qed.
Lemma nothrow_hash2 h a b : nothrow (hash_code2 h a b).
Proof. do 2 (apply nothrow_bind; [apply nothrow_deref|intros ?]). done. Qed.
Lemma nothrow_hash h p : nothrow (hash_code h p).
Proof. apply nothrow_bind; [apply nothrow_deref|intros ?]. apply nothrow_hash2. Qed.
Lemma nothrow_nfs t k : nothrow (next_free_slot t k).
Proof.
  unfold next_free_slot. generalize (S (N.to_nat (vt_size t))). intros fuel. revert k.
  induction fuel as [|fuel IH]; intros k; [done|]. cbn [next_free_loop].
  apply nothrow_bind; [apply nothrow_base|intros i]. apply nothrow_bind; [apply nothrow_fetch|intros p]. by destruct (_ =? _).
Qed.
Lemma nothrow_store t k p : nothrow (store_node t k p).
Proof. apply nothrow_bind; [apply nothrow_assert|]. intros _. by destruct (_ <? _)%nat. Qed.

Lemma part_reserve_node s : part reserve_node s (fun p s' => s_vars s' = s_vars s).
Proof.
  unfold reserve_node. revert s. generalize 2%nat. intros fuel. induction fuel as [|fuel IH]; intros s; [done|]. cbn [reserve_node_fuel].
  apply part_bind. cbn. destruct (negb _); [apply part_bind, part_getN; intros n _; done|].
  apply part_bind, part_assert, part_bind, part_assert. destruct (_ <? node_page_size); [done|].
  apply part_bind. cbn. apply (part_mono _ _ _ _ (IH _)). done.
Qed.

Lemma last_unique_find s c tm l h v : s_vars s !! N.to_nat v = Some (VTab (Page c (repeat 0 64)) 63 64 0) -> tm = 2%nat -> v < maxvarsize -> l <> h ->
  part (unique_find_fuel tm v l h) s (fun p s' => exists n, s_heap s' !! p = Some n /\ n_idx n = v /\ n_lo n = l /\ n_hi n = h).
Proof.
  intros Hv -> Hm Hlh. cbn [unique_find_fuel]. apply N.eqb_neq in Hlh. rewrite Hlh.
  apply part_bind. unfold part at 1. rewrite (getV_eq _ _ _ Hv). apply part_bind. cbn [part get].
  apply part_bind. apply part_liftR.
  { apply nothrow_bind; [apply nothrow_assert|intros _]. apply nothrow_bind; [apply nothrow_hash2|intros hc].
    unfold vt_size. cbn [vt_mask]. change (N.to_nat (63 + 1)) with 64%nat. cbn [lookup_loop].
    apply nothrow_bind; [apply nothrow_base|intros i]. unfold fetch_node. cbn [vt_mask vt_page pg_slots].
    destruct (assertR _) as [e|] eqn:He; cbn [bindR]; [unfold assertR in He; destruct (_ || _); [done|]; by injection He as <-|].
    destruct (repeat 0 64 !! N.to_nat i) as [q|] eqn:Hq; [|done]. apply repeat_lookup_0 in Hq as ->. done. }
  intros p0 Hp0.
  assert (p0 = 0) as ->.
  { unfold unique_table_lookup in Hp0. destruct (assertR _); [done|]. cbn [bindR] in Hp0. destruct (hash_code2 _ _ _) as [|hc]; [done|].
    cbn [bindR] in Hp0. unfold vt_size in Hp0. cbn [vt_mask] in Hp0. change (N.to_nat (63 + 1)) with 64%nat in Hp0. cbn [lookup_loop] in Hp0.
    destruct (base_index _ _) as [|i]; [done|]. cbn [bindR] in Hp0. unfold fetch_node in Hp0. cbn [vt_mask vt_page pg_slots] in Hp0.
    destruct (assertR _); [done|]. cbn [bindR] in Hp0. destruct (repeat 0 64 !! N.to_nat i) as [q|] eqn:Hq; [|done].
    apply repeat_lookup_0 in Hq as ->. cbn in Hp0. by injection Hp0. }
  cbn [N.eqb negb vt_timer]. apply part_bind. unfold part at 1, setV, set_vars. change ((0 + 1) mod 1024 =? 0) with false. cbv iota.
  apply part_bind. unfold part at 1. erewrite getV_eq; [|cbn [s_vars]; apply list_lookup_insert; by eapply lookup_lt_Some].
  change (over_half_full _) with false. cbv iota. apply part_bind. cbn [part ret]. apply part_bind.
  eapply part_mono; [apply part_reserve_node|]. cbn [s_vars]. intros p s1 Hs1.
  apply part_bind. unfold init_new_node. apply part_bind, part_assert. apply part_bind, part_modN. intros n1 _.
  apply part_bind, part_modN. intros n2 _. apply part_bind. cbn [part get]. apply part_bind. cbn [part set_rnd]. cbn [part set_heap s_heap].
  set (s2 := MState _ _ _ _ _ _).
  assert (H2 : s_heap s2 !! p = Some (Node l h (v mod maxvarsize) (e_rand (s_rnd s1)) false 0)) by (apply lookup_insert).
  clearbody s2. rewrite N.mod_small in H2 by done.
  apply part_bind. unfold part at 1, getV. destruct (s_vars s2 !! _) as [t|]; [|done].
  apply part_bind, part_assert. apply part_bind. cbn [part get].
  apply part_bind, part_liftR; [apply nothrow_hash|intros hc _]. apply part_bind, part_liftR; [apply nothrow_nfs|intros k _].
  apply part_bind, part_liftR; [apply nothrow_store|intros t' _]. apply part_bind. cbn [part setV set_vars ret].
  unfold part. cbn. eauto.
Qed.

Lemma last_projection s : nr_variables s = topsink_index ->
  part (projection topsink_index) s (fun p s' => exists n, s_heap s' !! p = Some n /\ n_idx n = topsink_index /\ n_lo n = botsink /\ n_hi n = topsink).
Proof.
  intros Hnv. unfold projection. apply part_bind. unfold ensure_var. apply part_bind. cbn [part get]. rewrite Hnv.
  replace (N.to_nat (topsink_index + 1 - topsink_index)) with 1%nat by lia. cbn [add_variables]. apply part_bind.
  unfold add_variable. apply part_bind. cbn [part get]. apply part_bind, part_assert. apply part_bind.
  unfold TableModel.new_var. apply part_bind. unfold reserve_page. apply part_bind. cbn [part get].
  destruct (match avail 64 (s_pcs s) with [] => _ | l => _ end) as [[|c rest] blk]; [done|].
  apply part_bind. cbn [part set_pcs]. destruct (pi_cap c <? 64); [done|]. cbn [part ret].
  apply part_bind. cbn [part set_vars s_vars ret]. cbn [part ret]. apply part_bind. cbn [part get].
  apply part_bind, part_assert. unfold unique_find_v. eapply last_unique_find; [|done|done|apply bot_ne_top].
  cbn [s_vars]. unfold nr_variables in Hnv. rewrite lookup_app_r by lia. replace (N.to_nat topsink_index - length (s_vars s))%nat with 0%nat by lia. done.
Qed.

Lemma many_vars n : N.of_nat n <= topsink_index -> exists w, reach or_mode w /\ nr_variables (w_s w) = N.of_nat n.
Proof.
  induction n as [|n IH]; intros Hn; [exists w_init; split; [constructor|done]|].
  destruct IH as (w&HR&Hw); [lia|]. destruct (C06_add_variable HE or_mode w HR) as (w'&Hs&Hnv&_); [lia|].
  exists w'. split; [|rewrite Hnv, Hw; lia]. eapply reach_step; [done| |done]. simpl. lia.
Qed.

(** a manager with 2^41-2 variables can be built, and there projection(2^41-2) is not the literal *)
Theorem C56_last_index_refuted : exists w, reach or_mode w /\ nr_variables (w_s w) = topsink_index /\
  ~ yields w (OProj topsink_index) (fun x => default false (x !! N.to_nat topsink_index)).
Proof.
  destruct (many_vars (N.to_nat topsink_index)) as (w&HR&Hnv); [lia|]. rewrite N2Nat.id in Hnv.
  exists w. split_and!; [done|done|]. intros Hy. unfold yields in Hy. cbn [step] in Hy. unfold newh in Hy.
  pose proof (last_projection _ Hnv) as Hp. unfold part in Hp.
  destruct (projection topsink_index (w_s w)) as [p s|e s]; [|destruct e; done].
  destruct Hp as (n&Hn&Hi&Hlo&Hhi).
  destruct (ref_acquire p s) as [[] s'|e s'] eqn:Hra.
  2:{ unfold ref_acquire, xref_inc, modN, bind, getN in Hra. destruct (p =? 0); [done|]. by rewrite Hn in Hra. }
  assert (Hn' : exists n', s_heap s' !! p = Some n' /\ n_idx n' = topsink_index /\ n_lo n' = botsink /\ n_hi n' = topsink).
  { unfold ref_acquire in Hra. destruct (p =? 0); [injection Hra as <-; eauto|]. rewrite (xref_inc_eq _ _ _ Hn) in Hra. injection Hra as <-.
    cbn [set_s_heap s_heap]. rewrite inc_lookup, decide_True, Hn by done. cbn. eauto. }
  clear n Hn Hi Hlo Hhi. destruct Hn' as (n&Hn&Hi&Hlo&Hhi). cbn [ensures] in Hy. destruct Hy as (q&[= <-]&Hh&He).
  set (w' := W s' _) in *. set (x := replicate (N.to_nat (nr_variables s' + topsink_index + 1)) false).
  specialize (He x). assert (Hx : x !! N.to_nat topsink_index = Some false) by (apply lookup_replicate_2; lia).
  cbv beta in He. rewrite Hx in He. cbn [default] in He. feed specialize He.
  { unfold covers, x, w'. cbn [w_s]. rewrite replicate_length. lia. }
  unfold val in He. cbn [step] in He. unfold with1 in He. rewrite Hh in He. unfold query, evaluate, with_fuel, fuel_of in He. cbn [w_s w'] in He.
  replace (6 * size (s_heap s') + 12)%nat with (S (6 * size (s_heap s') + 11)) in He by lia. cbn [evaluate_fuel] in He.
  unfold is_botsink, is_topsink, bind, getN in He. rewrite Hn in He. unfold assert_, liftR, assertR in He.
  rewrite Hi in He. rewrite Hlo, Hhi in He.
  change (topsink_index =? botsink_index) with false in He. change (topsink_index =? topsink_index) with true in He.
  assert (Hne : botsink =? topsink = false) by (apply N.eqb_neq, bot_ne_top). rewrite Hne in He. cbn in He.
  destruct e_ndebug; cbn in He; [|done]. rewrite Hn in He. rewrite Hi, Hlo, Hhi, Hne in He. cbn in He. done.
Qed.
(** all smaller variable numbers work *)
Theorem C56_below md w v : reach md w -> v < 2 ^ 41 - 2 -> yields w (OProj v) (fun x => default false (x !! N.to_nat v)).
Proof. intros HR Hv. by apply (C06_projection HE md). Qed.
End cap.
