(** * Trav.v -- traversals: nr_nodes, nodes_postorder, nodes_bfs, variables, print, unmark *)
From Verif Require Export Nary.
Open Scope N_scope.

(** inner nodes reachable from [p] along low/high arcs *)
Inductive reach_in {E : Env} (h : heap) : ptr -> ptr -> Prop :=
| ri_refl p n : ~ sink p -> h !! p = Some n -> reach_in h p p
| ri_lo p n q : ~ sink p -> h !! p = Some n -> reach_in h (n_lo n) q -> reach_in h p q
| ri_hi p n q : ~ sink p -> h !! p = Some n -> reach_in h (n_hi n) q -> reach_in h p q.

Section trav.
Context {E : Env}.

Definition markh (S : gset N) (h : heap) : heap :=
  map_imap (fun p n => Some (if decide (p ∈ S) then with_mark true n else n)) h.
Definition mk (S : gset N) (s : mstate) : mstate := set_s_heap (markh S (s_heap s)) s.

Lemma markh_lookup S h p : markh S h !! p = (fun n => if decide (p ∈ S) then with_mark true n else n) <$> h !! p.
Proof. unfold markh. rewrite map_lookup_imap. by destruct (h !! p). Qed.
Lemma markh_empty h : markh ∅ h = h.
Proof. apply map_eq. intros p. rewrite markh_lookup. destruct (h !! p); simpl; [|done]. case_decide; [set_solver|done]. Qed.
Lemma mk_empty s : mk ∅ s = s.
Proof. unfold mk, set_s_heap. rewrite markh_empty. by destruct s. Qed.
Lemma markh_size S h : size (markh S h) = size h.
Proof.
  rewrite <- !(size_dom (D := gset N)). f_equal. apply set_eq. intros p. rewrite !elem_of_dom, markh_lookup.
  by rewrite fmap_is_Some.
Qed.
Lemma mk_fuel S s : fuel_of (mk S s) = fuel_of s.
Proof. unfold fuel_of. simpl. by rewrite markh_size. Qed.
Lemma markh_add S h p n : h !! p = Some n -> 
  <[p := with_mark true (if decide (p ∈ S) then with_mark true n else n)]> (markh S h) = markh ({[p]} ∪ S) h.
Proof.
  intros Hp. apply map_eq. intros q. destruct (decide (q = p)) as [->|Hne].
  - rewrite lookup_insert, markh_lookup, Hp. simpl. rewrite (decide_True (P := p ∈ {[p]} ∪ S)) by set_solver. f_equal. case_decide; done.
  - rewrite lookup_insert_ne by done. rewrite !markh_lookup. destruct (h !! q); simpl; [|done]. f_equal.
    destruct (decide (q ∈ S)), (decide (q ∈ {[p]} ∪ S)); set_solver.
Qed.
Lemma markh_del S h p n : h !! p = Some n -> n_mark n = false ->
  <[p := with_mark false (if decide (p ∈ S) then with_mark true n else n)]> (markh S h) = markh (S ∖ {[p]}) h.
Proof.
  intros Hp Hm. apply map_eq. intros q. destruct (decide (q = p)) as [->|Hne].
  - rewrite lookup_insert, markh_lookup, Hp. simpl. rewrite (decide_False (P := p ∈ S ∖ {[p]})) by set_solver. f_equal.
    destruct n; simpl in *; subst. case_decide; done.
  - rewrite lookup_insert_ne by done. rewrite !markh_lookup. destruct (h !! q); simpl; [|done]. f_equal.
    destruct (decide (q ∈ S)), (decide (q ∈ S ∖ {[p]})); set_solver.
Qed.

(** ** reading the marked heap *)
Section st.
Context (s : mstate).
Notation h := (s_heap s).

Lemma mk_getN S p n : h !! p = Some n ->
  getN p (mk S s) = Ok (if decide (p ∈ S) then with_mark true n else n) (mk S s).
Proof. intros Hp. apply getN_eq. simpl. rewrite markh_lookup. by rewrite Hp. Qed.

Lemma is_terminal_raw s0 p n : s_heap s0 !! p = Some n -> is_terminal p s0 =
  match assertR (Bool.eqb ((n_idx n =? topsink_index) || (n_idx n =? botsink_index)) (n_lo n =? n_hi n)) with
  | inl e => Fail e s0 | inr _ => Ok ((n_idx n =? topsink_index) || (n_idx n =? botsink_index)) s0 end.
Proof.
  intros Hn. unfold is_terminal, is_topsink, is_botsink, bind. rewrite (getN_eq _ _ _ Hn). unfold assert_, liftR.
  destruct (assertR _) eqn:Ha; [done|]. unfold ret. destruct (n_idx n =? topsink_index) eqn:Hi; [done|].
  rewrite (getN_eq _ _ _ Hn). rewrite Hi. simpl in *. by rewrite Ha.
Qed.
Lemma mk_mod_mark S p n : h !! p = Some n -> 
  modN p (with_mark true) (mk S s) = Ok tt (mk ({[p]} ∪ S) s).
Proof.
  intros Hp. unfold modN. rewrite (bind_eq _ _ _ _ _ (mk_getN S p n Hp)). unfold set_heap, mk, set_s_heap. simpl.
  by rewrite (markh_add S _ p n Hp).
Qed.
Lemma mk_mod_unmark S p n : h !! p = Some n -> n_mark n = false ->
  modN p (with_mark false) (mk S s) = Ok tt (mk (S ∖ {[p]}) s).
Proof.
  intros Hp Hm. unfold modN. rewrite (bind_eq _ _ _ _ _ (mk_getN S p n Hp)). unfold set_heap, mk, set_s_heap. simpl.
  by rewrite (markh_del S _ p n Hp Hm).
Qed.

(** ** depth-first search *)
Inductive Dfs : gset N -> ptr -> list ptr -> list ptr -> gset N -> Prop :=
| dfs_skip S p : sink p \/ p ∈ S -> Dfs S p [] [] S
| dfs_visit S p n pre1 post1 S1 pre2 post2 S2 : ~ sink p -> p ∉ S -> h !! p = Some n ->
    Dfs ({[p]} ∪ S) (n_lo n) pre1 post1 S1 -> Dfs S1 (n_hi n) pre2 post2 S2 ->
    Dfs S p (p :: pre1 ++ pre2) (post1 ++ post2 ++ [p]) S2.

Lemma dfs_ex p t : repr h p t -> forall S, exists pre post S', Dfs S p pre post S'.
Proof.
  induction 1 as [| |p n tl th Hs Hp Hl IHl Hh IHh]; intros S.
  - do 3 eexists. apply dfs_skip. left. by left.
  - do 3 eexists. apply dfs_skip. left. by right.
  - destruct (decide (p ∈ S)) as [Hin|Hin]; [do 3 eexists; apply dfs_skip; by right|].
    destruct (IHl ({[p]} ∪ S)) as (pre1&post1&S1&H1). destruct (IHh S1) as (pre2&post2&S2&H2).
    do 3 eexists. eapply dfs_visit; eauto.
Qed.

Lemma dfs_set S p pre post S' : Dfs S p pre post S' ->
  S' = list_to_set pre ∪ S /\ NoDup pre /\ (forall q, q ∈ pre -> q ∉ S) /\ pre ≡ₚ post.
Proof.
  induction 1 as [S p Hsk|S p n pre1 post1 S1 pre2 post2 S2 Hs Hin Hp H1 IH1 H2 IH2].
  - split_and!; [set_solver|constructor|intros q Hq; by apply elem_of_nil in Hq|done].
  - destruct IH1 as (HS1&Hnd1&Hd1&Hp1). destruct IH2 as (HS2&Hnd2&Hd2&Hp2). split_and!.
    + rewrite HS2, HS1. rewrite list_to_set_cons, list_to_set_app_L. set_solver.
    + apply NoDup_cons. split.
      * rewrite elem_of_app. intros [Hq|Hq]; [apply Hd1 in Hq; set_solver|apply Hd2 in Hq; set_solver].
      * apply NoDup_app. split_and!; auto. intros q Hq1 Hq2. apply Hd2 in Hq2. apply Hq2. rewrite HS1.
        apply elem_of_union. left. by apply elem_of_list_to_set.
    + intros q. rewrite elem_of_cons, elem_of_app. intros [->|[Hq|Hq]]; [done| |].
      * apply Hd1 in Hq. set_solver.
      * apply Hd2 in Hq. set_solver.
    + rewrite Hp1, Hp2. rewrite app_assoc. by rewrite <- Permutation_cons_append.
Qed.

Lemma dfs_root S p pre post S' : Dfs S p pre post S' -> sink p \/ p ∈ S'.
Proof.
  destruct 1 as [S p Hsk|S p n pre1 post1 S1 pre2 post2 S2 Hs Hin Hp H1 H2]; [done|]. right.
  apply dfs_set in H1 as (->&_). apply dfs_set in H2 as (->&_). set_solver.
Qed.

Definition closed (D S : gset N) : Prop :=
  forall q n, q ∈ D -> h !! q = Some n -> (sink (n_lo n) \/ n_lo n ∈ S) /\ (sink (n_hi n) \/ n_hi n ∈ S).

Lemma dfs_closed S p pre post S' : Dfs S p pre post S' -> closed (list_to_set pre) S'.
Proof.
  induction 1 as [S p Hsk|S p n pre1 post1 S1 pre2 post2 S2 Hs Hin Hp H1 IH1 H2 IH2].
  - intros q n Hq. set_solver.
  - pose proof (dfs_set _ _ _ _ _ H2) as (HS2&_). pose proof (dfs_root _ _ _ _ _ H1) as Hr1.
    pose proof (dfs_root _ _ _ _ _ H2) as Hr2.
    assert (Hsub : forall x, x ∈ S1 -> x ∈ S2) by (rewrite HS2; set_solver).
    intros q m Hq Hm. rewrite list_to_set_cons, list_to_set_app_L in Hq.
    apply elem_of_union in Hq as [Hq|Hq]; [|apply elem_of_union in Hq as [Hq|Hq]].
    + apply elem_of_singleton in Hq as ->. simplify_eq. split; [naive_solver|done].
    + destruct (IH1 q m Hq Hm) as [Ha Hb]. split; naive_solver.
    + by apply (IH2 q m).
Qed.

Lemma dfs_reach S p pre post S' q : Dfs S p pre post S' -> q ∈ pre -> reach_in h p q.
Proof.
  induction 1 as [S p Hsk|S p n pre1 post1 S1 pre2 post2 S2 Hs Hin Hp H1 IH1 H2 IH2].
  - intros Hq. by apply elem_of_nil in Hq.
  - rewrite elem_of_cons, elem_of_app. intros [->|[Hq|Hq]].
    + by eapply ri_refl.
    + eapply ri_lo; eauto.
    + eapply ri_hi; eauto.
Qed.

Lemma reach_closed p q (S : gset N) : reach_in h p q -> p ∈ S -> closed S S -> q ∈ S.
Proof.
  induction 1 as [p n Hs Hp|p n q Hs Hp Hr IH|p n q Hs Hp Hr IH]; intros Hin Hc; [done| |].
  - destruct (Hc p n Hin Hp) as [[Hk|Hk] _]; [|auto]. exfalso. by destruct Hr.
  - destruct (Hc p n Hin Hp) as [_ [Hk|Hk]]; [|auto]. exfalso. by destruct Hr.
Qed.

Lemma dfs_all p pre post S' : ~ sink p -> Dfs ∅ p pre post S' ->
  S' = list_to_set pre /\ NoDup pre /\ pre ≡ₚ post /\ (forall q, q ∈ pre <-> reach_in h p q) /\ closed S' S'.
Proof.
  intros Hs Hd. pose proof (dfs_set _ _ _ _ _ Hd) as (HS&Hnd&_&Hpp).
  assert (HS' : S' = list_to_set pre) by set_solver. clear HS. subst S'.
  pose proof (dfs_closed _ _ _ _ _ Hd) as Hc. split_and!; auto.
  intros q. split; [by eapply dfs_reach|]. intros Hq.
  apply (elem_of_list_to_set (C := gset N)). eapply reach_closed; eauto.
  destruct (dfs_root _ _ _ _ _ Hd) as [?|?]; done.
Qed.

Lemma dfs_nonsink S p pre post S' q : Dfs S p pre post S' -> q ∈ pre -> ~ sink q.
Proof. intros Hd Hq. eapply dfs_reach in Hq; eauto. clear -Hq. by induction Hq. Qed.

(** children are listed before parents *)
Lemma dfs_ht S p pre post S' t : Dfs S p pre post S' -> repr h p t ->
  forall q, q ∈ post -> exists tq, repr h q tq /\ (ht tq <= ht t)%nat.
Proof.
  intros Hd. revert t.
  induction Hd as [S p Hsk|S p n pre1 post1 S1 pre2 post2 S2 Hs Hin Hp H1 IH1 H2 IH2]; intros t Hr q Hq.
  - by apply elem_of_nil in Hq.
  - destruct (repr_nonsink _ _ _ Hr Hs) as (n'&tl&th&Hn'&->&Hl&Hh). simplify_eq.
    rewrite !elem_of_app, elem_of_list_singleton in Hq. destruct Hq as [Hq|[Hq| ->]].
    + destruct (IH1 _ Hl q Hq) as (tq&?&?). exists tq. split; [done|simpl; lia].
    + destruct (IH2 _ Hh q Hq) as (tq&?&?). exists tq. split; [done|simpl; lia].
    + eauto.
Qed.

Lemma dfs_post_order S p pre post S' t : Dfs S p pre post S' -> repr h p t ->
  forall a q b n, post = a ++ q :: b -> h !! q = Some n ->
   (sink (n_lo n) \/ n_lo n ∈ a \/ n_lo n ∈ S) /\ (sink (n_hi n) \/ n_hi n ∈ a \/ n_hi n ∈ S).
Proof.
  intros Hd. revert t.
  induction Hd as [S p Hsk|S p n pre1 post1 S1 pre2 post2 S2 Hs Hin Hp H1 IH1 H2 IH2]; intros t Hr a q b m Hpost Hm.
  { by destruct a. }
  destruct (repr_nonsink _ _ _ Hr Hs) as (n'&tl&th&Hn'&->&Hl&Hh). simplify_eq.
  pose proof (dfs_set _ _ _ _ _ H1) as (HS1&_&_&Hpp1). pose proof (dfs_set _ _ _ _ _ H2) as (HS2&_&_&Hpp2).
  (* a node below p does not have p as a child *)
  assert (Hacyc : forall x mx, x ∈ post1 \/ x ∈ post2 -> h !! x = Some mx -> n_lo mx <> p /\ n_hi mx <> p).
  { intros x mx Hx Hmx. 
    assert (exists tq, repr h x tq /\ (ht tq <= Nat.max (ht tl) (ht th))%nat) as (tq&Htq&Hle).
    { destruct Hx as [Hx|Hx]; [destruct (dfs_ht _ _ _ _ _ _ H1 Hl x Hx) as (tq&?&?)|destruct (dfs_ht _ _ _ _ _ _ H2 Hh x Hx) as (tq&?&?)];
        exists tq; split; auto; lia. }
    assert (Hsx : ~ sink x).
    { destruct Hx as [Hx|Hx]; [rewrite <- Hpp1 in Hx; eapply dfs_nonsink in Hx; eauto|rewrite <- Hpp2 in Hx; eapply dfs_nonsink in Hx; eauto]. }
    destruct (repr_nonsink _ _ _ Htq Hsx) as (n'&tl'&th'&Hn''&->&Hl'&Hh'). simplify_eq. simpl in Hle.
    split; intros Heq; subst p.
    - pose proof (repr_fun _ _ _ _ Hl' Hr). subst tl'. simpl in Hle. lia.
    - pose proof (repr_fun _ _ _ _ Hh' Hr). subst th'. simpl in Hle. lia. }
  destruct (decide (q = p /\ b = [])) as [[-> ->]|Hnot].
  - (* the node itself *)
    assert (n = m) as -> by congruence. rewrite app_assoc in Hpost. apply app_inj_tail in Hpost as [<- _].
    pose proof (dfs_root _ _ _ _ _ H1) as Hr1. pose proof (dfs_root _ _ _ _ _ H2) as Hr2.
    assert (Hlo : n_lo m <> p) by (intros Heq; rewrite Heq in Hl; pose proof (repr_fun _ _ _ _ Hl Hr) as He; apply (f_equal ht) in He; simpl in He; lia).
    assert (Hhi : n_hi m <> p) by (intros Heq; rewrite Heq in Hh; pose proof (repr_fun _ _ _ _ Hh Hr) as He; apply (f_equal ht) in He; simpl in He; lia).
    rewrite !elem_of_app, <- Hpp1, <- Hpp2. split.
    + destruct Hr1 as [Hr1|Hr1]; [auto|]. rewrite HS1 in Hr1. apply elem_of_union in Hr1 as [Hr1|Hr1].
      * apply elem_of_list_to_set in Hr1. auto.
      * apply elem_of_union in Hr1 as [Hr1|Hr1]; [by apply elem_of_singleton in Hr1|auto].
    + destruct Hr2 as [Hr2|Hr2]; [auto|]. rewrite HS2, HS1 in Hr2. apply elem_of_union in Hr2 as [Hr2|Hr2].
      * apply elem_of_list_to_set in Hr2. auto.
      * apply elem_of_union in Hr2 as [Hr2|Hr2]; [apply elem_of_list_to_set in Hr2; auto|].
        apply elem_of_union in Hr2 as [Hr2|Hr2]; [by apply elem_of_singleton in Hr2|auto].
  - assert (exists b', b = b' ++ [p] /\ post1 ++ post2 = a ++ q :: b') as (b'&->&Heq).
    { destruct (exists_last (l := q :: b)) as (b'&x&Hb'); [done|]. rewrite Hb' in Hpost.
      rewrite !app_assoc in Hpost. apply app_inj_tail in Hpost as [Hpost <-].
      destruct b' as [|q' b'].
      - injection Hb' as -> ->. exfalso. by apply Hnot.
      - injection Hb' as -> ->. exists b'. done. }
    assert (Hsplit : (exists c, post1 = a ++ q :: c) \/ exists c, a = post1 ++ c /\ post2 = c ++ q :: b').
    { apply app_eq_inv in Heq as [(k&Hk1&Hk2)|(k&Hk1&Hk2)].
      - destruct k as [|q' k].
        + right. exists []. rewrite app_nil_r in *. subst. done.
        + left. injection Hk2 as Hq' Hk2. subst q'. eauto.
      - right. exists k. done. }
    destruct Hsplit as [(c&Hc)|(c&->&Hc)].
    + destruct (IH1 _ Hl a q c m Hc Hm) as [Ha Hb]. destruct (Hacyc q m) as [Hx Hy]; auto.
      { left. rewrite Hc. apply elem_of_app. right. by left. }
      rewrite !elem_of_union, !elem_of_singleton in Ha, Hb. tauto.
    + destruct (IH2 _ Hh c q b' m Hc Hm) as [Ha Hb]. destruct (Hacyc q m) as [Hx Hy]; auto.
      { right. rewrite Hc. apply elem_of_app. right. by left. }
      assert (Hin1 : forall x, x ∈ S1 -> x <> p -> x ∈ post1 \/ x ∈ S).
      { intros x Hz Hxp. rewrite HS1 in Hz. apply elem_of_union in Hz as [Hz|Hz].
        - apply elem_of_list_to_set in Hz. rewrite Hpp1 in Hz. auto.
        - apply elem_of_union in Hz as [Hz|Hz]; [by apply elem_of_singleton in Hz|auto]. }
      rewrite !elem_of_app. split.
      * destruct Ha as [Ha|[Ha|Ha]]; auto. destruct (Hin1 _ Ha Hx); auto.
      * destruct Hb as [Hb|[Hb|Hb]]; auto. destruct (Hin1 _ Hb Hy); auto.
Qed.

Lemma dfs_nil S p post S' : Dfs S p [] post S' -> S' = S /\ post = [].
Proof. inversion 1; subst; done. Qed.


(** a traversal whose result is an accumulator: [fpre] is what a visited node contributes before its
    children, [fpost] after *)
Definition gtrav {A} (fpre fpost : ptr -> node -> A -> A) :=
  fix go (fuel : nat) (p : ptr) (acc : A) : M A :=
  match fuel with
  | O => fail ELoop
  | Datatypes.S fuel =>
    let* t := is_terminal p in if t then ret acc else
    let* n := getN p in
    assert_ (negb (n_mark n)) ;;*
    modN p (with_mark true) ;;*
    (let acc := fpre p n acc in
    let* lm := marked (n_lo n) in
    let* acc := (if lm then ret acc else go fuel (n_lo n) acc) in
    let* hm := marked (n_hi n) in
    let* acc := (if hm then ret acc else go fuel (n_hi n) acc) in
    ret (fpost p n acc))
  end.

(** pure version *)
Inductive Acc {A} (fpre fpost : ptr -> node -> A -> A) : gset N -> ptr -> A -> A -> gset N -> Prop :=
| acc_skip S p a : sink p \/ p ∈ S -> Acc fpre fpost S p a a S
| acc_visit S p n S1 S2 a a1 a2 : ~ sink p -> p ∉ S -> h !! p = Some n ->
    Acc fpre fpost ({[p]} ∪ S) (n_lo n) (fpre p n a) a1 S1 -> Acc fpre fpost S1 (n_hi n) a1 a2 S2 ->
    Acc fpre fpost S p a (fpost p n a2) S2.

Definition core_only {A} (f : ptr -> node -> A -> A) := forall p n m a,
  n_lo m = n_lo n -> n_hi m = n_hi n -> n_idx m = n_idx n -> f p m a = f p n a.

(** the four traversals *)
Lemma dfs_acc_pre {A} (f : ptr -> node -> list A) S p pre post S' : Dfs S p pre post S' -> forall a,
  Acc (fun p n a => a ++ f p n) (fun _ _ a => a) S p a (a ++ concat (map (fun q => match h !! q with Some n => f q n | None => [] end) pre)) S'.
Proof.
  induction 1 as [S p Hsk|S p n pre1 post1 S1 pre2 post2 S2 Hs Hin Hp H1 IH1 H2 IH2]; intros a.
  - simpl. rewrite app_nil_r. by apply acc_skip.
  - simpl. rewrite Hp, map_app, concat_app, !app_assoc.
    exact (acc_visit (fun p n a => a ++ f p n) (fun _ _ a => a) S p n S1 S2 a _ _ Hs Hin Hp (IH1 _) (IH2 _)).
Qed.
Lemma dfs_acc_post S p pre post S' : Dfs S p pre post S' -> forall a,
  Acc (fun _ _ a => a) (fun p _ a => a ++ [p]) S p a (a ++ post) S'.
Proof.
  induction 1 as [S p Hsk|S p n pre1 post1 S1 pre2 post2 S2 Hs Hin Hp H1 IH1 H2 IH2]; intros a.
  - rewrite app_nil_r. by apply acc_skip.
  - rewrite !app_assoc. exact (acc_visit (fun _ _ a => a) (fun p _ a => a ++ [p]) S p n S1 S2 a _ _ Hs Hin Hp (IH1 _) (IH2 _)).
Qed.


Lemma bind_cong {A B} (m m' : M A) (k k' : A -> M B) s0 : m s0 = m' s0 -> (forall a s', k a s' = k' a s') -> bind m k s0 = bind m' k' s0.
Proof. intros Hm Hk. unfold bind. rewrite Hm. destruct (m' s0); auto. Qed.
Lemma bind_ret_id {A} (m : M A) s0 : bind m (fun a => ret a) s0 = m s0.
Proof. unfold bind. by destruct (m s0). Qed.

Lemma postorder_gtrav fuel : forall p acc s0,
  postorder_impl fuel p acc s0 = gtrav (fun _ _ a => a) (fun p _ a => a ++ [p]) fuel p acc s0.
Proof.
  induction fuel as [|fuel IH]; intros p acc s0; [done|]. simpl.
  apply bind_cong; [done|]. intros [] s1; [done|]. do 3 (apply bind_cong; [done|]; intros ? ?).
  apply bind_cong; [done|]. intros b ?. apply bind_cong; [by destruct b|]. intros ? ?.
  apply bind_cong; [done|]. intros c ?. apply bind_cong; [by destruct c|]. done.
Qed.
Lemma variables_gtrav fuel : forall p acc s0,
  variables_impl fuel p acc s0 = gtrav (fun _ n a => a ++ [n_idx n]) (fun _ _ a => a) fuel p acc s0.
Proof.
  induction fuel as [|fuel IH]; intros p acc s0; [done|]. simpl.
  apply bind_cong; [done|]. intros [] s1; [done|]. do 3 (apply bind_cong; [done|]; intros ? ?).
  apply bind_cong; [done|]. intros b ?. apply bind_cong; [by destruct b|]. intros ? ?.
  apply bind_cong; [done|]. intros c ?. rewrite bind_ret_id. by destruct c.
Qed.
Lemma print_gtrav fuel : forall p acc s0,
  print_rec fuel p acc s0 = gtrav (fun p n a => a ++ [(p, n_lo n, false); (p, n_hi n, true)]) (fun _ _ a => a) fuel p acc s0.
Proof.
  induction fuel as [|fuel IH]; intros p acc s0; [done|]. simpl.
  apply bind_cong; [done|]. intros [] s1; [done|]. do 3 (apply bind_cong; [done|]; intros ? ?).
  apply bind_cong; [done|]. intros b ?. apply bind_cong; [by destruct b|]. intros ? ?.
  apply bind_cong; [done|]. intros c ?. rewrite bind_ret_id. by destruct c.
Qed.

(** ** unmark *)
Inductive Unm : gset N -> ptr -> gset N -> Prop :=
| unm_skip S p : sink p \/ p ∉ S -> Unm S p S
| unm_visit S p n S1 S2 : ~ sink p -> p ∈ S -> h !! p = Some n ->
    Unm (S ∖ {[p]}) (n_lo n) S1 -> Unm S1 (n_hi n) S2 -> Unm S p S2.
Lemma unm_ex p t : repr h p t -> forall S, exists S', Unm S p S'.
Proof.
  induction 1 as [| |p n tl th Hs Hp Hl IHl Hh IHh]; intros S.
  - eexists. apply unm_skip. left. by left.
  - eexists. apply unm_skip. left. by right.
  - destruct (decide (p ∈ S)) as [Hin|Hin]; [|eexists; apply unm_skip; by right].
    destruct (IHl (S ∖ {[p]})) as (S1&H1). destruct (IHh S1) as (S2&H2). eexists. eapply unm_visit; eauto.
Qed.
Lemma unm_sub S p S' : Unm S p S' -> S' ⊆ S.
Proof. induction 1; set_solver. Qed.
Lemma unm_root S p S' : Unm S p S' -> sink p \/ p ∉ S'.
Proof.
  destruct 1 as [S p Hsk|S p n S1 S2 Hs Hin Hp H1 H2]; [done|]. right.
  apply unm_sub in H1. apply unm_sub in H2. set_solver.
Qed.
Lemma unm_closed S p S' : Unm S p S' -> forall q n, q ∈ S -> q ∉ S' -> h !! q = Some n ->
  (sink (n_lo n) \/ n_lo n ∉ S') /\ (sink (n_hi n) \/ n_hi n ∉ S').
Proof.
  induction 1 as [S p Hsk|S p n S1 S2 Hs Hin Hp H1 IH1 H2 IH2]; intros q m Hq Hq' Hm; [done|].
  pose proof (unm_sub _ _ _ H2) as Hsub. pose proof (unm_root _ _ _ H1) as Hr1. pose proof (unm_root _ _ _ H2) as Hr2.
  destruct (decide (q ∈ S1)) as [Hq1|Hq1]; [by apply (IH2 q m)|].
  destruct (decide (q = p)) as [->|Hne].
  - simplify_eq. split; [|done]. destruct Hr1; [by left|right; set_solver].
  - destruct (IH1 q m) as [Ha Hb]; auto; [set_solver|]. split.
    + destruct Ha; [by left|right; set_solver].
    + destruct Hb; [by left|right; set_solver].
Qed.
Lemma unm_all p S S' : Unm S p S' -> ~ sink p -> p ∈ S -> closed S S -> (forall q, q ∈ S -> reach_in h p q) -> S' = ∅.
Proof.
  intros Hu Hs Hp Hc Hr. pose proof (unm_sub _ _ _ Hu) as Hsub. pose proof (unm_root _ _ _ Hu) as Hroot.
  assert (Hcl : closed (S ∖ S') (S ∖ S')).
  { intros q n Hq Hn. apply elem_of_difference in Hq as [Hq1 Hq2].
    destruct (unm_closed _ _ _ Hu q n Hq1 Hq2 Hn) as [Ha Hb]. destruct (Hc q n Hq1 Hn) as [Ha' Hb'].
    split; [destruct Ha, Ha'|destruct Hb, Hb']; auto; right; by apply elem_of_difference. }
  apply set_eq. intros q. split; [|set_solver]. intros Hq. exfalso.
  assert (q ∈ S ∖ S'); [|set_solver]. eapply reach_closed; [by apply Hr, Hsub| |done].
  destruct Hroot; [done|]. by apply elem_of_difference.
Qed.

(** ** results of the queries *)
(** the inner nodes reachable from [p], each once *)
Definition lists_reach (p : ptr) (l : list ptr) : Prop := NoDup l /\ forall q, q ∈ l <-> reach_in h p q.

Lemma lists_reach_len p l l' : lists_reach p l -> lists_reach p l' -> length l = length l'.
Proof.
  intros [Hn Hl] [Hn' Hl']. apply Permutation_length, NoDup_Permutation; auto. intros q. by rewrite Hl, Hl'.
Qed.

(** children before parents *)
Definition bottom_up (l : list ptr) : Prop := forall a q b n, l = a ++ q :: b -> h !! q = Some n ->
   (sink (n_lo n) \/ n_lo n ∈ a) /\ (sink (n_hi n) \/ n_hi n ∈ a).


Context (md : mode) (H : ptr -> Z) (HI : Inv md H s).

Lemma mk_terminal S p t : repr h p t -> is_terminal p (mk S s) = Ok (bool_decide (sink p)) (mk S s).
Proof.
  intros Hr. pose proof (is_terminal_eq _ _ _ _ _ HI Hr) as Ht.
  destruct (repr_in _ _ _ _ _ (i_heap _ _ _ HI) Hr) as [n Hn]. 
  rewrite (is_terminal_raw s p n Hn) in Ht.
  rewrite (is_terminal_raw (mk S s) p (if decide (p ∈ S) then with_mark true n else n)).
  2:{ simpl. rewrite markh_lookup. by rewrite Hn. }
  destruct (decide (p ∈ S)); simpl; destruct (assertR _); try done; by injection Ht as ->.
Qed.

(** ** the recursive traversals compute the depth-first search *)
Lemma child_marked S q t : repr h q t -> exists b, marked q (mk S s) = Ok b (mk S s) /\ (b = false -> q ∉ S) /\ (~ sink q -> q ∉ S -> b = false).
Proof.
  intros Hr. destruct (repr_in _ _ _ _ _ (i_heap _ _ _ HI) Hr) as [n Hn]. 
  unfold marked. rewrite (bind_eq _ _ _ _ _ (mk_getN S q n Hn)). eexists. split; [done|]. split.
  - case_decide; simpl; [done|]. done.
  - intros Hs Hin. rewrite decide_False by done. by destruct (ho_node _ _ _ (i_heap _ _ _ HI) q n Hn Hs) as (_&_&?&_).
Qed.

(** one node visit shared by all four traversals *)
Lemma visit_step {A} (S : gset N) p n tl th (k : M A) : ~ sink p -> p ∉ S -> h !! p = Some n -> repr h (n_lo n) tl -> repr h (n_hi n) th ->
  forall (kn : node -> M A), (forall m, n_lo m = n_lo n -> n_hi m = n_hi n -> n_idx m = n_idx n -> kn m (mk ({[p]} ∪ S) s) = k (mk ({[p]} ∪ S) s)) ->
  forall (kt : M A),
  (let* t := is_terminal p in if t then kt else
   let* n := getN p in assert_ (negb (n_mark n)) ;;* modN p (with_mark true) ;;* kn n) (mk S s) = k (mk ({[p]} ∪ S) s).
Proof.
  intros Hs Hin Hp Hl Hh kn Hkn kt.
  assert (Hr : repr h p (Br (n_idx n) tl th)) by (by constructor).
  rewrite (bind_eq _ _ _ _ _ (mk_terminal S p _ Hr)). rewrite bool_decide_eq_false_2 by done.
  rewrite (bind_eq _ _ _ _ _ (mk_getN S p n Hp)). rewrite decide_False by done.
  destruct (ho_node _ _ _ (i_heap _ _ _ HI) p n Hp Hs) as (_&_&Hm&_). rewrite Hm. simpl.
  rewrite (bind_eq _ _ _ _ _ (assert_eq true _ eq_refl)).
  rewrite (bind_eq _ _ _ _ _ (mk_mod_mark S p n Hp)). by apply Hkn.
Qed.

Lemma gtrav_skip {A} (fpre fpost : ptr -> node -> A -> A) S fuel q t a : repr h q t -> (0 < fuel)%nat -> sink q ->
  gtrav fpre fpost fuel q a (mk S s) = Ok a (mk S s).
Proof.
  intros Hr Hf Hs. destruct fuel; [lia|]. simpl. rewrite (bind_eq _ _ _ _ _ (mk_terminal S q _ Hr)).
  by rewrite bool_decide_eq_true_2.
Qed.

Lemma gtrav_acc {A} (fpre fpost : ptr -> node -> A -> A) (Hpre : core_only fpre) (Hpost : core_only fpost)
  S p a a' S' : Acc fpre fpost S p a a' S' ->
  forall fuel t, repr h p t -> (ht t < fuel)%nat -> (sink p \/ p ∉ S) ->
  gtrav fpre fpost fuel p a (mk S s) = Ok a' (mk S' s).
Proof.
  induction 1 as [S p a Hsk|S p n S1 S2 a a1 a2 Hs Hin Hp H1 IH1 H2 IH2]; intros fuel t Hr Hf Hok.
  - eapply gtrav_skip; eauto; [lia|]. destruct Hsk, Hok; done.
  - destruct fuel as [|fuel]; [lia|].
    destruct (repr_nonsink _ _ _ Hr Hs) as (n'&tl&th&Hn'&->&Hl&Hh). simplify_eq. simpl in Hf.
    cbn [gtrav].
    apply (visit_step S p n tl th (fun _ => Ok (fpost p n a2) (mk S2 s))); auto.
    intros m Hml Hmh Hmi. cbv zeta. rewrite Hml, Hmh, (Hpre p n m) by done.
    destruct (child_marked ({[p]} ∪ S) _ _ Hl) as (b&Hb&Hb1&Hb2). rewrite (bind_eq _ _ _ _ _ Hb).
    assert (Hgo : (if b then ret (fpre p n a) else gtrav fpre fpost fuel (n_lo n) (fpre p n a)) (mk ({[p]} ∪ S) s) = Ok a1 (mk S1 s)).
    { destruct b.
      - inversion H1 as [? ? ? Hsk|]; subst; [done|]. exfalso. by discriminate Hb2.
      - apply (IH1 fuel tl); auto. lia. }
    rewrite (bind_eq _ _ _ _ _ Hgo). clear Hgo.
    destruct (child_marked S1 _ _ Hh) as (c&Hc&Hc1&Hc2). rewrite (bind_eq _ _ _ _ _ Hc).
    assert (Hgo : (if c then ret a1 else gtrav fpre fpost fuel (n_hi n) a1) (mk S1 s) = Ok a2 (mk S2 s)).
    { destruct c.
      - inversion H2 as [? ? ? Hsk|]; subst; [done|]. exfalso. by discriminate Hc2.
      - apply (IH2 fuel th); auto. lia. }
    rewrite (bind_eq _ _ _ _ _ Hgo). unfold ret. by rewrite (Hpost p n m).
Qed.

Lemma nr_nodes_dfs S p pre post S' : Dfs S p pre post S' ->
  forall fuel t, repr h p t -> (ht t < fuel)%nat -> (sink p \/ p ∉ S) ->
  nr_nodes_impl fuel p (mk S s) = Ok (N.of_nat (length pre)) (mk S' s).
Proof.
  induction 1 as [S p Hsk|S p n pre1 post1 S1 pre2 post2 S2 Hs Hin Hp H1 IH1 H2 IH2]; intros fuel t Hr Hf Hok.
  - destruct fuel; [lia|]. simpl. rewrite (bind_eq _ _ _ _ _ (mk_terminal S p _ Hr)).
    rewrite bool_decide_eq_true_2; [done|]. destruct Hsk, Hok; done.
  - destruct fuel as [|fuel]; [lia|].
    destruct (repr_nonsink _ _ _ Hr Hs) as (n'&tl&th&Hn'&->&Hl&Hh). simplify_eq. simpl in Hf.
    cbn [nr_nodes_impl].
    apply (visit_step S p n tl th (fun _ => Ok (N.of_nat (length (p :: pre1 ++ pre2))) (mk S2 s))); auto.
    intros m Hml Hmh Hmi. rewrite Hml, Hmh.
    destruct (child_marked ({[p]} ∪ S) _ _ Hl) as (b&Hb&Hb1&Hb2). rewrite (bind_eq _ _ _ _ _ Hb).
    assert (Hgo : (if b then ret 0 else nr_nodes_impl fuel (n_lo n)) (mk ({[p]} ∪ S) s) = Ok (N.of_nat (length pre1)) (mk S1 s)).
    { destruct b.
      - inversion H1 as [? ? Hsk|]; subst; [done|]. exfalso. by discriminate Hb2.
      - apply (IH1 fuel tl); auto. lia. }
    rewrite (bind_eq _ _ _ _ _ Hgo). clear Hgo.
    destruct (child_marked S1 _ _ Hh) as (c&Hc&Hc1&Hc2). rewrite (bind_eq _ _ _ _ _ Hc).
    assert (Hgo : (if c then ret 0 else nr_nodes_impl fuel (n_hi n)) (mk S1 s) = Ok (N.of_nat (length pre2)) (mk S2 s)).
    { destruct c.
      - inversion H2 as [? ? Hsk|]; subst; [done|]. exfalso. by discriminate Hc2.
      - apply (IH2 fuel th); auto. lia. }
    rewrite (bind_eq _ _ _ _ _ Hgo). unfold ret. do 2 f_equal. simpl length. rewrite app_length. lia.
Qed.

Lemma unmark_unm S p S' : Unm S p S' -> forall fuel t, repr h p t -> (ht t < fuel)%nat ->
  unmark_fuel fuel p (mk S s) = Ok tt (mk S' s).
Proof.
  induction 1 as [S p Hsk|S p n S1 S2 Hs Hin Hp H1 IH1 H2 IH2]; intros fuel t Hr Hf; (destruct fuel as [|fuel]; [lia|]); simpl;
    rewrite (bind_eq _ _ _ _ _ (mk_terminal S p _ Hr)).
  - case_bool_decide as Hs; [done|]. destruct Hsk as [?|Hin]; [done|].
    destruct (repr_nonsink _ _ _ Hr Hs) as (n&tl&th&Hn&->&Hl&Hh).
    rewrite (bind_eq _ _ _ _ _ (mk_getN S p n Hn)). rewrite decide_False by done.
    destruct (ho_node _ _ _ (i_heap _ _ _ HI) p n Hn Hs) as (_&_&Hm&_). by rewrite Hm.
  - rewrite bool_decide_eq_false_2 by done.
    destruct (repr_nonsink _ _ _ Hr Hs) as (n'&tl&th&Hn'&->&Hl&Hh). simplify_eq. simpl in Hf.
    destruct (ho_node _ _ _ (i_heap _ _ _ HI) p n Hp Hs) as (_&_&Hm&_).
    rewrite (bind_eq _ _ _ _ _ (mk_getN S p n Hp)). rewrite decide_True by done. simpl.
    rewrite (bind_eq _ _ _ _ _ (mk_mod_unmark S p n Hp Hm)).
    rewrite (bind_eq _ _ _ _ _ (IH1 fuel tl Hl ltac:(lia))).
    rewrite (bind_eq _ _ _ _ _ (mk_getN S1 p n Hp)).
    assert (n_hi (if decide (p ∈ S1) then with_mark true n else n) = n_hi n) as -> by (by case_decide).
    apply (IH2 fuel th Hh). lia.
Qed.

Lemma unmark_reach p t S : repr h p t -> ~ sink p -> p ∈ S -> closed S S -> (forall q, q ∈ S -> reach_in h p q) ->
  unmark p (mk S s) = Ok tt s.
Proof.
  intros Hr Hs Hp Hc Hre. destruct (unm_ex p t Hr S) as (S'&Hu).
  unfold unmark, with_fuel. rewrite mk_fuel. rewrite (unmark_unm _ _ _ Hu _ t Hr) by (pose proof (fuel_ht _ _ _ Hr); lia).
  rewrite (unm_all _ _ _ Hu) by done. by rewrite mk_empty.
Qed.

Lemma trav_finish p t pre post S' : repr h p t -> ~ sink p -> Dfs ∅ p pre post S' ->
  unmark p (mk S' s) = Ok tt s.
Proof.
  intros Hr Hs Hd. destruct (dfs_all _ _ _ _ Hs Hd) as (HS&Hnd&Hpp&Hre&Hc).
  eapply unmark_reach; eauto.
  - destruct (dfs_root _ _ _ _ _ Hd); done.
  - intros q Hq. rewrite HS in Hq. apply elem_of_list_to_set in Hq. by apply Hre.
Qed.

Lemma not_marked p t : repr h p t -> ~ sink p -> marked p s = Ok false s.
Proof.
  intros Hr Hs. destruct (repr_nonsink _ _ _ Hr Hs) as (n&tl&th&Hn&->&Hl&Hh).
  unfold marked. rewrite (bind_eq _ _ _ _ _ (getN_eq _ _ _ Hn)).
  destruct (ho_node _ _ _ (i_heap _ _ _ HI) p n Hn Hs) as (_&_&Hm&_). by rewrite Hm.
Qed.

Lemma nr_nodes_spec p t : repr h p t -> ~ sink p -> exists l, lists_reach p l /\ nr_nodes p s = Ok (N.of_nat (length l)) s.
Proof.
  intros Hr Hs. destruct (dfs_ex p t Hr ∅) as (pre&post&S'&Hd).
  destruct (dfs_all _ _ _ _ Hs Hd) as (HS&Hnd&Hpp&Hre&Hc). exists pre. split; [done|].
  unfold nr_nodes. rewrite (bind_eq _ _ _ _ _ (not_marked p t Hr Hs)).
  rewrite (bind_eq _ _ _ _ _ (assert_eq (negb false) _ eq_refl)).
  assert (Hn : with_fuel (fun f => nr_nodes_impl f p) s = Ok (N.of_nat (length pre)) (mk S' s)).
  { unfold with_fuel. rewrite <- (mk_empty s) at 2. eapply nr_nodes_dfs; eauto.
    - pose proof (fuel_ht _ _ _ Hr). lia.
    - right. set_solver. }
  rewrite (bind_eq _ _ _ _ _ Hn). rewrite (bind_eq _ _ _ _ _ (trav_finish _ _ _ _ _ Hr Hs Hd)). done.
Qed.
Lemma gtrav_root {A} (fpre fpost : ptr -> node -> A -> A) p t a a' S' :
  core_only fpre -> core_only fpost -> repr h p t -> ~ sink p -> Acc fpre fpost ∅ p a a' S' ->
  gtrav fpre fpost (fuel_of s) p a s = Ok a' (mk S' s).
Proof.
  intros H1 H2 Hr Hs Hacc. rewrite <- (mk_empty s) at 2. eapply gtrav_acc; eauto.
  - pose proof (fuel_ht _ _ _ Hr). lia.
  - right. set_solver.
Qed.

Lemma nodes_postorder_spec p t : repr h p t -> ~ sink p ->
  exists l, nodes_postorder p s = Ok l s /\ lists_reach p l /\ bottom_up l /\ last l = Some p.
Proof.
  intros Hr Hs. destruct (dfs_ex p t Hr ∅) as (pre&post&S'&Hd).
  destruct (dfs_all _ _ _ _ Hs Hd) as (HS&Hnd&Hpp&Hre&Hc). exists post.
  assert (Hlr : lists_reach p post).
  { split; [by rewrite <- Hpp|]. intros q. by rewrite <- Hpp. }
  split_and!; auto.
  - unfold nodes_postorder. rewrite (bind_eq _ _ _ _ _ (not_marked p t Hr Hs)).
    rewrite (bind_eq _ _ _ _ _ (assert_eq (negb false) _ eq_refl)).
    assert (Hn : with_fuel (fun f => postorder_impl f p []) s = Ok post (mk S' s)).
    { unfold with_fuel. rewrite postorder_gtrav. eapply gtrav_root; eauto; [done..|].
      apply (dfs_acc_post _ _ _ _ _ Hd []). }
    rewrite (bind_eq _ _ _ _ _ Hn). rewrite (bind_eq _ _ _ _ _ (trav_finish _ _ _ _ _ Hr Hs Hd)).
    destruct (nr_nodes_spec p t Hr Hs) as (l&Hl&Hnn). unfold assertM. destruct e_ndebug; [done|].
    assert (Ha : (let* b := (let* n := nr_nodes p in ret (N.of_nat (length post) =? n)) in assert_ b) s = Ok tt s).
    { unfold bind at 2. rewrite (bind_eq _ _ s true s); [done|]. unfold bind. rewrite Hnn. unfold ret.
      rewrite (lists_reach_len p l post) by done. by rewrite N.eqb_refl. }
    by rewrite (bind_eq _ _ _ _ _ Ha).
  - intros a q b n Hpost Hn. destruct (dfs_post_order _ _ _ _ _ _ Hd Hr a q b n Hpost Hn) as [Ha Hb].
    split; set_solver.
  - inversion Hd; subst; [set_solver|]. by rewrite !app_assoc, last_snoc.
Qed.

Lemma print_spec p t : repr h p t -> ~ sink p ->
  exists l, lists_reach p l /\
   print p s = Ok (concat (map (fun q => match h !! q with Some n => [(q, n_lo n, false); (q, n_hi n, true)] | None => [] end) l)) s.
Proof.
  intros Hr Hs. destruct (dfs_ex p t Hr ∅) as (pre&post&S'&Hd).
  destruct (dfs_all _ _ _ _ Hs Hd) as (HS&Hnd&Hpp&Hre&Hc). exists pre. split; [done|].
  unfold print.
  assert (Hn : with_fuel (fun f => print_rec f p []) s = Ok (concat (map (fun q => match h !! q with Some n => [(q, n_lo n, false); (q, n_hi n, true)] | None => [] end) pre)) (mk S' s)).
  { unfold with_fuel. rewrite print_gtrav. eapply gtrav_root; eauto; [by intros ? ? ? ? -> ->|done|].
    apply (dfs_acc_pre (fun p n => [(p, n_lo n, false); (p, n_hi n, true)]) _ _ _ _ _ Hd []). }
  rewrite (bind_eq _ _ _ _ _ Hn). by rewrite (bind_eq _ _ _ _ _ (trav_finish _ _ _ _ _ Hr Hs Hd)).
Qed.

End st.
End trav.
