(** * PropsAlloc.v -- the node cache as a component (bdd_node_cache): every history of
    reserve_node / init_new_node / free_node, in any order (C71) *)
From Verif Require Export PropsState2.
Open Scope N_scope.

(** the user view of the nodes in use: variable and children of each *)
Notation nodes := (gmap N (N * (N * N))).
Section spec.


Context {E : Env}.
(** something a node may point to *)
Definition target (L : nodes) (p : ptr) : Prop := p = botsink \/ p = topsink \/ is_Some (L !! p).
(** a node no node in use points to *)
Definition unused (L : nodes) (p : ptr) : Prop := forall q v l r, L !! q = Some (v, (l, r)) -> l <> p /\ r <> p.

(** [nhist s L m]: a history has led to state [s]; the nodes in use are [L]; at most [m] nodes were ever in use at a time *)
Inductive nhist : mstate -> nodes -> nat -> Prop :=
| nh_init : nhist mgr_init ∅ 0
| nh_reserve s L m p s1 v l r s2 : nhist s L m -> reserve_node s = Ok p s1 ->
    v < maxvarsize -> target L l -> target L r -> init_new_node p v l r s1 = Ok tt s2 ->
    nhist s2 (<[p := (v, (l, r))]> L) (m `max` S (size L))
| nh_free s L m p s' : nhist s L m -> is_Some (L !! p) -> unused L p -> free_node p s = Ok tt s' ->
    nhist s' (delete p L) m.
(** how many children of nodes in use are [p] *)
Definition uses (L : nodes) (p : ptr) : nat :=
  length (filter (fun q => q = p) (concat (map (fun x : ptr * (N * (ptr * ptr)) => [x.2.2.1; x.2.2.2]) (map_to_list L)))).
End spec.

Section alloc.
Context {E : Env} (HE : env_ok E).

Definition geom (h : heap) (nc : ncache) : Prop :=
  (1 <= nc_npages nc)%nat /\ nc_base nc = e_page (nc_npages nc - 1) /\
  (exists k, k <= node_page_size /\ nc_ptr nc = nc_base nc + node_size * k) /\
  forall p, p ∈ dom h -> allocd nc p.
Inductive chain (h : heap) : ptr -> list ptr -> Prop :=
| ch_nil : chain h 0 []
| ch_cons p n l : h !! p = Some n -> p <> 0 -> chain h (n_lo n) l -> chain h p (p :: l).
(** cells handed out so far, by reaching them for the first time *)
Definition cnt (nc : ncache) : N := N.of_nat (nc_npages nc - 1) * node_page_size + (nc_ptr nc - nc_base nc) / node_size.
Definition CN (s : mstate) (L : nodes) (fl : list ptr) (m : nat) : Prop :=
  cnt (s_nc s) = 2 + N.of_nat (size L + length fl) /\ cnt (s_nc s) <= 2 + N.of_nat m /\ N.of_nat (nc_npages (s_nc s) - 1) * node_page_size < cnt (s_nc s).
Definition ash (L : nodes) : heap := (fun x : N * (ptr * ptr) => Node x.2.1 x.2.2 x.1 0 false 0) <$> L.

Record NI (s : mstate) (L : nodes) (fl : list ptr) : Prop := {
  n_geom : geom (s_heap s) (s_nc s);
  n_chain : chain (s_heap s) (nc_avail (s_nc s)) fl;
  n_nodup : NoDup fl;
  n_dom : forall p, p ∈ dom (s_heap s) <-> sink p \/ is_Some (L !! p) \/ p ∈ fl;
  n_disj : forall p, is_Some (L !! p) -> ~ sink p /\ p ∉ fl;
  n_fsink : forall p, p ∈ fl -> ~ sink p;
  n_tot : nc_total (s_nc s) = 2 + N.of_nat (size L);
  n_tgt : forall q v l r, L !! q = Some (v, (l, r)) -> target L l /\ target L r;
  n_cont : forall q v l r, L !! q = Some (v, (l, r)) -> exists n, s_heap s !! q = Some n /\ n_idx n = v /\ n_lo n = l /\ n_hi n = r;
  n_x : forall p n, s_heap s !! p = Some n -> p ∉ fl -> n_xref n = (refs (ash L) p + if decide (sink p) then 1 else 0)%Z
}.

Lemma chain_ext h h' p l : chain h p l -> (forall q n, q ∈ l -> h !! q = Some n -> exists n', h' !! q = Some n' /\ n_lo n' = n_lo n) -> chain h' p l.
Proof.
  induction 1 as [|p n l Hp H0 Hc IH]; intros He; [constructor|].
  destruct (He p n) as (n'&Hn'&Hlo); [by left|done|]. econstructor; [done|done|]. rewrite Hlo. apply IH. intros q m Hq. apply He. by right.
Qed.

Lemma ni_init : NI mgr_init ∅ [].
Proof.
  split; cbn [mgr_init s_heap s_nc].
  - destruct (inv_init MMix) as [_ _ _ _ (Ha&Hb&Hc&_&_&Hd) _ _ _ _]. done.
  - constructor.
  - constructor.
  - intros p. unfold heap_init. rewrite !dom_insert, dom_empty. unfold sink. split; [set_solver|].
    intros [[-> | ->]|[[? H]|H]]; [set_solver|set_solver|by rewrite lookup_empty in H|by apply elem_of_nil in H].
  - intros p [? H]. by rewrite lookup_empty in H.
  - intros p H. by apply elem_of_nil in H.
  - done.
  - intros q v l r H. by rewrite lookup_empty in H.
  - intros q v l r H. by rewrite lookup_empty in H.
  - intros p n Hp _. unfold ash. rewrite fmap_empty, refs_empty. unfold heap_init in Hp.
    apply lookup_insert_Some in Hp as [[<- <-]|[_ Hp]]; [rewrite decide_True by (by left); done|].
    apply lookup_insert_Some in Hp as [[<- <-]|[_ Hp]]; [rewrite decide_True by (by right); done|]. by rewrite lookup_empty in Hp.
Qed.

Lemma geom_bump h np base ptr kk tot av : (1 <= np)%nat -> base = e_page (np - 1) -> kk < node_page_size -> ptr = base + node_size * kk ->
  (forall p, p ∈ dom h -> allocd (NCache np base ptr av tot) p) ->
  h !! ptr = None /\ 4096 <= ptr /\ forall n av' tot', geom (<[ptr := n]> h) (NCache np base (ptr + node_size) av' tot').
Proof.
  intros Hnp' Hbase Hkk Hp Hall.
  assert (Hnone : h !! ptr = None).
  { destruct (h !! ptr) as [n|] eqn:Hs; [|done].
    apply elem_of_dom_2 in Hs. destruct (Hall _ Hs) as (i&j&Hpij&[[Hi Hj]|[Hi Hlt]]); cbn [nc_npages nc_ptr] in *.
    - exfalso. subst base. assert (i <> (np - 1)%nat) by lia. apply (page_disj HE i (np - 1) j kk); auto. congruence.
    - lia. }
  split_and!; [done| |].
  - rewrite Hp, Hbase. destruct HE as (Hlo&_). specialize (Hlo (np - 1)%nat). lia.
  - intros n av' tot'. unfold geom; cbn [nc_npages nc_ptr nc_base]. split_and!; auto.
    + exists (kk + 1). rewrite Hp. unfold node_page_size, node_size in *. lia.
    + intros q Hq. rewrite dom_insert in Hq. apply elem_of_union in Hq as [Hq|Hq].
      * apply elem_of_singleton in Hq as ->. exists (np - 1)%nat, kk. split; [congruence|].
        right. cbn [nc_npages nc_ptr]. rewrite Hp. unfold node_size in *. split; [lia|]. rewrite <- Hbase. lia.
      * destruct (Hall q Hq) as (i&j&->&[[Hi Hj]|[Hi Hj]]); exists i, j; (split; [done|]);
          cbn [nc_npages nc_ptr] in *; [left|right]; unfold node_size in *; split; auto; lia.
Qed.

Definition cell (p : ptr) : Prop := exists k j, j < node_page_size /\ p = e_page k + node_size * j.
Lemma geom_cell h nc p : geom h nc -> p ∈ dom h -> cell p.
Proof.
  intros (Hnp&Hb&(k&Hk&Hptr)&Hal) Hp. destruct (Hal p Hp) as (i&j&->&[[Hi Hj]|[Hi Hj]]); exists i, j; (split; [|done]); [done|].
  rewrite Hptr, Hb in Hj. replace (nc_npages nc - 1)%nat with i in Hj by lia. unfold node_size in Hj. lia.
Qed.
Lemma geom_addr h nc p : geom h nc -> p ∈ dom h -> 4096 <= p.
Proof. intros Hg Hp. destruct (geom_cell _ _ _ Hg Hp) as (k&j&_&->). destruct HE as (Hlo&_). specialize (Hlo k). lia. Qed.

Lemma reserve2 s L fl : NI s L fl -> exists p nc', reserve_node s = Ok p (set_s_nc nc' s) /\ L !! p = None /\ ~ sink p /\ p ∉ tail fl /\ 4096 <= p /\
  (forall q, head fl = Some q -> p = q) /\ nc_total nc' = nc_total (s_nc s) + 1 /\ chain (s_heap s) (nc_avail nc') (tail fl) /\
  (cnt nc' = cnt (s_nc s) + (if decide (fl = []) then 1 else 0) /\
   (N.of_nat (nc_npages (s_nc s) - 1) * node_page_size < cnt (s_nc s) -> N.of_nat (nc_npages nc' - 1) * node_page_size < cnt nc')) /\
  forall n, geom (<[p := n]> (s_heap s)) nc'.
Proof.
  intros HN. pose proof (n_geom _ _ _ HN) as HG. pose proof HG as (Hnp&Hb&(k&Hk&Hptr)&Hal).
  pose proof (n_chain _ _ _ HN) as Hc. destruct fl as [|p fl].
  - assert (Hav : nc_avail (s_nc s) = 0) by (by inversion Hc).
    assert (Hfin : forall p, s_heap s !! p = None -> L !! p = None /\ ~ sink p /\ p ∉ tail (@nil ptr)).
    { intros p Hp%not_elem_of_dom. rewrite (n_dom _ _ _ HN) in Hp. split_and!; [apply eq_None_not_Some; tauto|tauto|apply not_elem_of_nil]. }
    unfold reserve_node. simpl. unfold bind, get, liftR. rewrite Hav. simpl.
    rewrite !assert_eq.
    2,3: apply N.leb_le; rewrite Hptr; unfold node_size, node_page_size in *; lia.
    rewrite Hptr. replace (nc_base (s_nc s) + node_size * k - nc_base (s_nc s)) with (k * node_size) by lia.
    rewrite N.div_mul by done.
    destruct (N.ltb_spec k node_page_size) as [Hlt|Hge].
    + destruct (geom_bump (s_heap s) (nc_npages (s_nc s)) (nc_base (s_nc s)) (nc_base (s_nc s) + node_size * k) k 0 0) as (Hn&H4&Hg); auto.
      { intros p Hp. destruct (Hal p Hp) as (i&j&->&?). exists i, j. simpl. rewrite <- Hptr. auto. }
      destruct (Hfin _ Hn) as (?&?&?). exists (nc_base (s_nc s) + node_size * k). eexists. split; [reflexivity|].
      do 6 (split; [done|]). split; [simpl; rewrite Hav; constructor|]. split; [|done].
      unfold cnt; cbn [nc_npages nc_ptr nc_base]. rewrite Hptr. try rewrite decide_True by done.
      replace (nc_base (s_nc s) + node_size * k + node_size - nc_base (s_nc s)) with ((k + 1) * node_size) by lia.
      replace (nc_base (s_nc s) + node_size * k - nc_base (s_nc s)) with (k * node_size) by lia. rewrite !N.div_mul by done. lia.
    + assert (k = node_page_size) as -> by lia.
      unfold set_nc. simpl. rewrite Hav. simpl. rewrite !assert_eq.
      2:{ apply N.leb_le. unfold node_size, node_page_size. lia. }
      2:{ apply N.leb_le. unfold node_size, node_page_size. lia. }
      rewrite N.sub_diag. simpl.
      destruct (geom_bump (s_heap s) (S (nc_npages (s_nc s))) (e_page (nc_npages (s_nc s))) (e_page (nc_npages (s_nc s))) 0 0 0) as (Hn&H4&Hg).
      * lia.
      * f_equal. lia.
      * done.
      * unfold node_size. lia.
      * intros p Hp. destruct (Hal p Hp) as (i&j&->&[[Hi Hj]|[Hi Hj]]); exists i, j; (split; [done|]);
          simpl; left; split; try lia. rewrite Hptr in Hj. assert (i = nc_npages (s_nc s) - 1)%nat as -> by lia.
        rewrite <- Hb in Hj. unfold node_size, node_page_size in *. lia.
      * destruct (Hfin _ Hn) as (?&?&?). eexists _, _. split; [reflexivity|].
        do 6 (split; [done|]). split; [simpl; constructor|]. split; [|done].
        unfold cnt; cbn [nc_npages nc_ptr nc_base]. rewrite Hptr. try rewrite decide_True by done.
        replace (e_page (nc_npages (s_nc s)) + node_size - e_page (nc_npages (s_nc s))) with (1 * node_size) by lia.
        replace (nc_base (s_nc s) + node_size * node_page_size - nc_base (s_nc s)) with (node_page_size * node_size) by lia. rewrite !N.div_mul by done.
        unfold node_page_size. lia.
  - assert (exists n, s_heap s !! p = Some n /\ p <> 0 /\ chain (s_heap s) (n_lo n) fl /\ nc_avail (s_nc s) = p) as (n&Hp&H0&Hc'&Hav).
    { inversion Hc; subst. eauto. }
    assert (Hpd : p ∈ dom (s_heap s)) by (by apply elem_of_dom_2 in Hp).
    unfold reserve_node. cbn [reserve_node_fuel]. rewrite (bind_eq get _ s s s eq_refl). rewrite Hav.
    assert (p =? 0 = false) as -> by (by apply N.eqb_neq). cbn [negb].
    rewrite (bind_eq _ _ _ _ _ (getN_eq _ _ _ Hp)). unfold set_nc, bind, ret. exists p. eexists. split; [reflexivity|].
    pose proof (n_nodup _ _ _ HN) as [Hnin Hnd]%NoDup_cons. cbn [tail head nc_total nc_avail]. split_and!; auto.
    + apply eq_None_not_Some. intros HL. apply (n_disj _ _ _ HN) in HL as [_ HL]. apply HL. by left.
    + apply (n_fsink _ _ _ HN). by left.
    + by eapply geom_addr.
    + by intros q [= ->].
    + unfold cnt; cbn [nc_npages nc_ptr nc_base]. rewrite decide_False by done. rewrite N.add_0_r. done.
    + intros m. split_and!; cbn [nc_npages nc_base nc_ptr]; auto; [by exists k|]. intros q Hq.
      assert (Hq' : q ∈ dom (s_heap s)). { rewrite dom_insert in Hq. set_solver. }
      destruct (Hal q Hq') as (i&j&->&?). exists i, j. auto.
Qed.

Lemma target_in s L fl p : NI s L fl -> target L p -> is_Some (s_heap s !! p) /\ p ∉ fl.
Proof.
  intros HN Ht. split.
  - apply elem_of_dom. rewrite (n_dom _ _ _ HN). unfold sink. destruct Ht as [?|[?|?]]; tauto.
  - intros Hf. destruct Ht as [->|[->|HL]].
    + apply (n_fsink _ _ _ HN) in Hf. apply Hf. by left.
    + apply (n_fsink _ _ _ HN) in Hf. apply Hf. by right.
    + by apply (n_disj _ _ _ HN) in HL as [_ ?].
Qed.
Lemma target_mono L p l x : target L l -> target (<[p := x]> L) l.
Proof.
  intros [?|[?|H]]; [by left|by right; left|]. right; right. destruct (decide (p = l)) as [->|]; [rewrite lookup_insert; eauto|by rewrite lookup_insert_ne].
Qed.
Lemma ash_insert L p v l r : ash (<[p := (v, (l, r))]> L) = <[p := Node l r v 0 false 0]> (ash L).
Proof. unfold ash. by rewrite fmap_insert. Qed.
Lemma ash_none L p : L !! p = None -> ash L !! p = None.
Proof. intros H. unfold ash. by rewrite lookup_fmap, H. Qed.
Lemma refs_untgt L p : unused L p -> refs (ash L) p = 0%Z.
Proof.
  intros Hu. apply refs_zero. intros q n Hq _. unfold ash in Hq. apply lookup_fmap_Some in Hq as ([v [l r]]&<-&Hq). cbn. eauto.
Qed.

Lemma ni_reserve s L fl v l r : NI s L fl -> v < maxvarsize -> target L l -> target L r ->
  exists p s1 s2, reserve_node s = Ok p s1 /\ s_heap s1 = s_heap s /\ init_new_node p v l r s1 = Ok tt s2 /\
    L !! p = None /\ ~ sink p /\ NI s2 (<[p := (v, (l, r))]> L) (tail fl) /\
    forall m, CN s L fl m -> CN s2 (<[p := (v, (l, r))]> L) (tail fl) (m `max` S (size L)).
Proof.
  intros HN Hv Hl Hr. destruct (reserve2 _ _ _ HN) as (p&nc'&Hres&HpL&Hps&Hpf&H4&Hhd&Htot&Hch&[Hcn1 Hcn2]&Hg).
  destruct (target_in _ _ _ _ HN Hl) as [Hld Hlf]. destruct (target_in _ _ _ _ HN Hr) as [Hrd Hrf].
  assert (Hpl : p <> l). { intros ->. destruct Hl as [?|[?|?]]; [apply Hps; by left|apply Hps; by right|]. rewrite HpL in *. by destruct H. }
  assert (Hpr : p <> r). { intros ->. destruct Hr as [?|[?|?]]; [apply Hps; by left|apply Hps; by right|]. rewrite HpL in *. by destruct H. }
  exists p, (set_s_nc nc' s). rewrite (init_new_node_eq (set_s_nc nc' s) p v l r Hv Hld Hrd). eexists. split; [done|]. split; [done|]. split; [reflexivity|]. do 2 (split; [done|]).
  assert (Hcn : forall m h' k', CN s L fl m -> CN (MState h' nc' (s_pcs s) (s_memo s) (s_vars s) k') (<[p := (v, (l, r))]> L) (tail fl) (m `max` S (size L))).
  { intros m h' k' (H1&H2&H3). unfold CN; cbn [s_nc]. rewrite map_size_insert_None by done. specialize (Hcn2 H3).
    destruct fl; cbn [tail length] in *; [rewrite decide_True in Hcn1 by done|rewrite decide_False in Hcn1 by done]; lia. }
  cut (forall P Q : Prop, P -> Q -> P /\ Q); [intros conj'|done]. apply conj'; [clear Hcn|intros m; apply Hcn]. clear conj'.
  set (h := s_heap s) in *. set (key := e_rand _).
  assert (Hlk : forall q, q <> p -> new_heap p v l r key h !! q = inc l (inc r h) !! q).
  { intros q Hq. unfold new_heap. by rewrite lookup_insert_ne. }
  assert (Hold : forall q n, q <> p -> h !! q = Some n -> exists n', new_heap p v l r key h !! q = Some n' /\ n_idx n' = n_idx n /\ n_lo n' = n_lo n /\ n_hi n' = n_hi n /\
     n_xref n' = (n_xref n + arcs (Node l r v 0 false 0) q)%Z).
  { intros q n Hq Hn. rewrite (Hlk q Hq), inc_lookup, inc_lookup, Hn. unfold arcs; cbn [fmap option_fmap option_map n_lo n_hi].
    destruct (decide (l = q)), (decide (r = q)); eexists; (split; [reflexivity|]); cbn; split_and!; try done; lia. }
  assert (Hnew : new_heap p v l r key h !! p = Some (Node l r v key false 0)). { unfold new_heap. by rewrite lookup_insert. }
  assert (Hdom : dom (new_heap p v l r key h) = {[p]} ∪ dom h). { unfold new_heap. rewrite dom_insert_L. unfold inc. by rewrite !dom_alter_L. }
  assert (Hpd : p ∈ dom h -> p ∈ fl). { intros Hd. apply (n_dom _ _ _ HN) in Hd as [?|[[? ?]|?]]; [done|congruence|done]. }
  assert (Hfl : forall q, q ∈ fl <-> q ∈ tail fl \/ q = p /\ fl <> []).
  { intros q. destruct fl as [|a fl]; cbn [tail]; [set_solver|]. specialize (Hhd a eq_refl) as ->. rewrite elem_of_cons. naive_solver. }
  assert (Htl : forall q, q ∈ tail fl -> q ∈ fl) by (intros q Hq; apply Hfl; by left).
  split; cbn [s_heap s_nc set_s_nc]; fold h.
  - destruct (Hg (Node 0 0 0 0 false 0)) as (Ha&Hb&Hc&Hd). split_and!; auto. intros q Hq. apply Hd. rewrite Hdom in Hq. rewrite dom_insert_L. done.
  - eapply chain_ext; [exact Hch|]. intros q n Hq Hn. assert (q <> p) by (by intros ->).
    destruct (Hold q n) as (n'&?&_&?&_); [done|done|]. eauto.
  - pose proof (n_nodup _ _ _ HN) as Hnd. destruct fl; [constructor|]. by apply NoDup_cons in Hnd as [_ ?].
  - intros q. pose proof (n_dom _ _ _ HN) as Hnd. fold h in Hnd. rewrite Hdom, elem_of_union, elem_of_singleton, Hnd, Hfl. destruct (decide (q = p)) as [->|Hne].
    + rewrite lookup_insert. split; [|tauto]. intros _. right. left. eauto.
    + rewrite lookup_insert_ne by done. naive_solver.
  - intros q. destruct (decide (q = p)) as [->|Hne]; [done|]. rewrite lookup_insert_ne by done. intros HL.
    apply (n_disj _ _ _ HN) in HL as [? HL]. split; [done|]. intros Hq. apply HL. auto.
  - intros q Hq. apply (n_fsink _ _ _ HN). auto.
  - rewrite Htot, (n_tot _ _ _ HN), map_size_insert_None by done. lia.
  - intros q u a b. destruct (decide (q = p)) as [->|Hne].
    + rewrite lookup_insert. intros [= <- <- <-]. split; by apply target_mono.
    + rewrite lookup_insert_ne by done. intros HL. destruct (n_tgt _ _ _ HN q u a b HL). split; by apply target_mono.
  - intros q u a b. destruct (decide (q = p)) as [->|Hne].
    + rewrite lookup_insert. intros [= <- <- <-]. eexists. split; [exact Hnew|done].
    + rewrite lookup_insert_ne by done. intros HL. destruct (n_cont _ _ _ HN q u a b HL) as (n&Hn&<-&<-&<-).
      destruct (Hold q n Hne Hn) as (n'&?&?&?&?&_). eauto.
  - intros q n Hq Hqf. rewrite ash_insert, refs_insert by (by apply ash_none). rewrite (decide_False (P := sink p)) by done.
    destruct (decide (q = p)) as [->|Hne].
    + assert (n = Node l r v key false 0) as -> by congruence. rewrite decide_False by done.
      unfold arcs; cbn [n_lo n_hi n_xref]. rewrite !decide_False by done. rewrite refs_untgt; [done|].
      intros q u a b HL. destruct (n_tgt _ _ _ HN q u a b HL) as [Ha Hb].
      split; intros ->; [destruct Ha as [?|[?|[? ?]]]|destruct Hb as [?|[?|[? ?]]]]; try congruence; apply Hps; [by left|by right|by left|by right].
    + rewrite (Hlk q Hne) in Hq. assert (Hd : is_Some (h !! q)).
      { apply elem_of_dom_2 in Hq. unfold inc in Hq. rewrite !dom_alter in Hq. by apply elem_of_dom. }
      destruct Hd as [m Hm]. destruct (Hold q m Hne Hm) as (n'&Hn'&_&_&_&Hx). rewrite (Hlk q Hne) in Hn'. assert (n' = n) as -> by congruence.
      rewrite Hx, (n_x _ _ _ HN q m Hm); [lia|]. rewrite Hfl. naive_solver.
Qed.

Definition dcr (p : ptr) (h : heap) : heap := alter (with_xref (fun x => (x - 1)%Z)) p h.
Lemma xref_dec_eq2 p s n : s_heap s !! p = Some n -> xref_dec p s = Ok tt (set_s_heap (dcr p (s_heap s)) s).
Proof.
  intros Hp. unfold xref_dec, modN. rewrite (bind_eq _ _ _ _ _ (getN_eq _ _ _ Hp)).
  unfold set_heap, dcr, set_s_heap. do 2 f_equal. apply map_eq. intros q.
  destruct (decide (p = q)) as [->|Hne]; [by rewrite lookup_insert, lookup_alter, Hp|by rewrite lookup_insert_ne, lookup_alter_ne].
Qed.
Lemma dcr_lookup p h q : dcr p h !! q = if decide (p = q) then with_xref (fun x => (x - 1)%Z) <$> h !! q else h !! q.
Proof. unfold dcr. case_decide; [subst; apply lookup_alter|by apply lookup_alter_ne]. Qed.

Lemma ash_delete L p : ash (delete p L) = delete p (ash L).
Proof. unfold ash. by rewrite fmap_delete. Qed.

Lemma ni_free s L fl p : NI s L fl -> is_Some (L !! p) -> unused L p ->
  exists s', free_node p s = Ok tt s' /\ NI s' (delete p L) (p :: fl) /\ forall m, CN s L fl m -> CN s' (delete p L) (p :: fl) m.
Proof.
  intros HN [[v [l r]] HpL] Hu. destruct (n_cont _ _ _ HN p v l r HpL) as (n&Hn&Hni&Hnl&Hnr).
  destruct (n_tgt _ _ _ HN p v l r HpL) as [Hl Hr]. destruct (n_disj _ _ _ HN p) as [Hps Hpf]; [by eexists|].
  destruct (target_in _ _ _ _ HN Hl) as [[nl Hnl'] Hlf]. destruct (target_in _ _ _ _ HN Hr) as [[nr Hnr'] Hrf].
  destruct (Hu p v l r HpL) as [Hlp Hrp].
  assert (Hd : forall q, refs (ash L) q = (refs (ash (delete p L)) q + arcs (Node l r v 0 false 0) q)%Z).
  { intros q. rewrite (refs_delete (ash L) p (Node l r v 0 false 0)) by (unfold ash; by rewrite lookup_fmap, HpL).
    rewrite decide_False by done. by rewrite ash_delete. }
  assert (Hxp : n_xref n = 0%Z). { rewrite (n_x _ _ _ HN p n Hn Hpf), decide_False, refs_untgt by done. done. }
  assert (Hp0 : p <> 0). { intros ->. assert (0 ∈ dom (s_heap s)) as H0 by (by apply elem_of_dom_2 in Hn). pose proof (geom_addr _ _ _ (n_geom _ _ _ HN) H0). lia. }
  assert (Hxl : (0 < n_xref nl)%Z).
  { rewrite (n_x _ _ _ HN l nl Hnl' Hlf), Hd. pose proof (refs_nonneg (ash (delete p L)) l). unfold arcs; cbn [n_lo n_hi].
    rewrite (decide_True (P := l = l)) by done. repeat case_decide; lia. }
  unfold free_node. rewrite (bind_eq _ _ _ _ _ (getN_eq _ _ _ Hn)).
  rewrite (bind_eq _ _ s tt s) by (apply assert_eq; rewrite Hxp; done). rewrite Hnl.
  rewrite (bind_eq _ _ _ _ _ (getN_eq _ _ _ Hnl')). rewrite (bind_eq _ _ s tt s) by (apply assert_eq; by apply Z.ltb_lt).
  rewrite (bind_eq _ _ _ _ _ (xref_dec_eq2 _ _ _ Hnl')). set (h := s_heap s) in *.
  assert (Hn2 : dcr l h !! p = Some n) by (rewrite dcr_lookup, decide_False by done; done).
  rewrite (bind_eq _ _ _ _ _ (getN_eq (set_s_heap (dcr l h) s) _ _ Hn2)). rewrite Hnr.
  assert (exists nr2, dcr l h !! r = Some nr2 /\ (0 < n_xref nr2)%Z) as (nr2&Hnr2&Hxr2).
  { rewrite dcr_lookup, Hnr'. pose proof (n_x _ _ _ HN r nr Hnr' Hrf) as Hx. rewrite Hd in Hx.
    pose proof (refs_nonneg (ash (delete p L)) r). unfold arcs in Hx; cbn [n_lo n_hi] in Hx. rewrite (decide_True (P := r = r)) in Hx by done.
    destruct (decide (l = r)); eexists; (split; [reflexivity|]); cbn; repeat case_decide; lia. }
  rewrite (bind_eq _ _ _ _ _ (getN_eq (set_s_heap (dcr l h) s) _ _ Hnr2)).
  rewrite (bind_eq _ _ (set_s_heap (dcr l h) s) tt (set_s_heap (dcr l h) s)) by (apply assert_eq; by apply Z.ltb_lt).
  rewrite (bind_eq _ _ _ _ _ (xref_dec_eq2 r (set_s_heap (dcr l h) s) _ Hnr2)). cbn [s_heap set_s_heap].
  rewrite (bind_eq get _ _ _ _ eq_refl). cbn [s_nc set_s_heap].
  assert (Hn3 : dcr r (dcr l h) !! p = Some n) by (rewrite dcr_lookup, decide_False by done; done).
  unfold modN. unfold bind at 1. rewrite (bind_eq _ _ _ _ _ (getN_eq (set_s_heap (dcr r (dcr l h)) s) _ _ Hn3)).
  unfold set_heap, set_nc. cbn [s_heap s_nc s_pcs s_memo s_vars s_rnd set_s_heap]. eexists. split; [reflexivity|].
  assert (Hsz : (size L <> 0)%nat). { intros H0. apply map_size_empty_inv in H0. subst L. by rewrite lookup_empty in HpL. }
  cut (forall P Q : Prop, P -> Q -> P /\ Q); [intros conj'|done]. apply conj'; clear conj'.
  2:{ intros m (H1&H2&H3). unfold CN; cbn [s_nc]. rewrite map_size_delete, HpL. unfold cnt in *; cbn [nc_npages nc_ptr nc_base] in *. cbn [length] in *. lia. }
  set (h' := <[p := with_lo (nc_avail (s_nc s)) n]> (dcr r (dcr l h))).
  assert (Hold : forall q m, q <> p -> h !! q = Some m -> exists m', h' !! q = Some m' /\ n_idx m' = n_idx m /\ n_lo m' = n_lo m /\ n_hi m' = n_hi m /\
     n_xref m' = (n_xref m - arcs (Node l r v 0 false 0) q)%Z).
  { intros q m Hq Hm. unfold h'. rewrite lookup_insert_ne, !dcr_lookup, Hm by done. unfold arcs; cbn [fmap option_fmap option_map n_lo n_hi].
    destruct (decide (l = q)), (decide (r = q)); eexists; (split; [reflexivity|]); cbn; split_and!; try done; lia. }
  assert (Hdom : dom h' = dom h).
  { unfold h'. rewrite dom_insert_L. unfold dcr. rewrite !dom_alter_L. assert (p ∈ dom h) by (by apply elem_of_dom_2 in Hn). set_solver. }
  split; cbn [s_heap s_nc].
  - destruct (n_geom _ _ _ HN) as (Ha&Hb&Hc&He). split_and!; cbn [nc_npages nc_base nc_ptr]; auto. intros q Hq. rewrite Hdom in Hq.
    destruct (He q Hq) as (i&j&->&?). exists i, j. auto.
  - cbn [nc_avail]. econstructor; [unfold h'; by rewrite lookup_insert|done|]. cbn [with_lo n_lo].
    eapply chain_ext; [apply (n_chain _ _ _ HN)|]. intros q m Hq Hm. destruct (Hold q m) as (m'&?&_&?&_); [by intros ->|done|]. eauto.
  - constructor; [done|apply (n_nodup _ _ _ HN)].
  - intros q. pose proof (n_dom _ _ _ HN) as Hnd. fold h in Hnd. rewrite Hdom, Hnd, elem_of_cons. destruct (decide (q = p)) as [->|Hne].
    + split; [tauto|]. intros _. right. left. by eexists.
    + rewrite lookup_delete_ne by done. naive_solver.
  - intros q. destruct (decide (q = p)) as [->|Hne]; [rewrite lookup_delete; by intros [? ?]|]. rewrite lookup_delete_ne by done. intros HL.
    apply (n_disj _ _ _ HN) in HL as [? ?]. split; [done|]. rewrite elem_of_cons. naive_solver.
  - intros q [->|Hq]%elem_of_cons; [done|]. by apply (n_fsink _ _ _ HN).
  - cbn [nc_total]. rewrite (n_tot _ _ _ HN), map_size_delete, HpL. assert (size L <> 0)%nat; [|lia].
    intros H0. apply map_size_empty_inv in H0. subst L. by rewrite lookup_empty in HpL.
  - intros q u a b. destruct (decide (q = p)) as [->|Hne]; [by rewrite lookup_delete|]. rewrite lookup_delete_ne by done. intros HL.
    destruct (n_tgt _ _ _ HN q u a b HL) as [Ha Hb]. destruct (Hu q u a b HL) as [Hap Hbp]. unfold target. by rewrite !lookup_delete_ne by done.
  - intros q u a b. destruct (decide (q = p)) as [->|Hne]; [by rewrite lookup_delete|]. rewrite lookup_delete_ne by done. intros HL.
    destruct (n_cont _ _ _ HN q u a b HL) as (m&Hm&<-&<-&<-). destruct (Hold q m Hne Hm) as (m'&?&?&?&?&_). eauto.
  - intros q m Hq Hqf. apply not_elem_of_cons in Hqf as [Hne Hqf].
    assert (is_Some (h !! q)) as [m0 Hm0]. { apply elem_of_dom. rewrite <- Hdom. by apply elem_of_dom_2 in Hq. }
    destruct (Hold q m0 Hne Hm0) as (m'&Hm'&_&_&_&Hx). assert (m' = m) as -> by congruence.
    rewrite Hx, (n_x _ _ _ HN q m0 Hm0 Hqf), Hd. lia.
Qed.

Lemma nhist_ni s L m : nhist s L m -> exists fl, NI s L fl /\ CN s L fl m.
Proof.
  induction 1 as [|s L m p s1 v l r s2 _ (fl&IH&IC) Hres Hv Hl Hr Hi|s L m p s' _ (fl&IH&IC) Hp Hu Hf].
  - exists []. split; [apply ni_init|]. unfold CN, cnt; cbn [mgr_init s_nc]. unfold nc_init; cbn [nc_npages nc_ptr nc_base]. rewrite map_size_empty.
    replace (e_page 0 + 2 * node_size - e_page 0) with (2 * node_size) by lia. rewrite N.div_mul by done. done.
  - destruct (ni_reserve _ _ _ v l r IH Hv Hl Hr) as (p'&s1'&s2'&Hres'&_&Hi'&_&_&HN&HC). exists (tail fl).
    assert (p' = p /\ s1' = s1) as [-> ->] by (split; congruence). assert (s2' = s2) as -> by congruence. auto.
  - destruct (ni_free _ _ _ p IH Hp Hu) as (s2&Hf2&HN&HC). exists (p :: fl). assert (s2 = s') as -> by congruence. auto.
Qed.

Lemma uses_refs L p : (forall q, is_Some (L !! q) -> ~ sink q) -> refs (ash L) p = Z.of_nat (uses L p).
Proof.
  unfold uses. induction L as [|q [v [l r]] L Hq IH] using map_ind; intros Hs.
  - unfold ash. rewrite fmap_empty, map_to_list_empty. done.
  - rewrite ash_insert, refs_insert by (by apply ash_none). rewrite decide_False by (apply Hs; rewrite lookup_insert; eauto).
    rewrite IH. 2:{ intros x Hx. apply Hs. destruct (decide (q = x)) as [->|]; [rewrite lookup_insert; eauto|by rewrite lookup_insert_ne]. }
    assert (Hp : map_to_list (<[q := (v, (l, r))]> L) ≡ₚ (q, (v, (l, r))) :: map_to_list L) by (by apply map_to_list_insert).
    assert (Hcp : forall f (a b : list (N * (N * (N * N)))), a ≡ₚ b -> concat (map f a) ≡ₚ (concat (map f b) : list N)).
    { intros f a b. induction 1; simpl; [done|by f_equiv| |by etransitivity]. rewrite !(assoc_L (++)). f_equiv. apply (comm (++)). }
    rewrite (Permutation_length (filter_Permutation _ _ _ (Hcp _ _ _ Hp))). cbn [map concat fst snd app]. unfold arcs; cbn [n_lo n_hi].
    rewrite !filter_cons. repeat case_decide; cbn [length]; lia.
Qed.

(** reserve_node always returns memory not in use: not the constants, no node in use, a cell of an
    allocated page; it touches no node; and the node can be initialised *)
Theorem C71_reserve s L m v l r : nhist s L m -> v < maxvarsize -> target L l -> target L r ->
  exists p s1 s2, reserve_node s = Ok p s1 /\ init_new_node p v l r s1 = Ok tt s2 /\
    L !! p = None /\ p <> botsink /\ p <> topsink /\ s_heap s1 = s_heap s /\
    exists k j, (k < nc_npages (s_nc s2))%nat /\ j < node_page_size /\ p = e_page k + node_size * j.
Proof.
  intros (fl&HN&HC)%nhist_ni Hv Hl Hr. destruct (ni_reserve _ _ _ v l r HN Hv Hl Hr) as (p&s1&s2&H1&H2&H3&H4&H5&HN2&_).
  exists p, s1, s2. split_and!; auto; [intros ->; apply H5; by left|intros ->; apply H5; by right|].
  assert (Hd : p ∈ dom (s_heap s2)). { apply (n_dom _ _ _ HN2). right. left. rewrite lookup_insert. eauto. }
  destruct (n_geom _ _ _ HN2) as (Hnp&Hb&(k&Hk&Hptr)&Hal). destruct (Hal p Hd) as (i&j&->&[[Hi Hj]|[Hi Hj]]); exists i, j; (split; [lia|]); (split; [|done]); [done|].
  rewrite Hptr, Hb in Hj. replace (nc_npages (s_nc s2) - 1)%nat with i in Hj by lia. unfold node_size in Hj. lia.
Qed.
(** a node no node points to can be freed, and the next reserve_node reuses it *)
Theorem C71_free s L m p : nhist s L m -> is_Some (L !! p) -> unused L p ->
  exists s', free_node p s = Ok tt s' /\ exists s'', reserve_node s' = Ok p s''.
Proof.
  intros (fl&HN&HC)%nhist_ni Hp Hu. destruct (ni_free _ _ _ p HN Hp Hu) as (s'&Hf&HN'&_). exists s'. split; [done|].
  destruct (reserve2 _ _ _ HN') as (p'&nc'&Hr&_&_&_&_&Hh&_). specialize (Hh p eq_refl) as ->. eauto.
Qed.
(** whatever was reserved and freed in between, a node in use keeps its variable and children *)
Theorem C71_contents s L m p v l r : nhist s L m -> L !! p = Some (v, (l, r)) ->
  exists n, s_heap s !! p = Some n /\ n_idx n = v /\ n_lo n = l /\ n_hi n = r.
Proof. intros (fl&HN&HC)%nhist_ni. apply (n_cont _ _ _ HN). Qed.
(** nr_nodes() is exact: nodes in use and the two constants *)
Theorem C71_nr_nodes s L m : nhist s L m -> mgr_nr_nodes s = 2 + N.of_nat (size L).
Proof. intros (fl&HN&HC)%nhist_ni. apply (n_tot _ _ _ HN). Qed.
(** reference counts are exact; the constants carry one reference of their own *)
Theorem C71_references s L m p n : nhist s L m -> target L p -> s_heap s !! p = Some n ->
  n_xref n = (Z.of_nat (uses L p) + (if decide (p = botsink \/ p = topsink) then 1 else 0))%Z.
Proof.
  intros (fl&HN&HC)%nhist_ni Ht Hp. destruct (target_in _ _ _ _ HN Ht) as [_ Hf]. rewrite (n_x _ _ _ HN p n Hp Hf), uses_refs; [done|].
  intros q Hq. by apply (n_disj _ _ _ HN).
Qed.
(** memory is reused: a page is allocated only when there are more nodes in use (with the constants) than
    the pages so far can hold *)
Theorem C71_pages s L m : nhist s L m -> (1 <= nc_npages (s_nc s))%nat /\
  2 + N.of_nat (size L) <= N.of_nat (nc_npages (s_nc s)) * node_page_size /\
  (N.of_nat (nc_npages (s_nc s)) - 1) * node_page_size < 2 + N.of_nat m.
Proof.
  intros (fl&HN&(H1&H2&H3))%nhist_ni. destruct (n_geom _ _ _ HN) as (Hnp&Hb&(k&Hk&Hptr)&Hal). split; [done|].
  assert (Hc : cnt (s_nc s) = N.of_nat (nc_npages (s_nc s) - 1) * node_page_size + k).
  { unfold cnt. rewrite Hptr. replace (nc_base (s_nc s) + node_size * k - nc_base (s_nc s)) with (k * node_size) by lia. by rewrite N.div_mul. }
  unfold node_page_size in *. lia.
Qed.
End alloc.
