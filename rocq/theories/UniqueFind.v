(** * UniqueFind.v -- node allocation, page allocation, table growth and unique_find *)
From Verif Require Export Inv.
Open Scope N_scope.

Section uf.
Context {E : Env} (HE : env_ok E).

Definition set_s_nc nc (s : mstate) := MState (s_heap s) nc (s_pcs s) (s_memo s) (s_vars s) (s_rnd s).
Definition set_s_pcs x (s : mstate) := MState (s_heap s) (s_nc s) x (s_memo s) (s_vars s) (s_rnd s).
Definition set_s_vars x (s : mstate) := MState (s_heap s) (s_nc s) (s_pcs s) (s_memo s) x (s_rnd s).
Definition set_s_heap x (s : mstate) := MState x (s_nc s) (s_pcs s) (s_memo s) (s_vars s) (s_rnd s).
Definition set_s_memo x (s : mstate) := MState (s_heap s) (s_nc s) (s_pcs s) x (s_vars s) (s_rnd s).

(** ** reserve_node *)
Lemma page_disj i j a b : a < node_page_size -> b < node_page_size -> i <> j ->
  e_page i + node_size * a <> e_page j + node_size * b.
Proof.
  intros Ha Hb Hij. destruct HE as (_&Hd&_). unfold node_size, node_page_size in *.
  destruct (Hd i j Hij); lia.
Qed.

Lemma reserve_node_spec s : nc_ok (s_heap s) (s_nc s) ->
  exists p nc', reserve_node s = Ok p (set_s_nc nc' s) /\ s_heap s !! p = None /\ 4096 <= p /\
    forall n, nc_ok (<[p := n]> (s_heap s)) nc'.
Proof.
  intros (Hnp&Hb&(k&Hk&Hptr)&Hav&Htot&Hal).
  assert (Hin : forall np base ptr kk,
     (1 <= np)%nat -> base = e_page (np - 1) -> kk < node_page_size -> ptr = base + node_size * kk ->
     (forall p, p ∈ dom (s_heap s) -> allocd (NCache np base ptr 0 (nc_total (s_nc s))) p) ->
     s_heap s !! ptr = None /\ 4096 <= ptr /\
     forall n, nc_ok (<[ptr := n]> (s_heap s)) (NCache np base (ptr + node_size) 0 (nc_total (s_nc s) + 1))).
  { intros np base ptr kk Hnp' Hbase Hkk Hp Hall.
    assert (Hnone : s_heap s !! ptr = None).
    { destruct (s_heap s !! ptr) as [n|] eqn:Hs; [|done].
      apply elem_of_dom_2 in Hs. destruct (Hall _ Hs) as (i&j&Hpij&[[Hi Hj]|[Hi Hlt]]); cbn [nc_npages nc_ptr] in *.
      - exfalso. subst base. assert (i <> (np - 1)%nat) by lia.
        apply (page_disj i (np - 1) j kk); auto. congruence.
      - lia. }
    split_and!; [done| |].
    - rewrite Hp, Hbase. destruct HE as (Hlo&_). specialize (Hlo (np - 1)%nat). lia.
    - intros n. unfold nc_ok; cbn [nc_npages nc_ptr nc_base nc_avail nc_total]. split_and!; auto.
      + exists (kk + 1). rewrite Hp. unfold node_page_size, node_size in *. lia.
      + rewrite map_size_insert_None by done. rewrite Htot. lia.
      + intros q Hq. rewrite dom_insert in Hq. apply elem_of_union in Hq as [Hq|Hq].
        * apply elem_of_singleton in Hq as ->. exists (np - 1)%nat, kk. split; [congruence|].
          right. cbn [nc_npages nc_ptr]. rewrite Hp. unfold node_size in *. split; [lia|]. rewrite <- Hbase. lia.
        * destruct (Hall q Hq) as (i&j&->&[[Hi Hj]|[Hi Hj]]); exists i, j; (split; [done|]);
            cbn [nc_npages nc_ptr] in *; [left|right]; unfold node_size in *; split; auto; lia. }
  unfold reserve_node. simpl. unfold bind, get, liftR. rewrite Hav. simpl.
  rewrite !assert_eq.
  2,3: apply N.leb_le; rewrite Hptr; unfold node_size, node_page_size in *; lia.
  idtac. rewrite Hptr. replace (nc_base (s_nc s) + node_size * k - nc_base (s_nc s)) with (k * node_size) by lia.
  rewrite N.div_mul by done.
  destruct (N.ltb_spec k node_page_size) as [Hlt|Hge].
  - destruct (Hin (nc_npages (s_nc s)) (nc_base (s_nc s)) (nc_base (s_nc s) + node_size * k) k) as (?&?&?); auto.
    { intros p Hp. destruct (Hal p Hp) as (i&j&->&?). exists i, j. simpl. rewrite <- Hptr. auto. }
    exists (nc_base (s_nc s) + node_size * k). eexists. split_and!; [reflexivity|..]; auto.
    simpl. rewrite Hav. done.
  - assert (k = node_page_size) as -> by lia.
    unfold set_nc. simpl. rewrite Hav. simpl. rewrite !assert_eq.
    2:{ apply N.leb_le. unfold node_size, node_page_size. lia. }
    2:{ apply N.leb_le. unfold node_size, node_page_size. lia. }
    rewrite N.sub_diag. simpl.
    destruct (Hin (S (nc_npages (s_nc s))) (e_page (nc_npages (s_nc s))) (e_page (nc_npages (s_nc s))) 0) as (?&?&?).
    + lia.
    + f_equal. lia.
    + done.
    + unfold node_size. lia.
    + intros p Hp. destruct (Hal p Hp) as (i&j&->&[[Hi Hj]|[Hi Hj]]); exists i, j; (split; [done|]);
        simpl; left; split; try lia. rewrite Hptr in Hj. assert (i = nc_npages (s_nc s) - 1)%nat as -> by lia.
      rewrite <- Hb in Hj. unfold node_size, node_page_size in *. lia.
    + eexists _, _. split_and!; [reflexivity|..]; auto.
Qed.

(** ** pages *)
Lemma pg_apart_sym x y : pg_apart x y -> pg_apart y x.
Proof. unfold pg_apart. intuition. Qed.
Lemma pg_apart_irr x : 0 < pi_cap x -> ~ pg_apart x x.
Proof. unfold pg_apart. intros H [?|[?|?]]; [done|lia|lia]. Qed.
Lemma avail_set c cls l f b : avail c (PCs (<[cls := l]> f) b) = if decide (cls = c) then l else default [] (f !! c).
Proof. unfold avail; cbn [pc_free]. case_decide; [subst; by rewrite lookup_insert|by rewrite lookup_insert_ne]. Qed.
Lemma pages_from_eq n cls b : forall o, pages_from n cls b (N.of_nat o * cls) = map (fun i => PgId cls b (N.of_nat i * cls)) (seq o n).
Proof.
  induction n as [|n IH]; intros o; [done|]. cbn [pages_from seq map]. f_equal. rewrite <- IH. f_equal. lia.
Qed.
Lemma fresh_pages_eq cls b : fresh_pages cls b = map (fun i => PgId cls b (N.of_nat i * cls)) (seq 0 (N.to_nat (nr_simul cls))).
Proof. unfold fresh_pages. by rewrite <- pages_from_eq. Qed.
Lemma fresh_in cls b x : x ∈ fresh_pages cls b <-> exists i, i < nr_simul cls /\ x = PgId cls b (i * cls).
Proof.
  rewrite fresh_pages_eq, elem_of_list_fmap. split.
  - intros (i&->&Hi%elem_of_seq). exists (N.of_nat i). split; [lia|done].
  - intros (i&Hi&->). exists (N.to_nat i). rewrite N2Nat.id. split; [done|]. apply elem_of_seq. lia.
Qed.
(** a new block *)
Lemma pg_fresh pcs ids cls : pg_ok pcs ids -> 0 < cls <= 1048576 -> avail cls pcs = [] ->
  pg_ok (PCs (<[cls := fresh_pages cls (pc_blk pcs)]> (pc_free pcs)) (S (pc_blk pcs))) ids.
Proof.
  intros HP Hcls Hav.
  assert (Hs : forall c x, x ∈ avail c (PCs (<[cls := fresh_pages cls (pc_blk pcs)]> (pc_free pcs)) (S (pc_blk pcs))) ->
     x ∈ avail c pcs \/ c = cls /\ exists i, i < nr_simul cls /\ x = PgId cls (pc_blk pcs) (i * cls)).
  { intros c x. rewrite avail_set. case_decide as Hc; [subst c|by left]. rewrite fresh_in. auto. }
  assert (Hold : forall x, (x ∈ ids \/ exists c, x ∈ avail c pcs) -> forall i, pg_apart x (PgId cls (pc_blk pcs) (i * cls))).
  { intros x Hx i. destruct (pg_in _ _ HP x Hx) as (_&?&_). left. cbn. lia. }
  assert (Hfit : forall i, i < nr_simul cls -> i * cls + cls <= 1048576).
  { intros i Hi. unfold nr_simul in Hi. transitivity (cls * (1048576 / cls)); [|apply N.mul_div_le; lia].
    transitivity (cls * (i + 1)); [lia|]. apply N.mul_le_mono_l. lia. }
  split.
  - apply (pg_tt _ _ HP).
  - intros x c y Hx [Hy|(->&i&Hi&->)]%Hs; [by eapply (pg_tf _ _ HP)|]. apply Hold. by left.
  - intros c c' x y [Hx|(->&i&Hi&->)]%Hs [Hy|(->&j&Hj&->)]%Hs.
    + by apply (pg_ff _ _ HP).
    + right. apply Hold. eauto.
    + right. apply pg_apart_sym, Hold. eauto.
    + destruct (decide (i = j)) as [->|Hne]; [by left|]. right. right. cbn [pi_off pi_cap].
      assert (i < j \/ j < i) as [Hlt|Hlt] by lia; [left|right].
      * transitivity (cls * (i + 1)); [lia|]. transitivity (cls * j); [|lia]. apply N.mul_le_mono_l. lia.
      * transitivity (cls * (j + 1)); [lia|]. transitivity (cls * i); [|lia]. apply N.mul_le_mono_l. lia.
  - intros c. rewrite avail_set. case_decide as Hc; [subst c|apply (pg_nd _ _ HP)]. rewrite fresh_pages_eq.
    apply (NoDup_fmap_2_strong (fun i => PgId cls (pc_blk pcs) (N.of_nat i * cls))); [|apply NoDup_seq]. intros i j _ _ [= He]. apply N.mul_cancel_r in He; lia.
  - intros c x [Hx|(->&i&Hi&->)]%Hs; [by apply (pg_capok _ _ HP)|cbn; lia].
  - intros x [Hx|(c&[Hx|(->&i&Hi&->)]%Hs)].
    + destruct (pg_in _ _ HP x) as (?&?&?); [by left|]. cbn [pc_blk]. split_and!; [done|lia|done].
    + destruct (pg_in _ _ HP x) as (?&?&?); [by eauto|]. cbn [pc_blk]. split_and!; [done|lia|done].
    + cbn [pc_blk pi_cap pi_blk pi_off]. split_and!; [lia|lia|]. by apply Hfit.
  - intros b Hb. cbn [pc_blk] in Hb. destruct (decide (b = pc_blk pcs)) as [->|Hne].
    + exists cls. split; [lia|]. intros i Hi. right. exists cls. rewrite avail_set, decide_True by done. apply fresh_in. eauto.
    + destruct (pg_all _ _ HP b) as (cl&Hcl&Hall); [lia|]. exists cl. split; [done|]. intros i Hi. destruct (Hall i Hi) as [?|(c&Hc)]; [by left|].
      right. exists c. rewrite avail_set. case_decide as Hcc; [|done]. subst c. rewrite Hav in Hc. by apply elem_of_nil in Hc.
Qed.
Lemma app_lookup_last {A} (l : list A) y i x : (l ++ [y]) !! i = Some x -> l !! i = Some x \/ i = length l /\ x = y.
Proof.
  intros [?|[Hi Hx]]%lookup_app_Some; [by left|]. right. destruct (i - length l)%nat eqn:Hd; cbn in Hx; [|done]. injection Hx as <-. split; [lia|done].
Qed.
(** a page leaves the free list *)
Lemma pg_pop pcs ids cls c rest : pg_ok pcs ids -> avail cls pcs = c :: rest ->
  pg_ok (PCs (<[cls := rest]> (pc_free pcs)) (pc_blk pcs)) (ids ++ [c]).
Proof.
  intros HP Hav. assert (Hcin : c ∈ avail cls pcs) by (rewrite Hav; by left).
  pose proof (pg_nd _ _ HP cls) as Hnd. rewrite Hav in Hnd. apply NoDup_cons in Hnd as [Hcr Hnd].
  assert (Hs : forall d x, x ∈ avail d (PCs (<[cls := rest]> (pc_free pcs)) (pc_blk pcs)) -> x ∈ avail d pcs /\ pg_apart c x).
  { intros d x. rewrite avail_set. case_decide as Hd; intros Hx.
    - subst d. assert (x ∈ avail cls pcs) as Hx' by (rewrite Hav; by right). split; [done|].
      destruct (pg_ff _ _ HP _ _ _ _ Hcin Hx') as [[_ ->]|?]; [done|done].
    - split; [done|]. destruct (pg_ff _ _ HP _ _ _ _ Hcin Hx) as [[? _]|?]; [done|done]. }
  split.
  - intros i j x y [Hx|[-> ->]]%app_lookup_last [Hy|[-> ->]]%app_lookup_last Hne.
    + by apply (pg_tt _ _ HP i j).
    + eapply (pg_tf _ _ HP); [by eapply elem_of_list_lookup_2|done].
    + apply pg_apart_sym. eapply (pg_tf _ _ HP); [by eapply elem_of_list_lookup_2|done].
    + done.
  - intros x d y [Hx|Hx]%elem_of_app [Hy Hcy]%Hs; [by eapply (pg_tf _ _ HP)|]. by apply elem_of_list_singleton in Hx as ->.
  - intros d d' x y [Hx _]%Hs [Hy _]%Hs. by apply (pg_ff _ _ HP).
  - intros d. rewrite avail_set. case_decide; [done|apply (pg_nd _ _ HP)].
  - intros d x [Hx _]%Hs. by apply (pg_capok _ _ HP).
  - intros x [[Hx|Hx]%elem_of_app|(d&[Hx _]%Hs)].
    + apply (pg_in _ _ HP). by left.
    + apply elem_of_list_singleton in Hx as ->. apply (pg_in _ _ HP). eauto.
    + apply (pg_in _ _ HP). eauto.
  - intros b Hb. destruct (pg_all _ _ HP b Hb) as (cl&Hcl&Hall). exists cl. split; [done|]. intros i Hi. destruct (Hall i Hi) as [?|(d&Hd)].
    + left. apply elem_of_app. by left.
    + destruct (decide (cls = d)) as [<-|Hne].
      * rewrite Hav in Hd. apply elem_of_cons in Hd as [->|Hd]; [left; apply elem_of_app; right; by apply elem_of_list_singleton|].
        right. exists cls. by rewrite avail_set, decide_True.
      * right. exists d. by rewrite avail_set, decide_False.
Qed.
Lemma reserve_page_spec cls s ids : pg_ok (s_pcs s) ids -> 0 < cls <= 1048576 ->
  exists c pcs', reserve_page cls s = Ok (Page c (repeat 0 (N.to_nat cls))) (set_s_pcs pcs' s) /\
    cls <= pi_cap c /\ pg_ok pcs' (ids ++ [c]).
Proof.
  intros HP Hcls. unfold reserve_page, bind, get.
  assert (Hst : exists c rest blk pcs, match avail cls (s_pcs s) with
            | [] => (fresh_pages cls (pc_blk (s_pcs s)), S (pc_blk (s_pcs s))) | l => (l, pc_blk (s_pcs s)) end = (c :: rest, blk) /\
            pg_ok pcs ids /\ avail cls pcs = c :: rest /\ pc_blk pcs = blk /\ (forall l, <[cls := l]> (pc_free pcs) = <[cls := l]> (pc_free (s_pcs s)))).
  { destruct (avail cls (s_pcs s)) as [|c rest] eqn:Hav.
    - pose proof (pg_fresh _ _ cls HP Hcls Hav) as HP'.
      destruct (fresh_pages cls (pc_blk (s_pcs s))) as [|c rest] eqn:Hf.
      { assert (PgId cls (pc_blk (s_pcs s)) (0 * cls) ∈ fresh_pages cls (pc_blk (s_pcs s))) as Hin.
        { apply fresh_in. exists 0. split; [|done]. unfold nr_simul. apply N.div_str_pos. lia. }
        rewrite Hf in Hin. by apply elem_of_nil in Hin. }
      exists c, rest. eexists _, _. split; [reflexivity|]. split; [exact HP'|]. split; [by rewrite avail_set, decide_True|]. split; [done|].
      intros l. cbn [pc_free]. by rewrite insert_insert.
    - exists c, rest. eexists _, (s_pcs s). done. }
  destruct Hst as (c&rest&blk&pcs&->&HP'&Hav&Hblk&Hins).
  assert (Hc : cls <= pi_cap c). { apply (pg_capok _ _ HP'). rewrite Hav. by left. }
  unfold set_pcs. assert (pi_cap c <? cls = false) as -> by (by apply N.ltb_ge).
  eexists c, _. split_and!; [reflexivity|done|]. pose proof (pg_pop _ _ _ _ _ HP' Hav) as HP2. by rewrite Hblk, Hins in HP2.
Qed.

(** a table's page is replaced by the page just taken, and given back *)
Lemma pg_swap cls x c v pcs ids : pg_ok pcs (ids ++ [c]) -> ids !! v = Some x -> cls <= pi_cap x ->
  pg_ok (PCs (<[cls := x :: avail cls pcs]> (pc_free pcs)) (pc_blk pcs)) (<[v := c]> ids).
Proof.
  intros HP Hv Hc. pose proof (lookup_lt_Some _ _ _ Hv) as Hlt.
  assert (Hcl : (ids ++ [c]) !! length ids = Some c) by (by apply list_lookup_middle).
  assert (Hl : forall i y, <[v := c]> ids !! i = Some y -> exists j, (ids ++ [c]) !! j = Some y /\ j <> v /\ (i = v -> j = length ids) /\ (i <> v -> j = i)).
  { intros i y Hi. destruct (decide (i = v)) as [->|Hne].
    - rewrite list_lookup_insert in Hi by done. injection Hi as <-. exists (length ids). split_and!; auto; [lia|done].
    - rewrite list_lookup_insert_ne in Hi by done. exists i. split_and!; auto; [|done]. by apply lookup_app_l_Some. }
  assert (Hv' : (ids ++ [c]) !! v = Some x) by (by apply lookup_app_l_Some).
  assert (Hx : x ∈ ids ++ [c]) by (by eapply elem_of_list_lookup_2).
  assert (Hs : forall d y, y ∈ avail d (PCs (<[cls := x :: avail cls pcs]> (pc_free pcs)) (pc_blk pcs)) -> y ∈ avail d pcs \/ d = cls /\ y = x).
  { intros d y. rewrite avail_set. case_decide; [subst d|by left]. rewrite elem_of_cons. intros [->|?]; [by right|by left]. }
  assert (Hin : forall y, y ∈ <[v := c]> ids -> y ∈ ids ++ [c] /\ pg_apart y x).
  { intros y [i Hi]%elem_of_list_lookup. destruct (Hl i y Hi) as (j&Hj&Hjv&_). split; [by eapply elem_of_list_lookup_2|]. by apply (pg_tt _ _ HP j v). }
  split.
  - intros i j y z Hi Hj Hne. destruct (Hl i y Hi) as (i'&Hi'&_&Hi1&Hi2). destruct (Hl j z Hj) as (j'&Hj'&_&Hj1&Hj2).
    apply (pg_tt _ _ HP i' j'); auto. assert (i < length ids /\ j < length ids)%nat as [? ?].
    { apply lookup_lt_Some in Hi, Hj. rewrite insert_length in Hi, Hj. done. }
    destruct (decide (i = v)), (decide (j = v)); subst; rewrite ?Hi1, ?Hi2, ?Hj1, ?Hj2 by done; lia.
  - intros y d z [Hy Hyx]%Hin [Hz|[-> ->]]%Hs; [by eapply (pg_tf _ _ HP)|done].
  - intros d d' y z [Hy|[-> ->]]%Hs [Hz|[-> ->]]%Hs; [by apply (pg_ff _ _ HP)| | |by left].
    + right. apply pg_apart_sym. by eapply (pg_tf _ _ HP).
    + right. by eapply (pg_tf _ _ HP).
  - intros d. rewrite avail_set. case_decide; [subst d|apply (pg_nd _ _ HP)]. constructor; [|apply (pg_nd _ _ HP)].
    intros Hxa. destruct (pg_in _ _ HP x) as (H0&_); [by left|]. by eapply pg_apart_irr, (pg_tf _ _ HP).
  - intros d y [Hy|[-> ->]]%Hs; [by apply (pg_capok _ _ HP)|done].
  - intros y [[Hy _]%Hin|(d&[Hy|[-> ->]]%Hs)]; apply (pg_in _ _ HP); eauto.
  - intros b Hb. destruct (pg_all _ _ HP b Hb) as (cl&Hcl'&Hall). exists cl. split; [done|]. intros i Hi. destruct (Hall i Hi) as [Hd|(d&Hd)].
    + apply elem_of_list_lookup in Hd as [j Hj]. destruct (decide (j = v)) as [->|Hne].
      * right. exists cls. rewrite avail_set, decide_True by done. rewrite Hv' in Hj. injection Hj as ->. by left.
      * left. apply elem_of_list_lookup. apply app_lookup_last in Hj as [Hj|[-> ->]].
        { exists j. by rewrite list_lookup_insert_ne. }
        { exists v. by apply list_lookup_insert. }
    + right. exists d. rewrite avail_set. case_decide; [subst d; by right|done].
Qed.

Lemma k_cases k : 6 <= k <= 19 -> k ∈ [6;7;8;9;10;11;12;13;14;15;16;17;18;19].
Proof. intros H. rewrite !elem_of_cons. lia. Qed.

Lemma new_page_spec k s ids : pg_ok (s_pcs s) ids -> 6 <= k < 19 ->
  exists c m pcs', new_page (N.ones (k + 1)) s = Ok (Page c (repeat 0 m)) (set_s_pcs pcs' s) /\
    2 ^ (k + 1) <= pi_cap c /\ (tsize (k + 1) <= m)%nat /\ pg_ok pcs' (ids ++ [c]) /\ N.of_nat m <= 524288.
Proof.
  intros Hp Hk. unfold new_page, tsize.
  assert (Hc : exists cls, (N.ones (k + 1) =? 1048575) = false /\ new_page_class (N.ones (k + 1)) = Some cls /\
     2 ^ (k + 1) <= cls /\ cls <= 524288).
  { assert (Hcs := k_cases k ltac:(lia)). rewrite !elem_of_cons in Hcs.
    repeat destruct Hcs as [-> |Hcs]; try lia; try (eexists; split_and!; [reflexivity|vm_compute; reflexivity|done|done]).
    by apply elem_of_nil in Hcs. }
  destruct Hc as (cls&->&->&Hle&Hle').
  destruct (reserve_page_spec cls s ids Hp) as (c&pcs'&Heq&?&?).
  { pose proof (pow_pos (k + 1)). lia. }
  eexists c, _, pcs'. split_and!; [exact Heq|lia|lia|done|lia].
Qed.

Lemma free_page_spec k pg s : 6 <= k <= 19 ->
  free_page pg (N.ones k) s = Ok tt (set_s_pcs (PCs (<[2 ^ k := pg_id pg :: avail (2 ^ k) (s_pcs s)]> (pc_free (s_pcs s))) (pc_blk (s_pcs s))) s).
Proof.
  intros Hk. unfold free_page.
  assert (free_page_class (N.ones k) = Some (2 ^ k)) as ->; [|done].
  assert (Hcs := k_cases k Hk). rewrite !elem_of_cons in Hcs.
  repeat destruct Hcs as [-> |Hcs]; try lia; try (vm_compute; reflexivity). by apply elem_of_nil in Hcs.
Qed.

(** ** tables *)
Lemma cells_shape k t : vt_shape k t -> cells t = inr (take (tsize k) (pg_slots (vt_page t))).
Proof.
  intros (Hm&Hk&Hl). unfold cells. rewrite (vt_size_shape k) by done.
  destruct (Nat.leb_spec (tsize k) (length (pg_slots (vt_page t)))); [done|lia].
Qed.

Lemma ones_double k : N.ones k + N.ones k + 1 = N.ones (k + 1).
Proof. rewrite !N.ones_equiv, N.pow_add_r. pose proof (pow_pos k). change (2 ^ 1) with 2. lia. Qed.

Lemma tsize_double k : tsize (k + 1) = (2 * tsize k)%nat.
Proof. unfold tsize. rewrite N.pow_add_r. change (2 ^ 1) with 2. lia. Qed.

Lemma var_nodes_dom h v p : var_nodes h v p -> p ∈ dom (nodes_of h v).
Proof.
  intros (_&n&Hn&Hv). apply elem_of_dom. exists n. unfold nodes_of. apply map_filter_lookup_Some. auto.
Qed.

Lemma tab_used h v t k : vt_shape k t -> ptab h k (pg_slots (vt_page t)) (var_nodes h v) ->
  (tsize k - zeros k (pg_slots (vt_page t)) <= size (nodes_of h v))%nat.
Proof.
  intros Hs HT. rewrite <- (size_dom (D := gset N)). eapply used_le_size; [done|]. intros p. apply var_nodes_dom.
Qed.

Lemma hcode_node md nv h p n : heap_ok md nv h -> ~ sink p -> h !! p = Some n -> exists hc, hcode h p = Some hc.
Proof.
  intros Hh Hs Hn. destruct (ho_node _ _ _ Hh p n Hn Hs) as (_&_&_&t&Ht).
  destruct (repr_nonsink _ _ _ Ht Hs) as (n'&tl&th&Hn'&->&Hl&Hr). simplify_eq.
  destruct (repr_in _ _ _ _ _ Hh Hl) as [a Ha]. destruct (repr_in _ _ _ _ _ Hh Hr) as [b Hb].
  unfold hcode, hkey. rewrite Hn, Ha, Hb. eauto.
Qed.

Lemma pids_same vs v t t' : vs !! v = Some t -> pg_id (vt_page t') = pg_id (vt_page t) -> pids (<[v := t']> vs) = pids vs.
Proof.
  intros Hv He. unfold pids. rewrite (list_fmap_insert (fun t => pg_id (vt_page t))), He. apply list_insert_id.
  by rewrite (list_lookup_fmap (fun t => pg_id (vt_page t))), Hv.
Qed.
Lemma inv_set_tab md H s v t' pcs' : Inv md H s -> tab_ok (s_heap s) (N.of_nat v) t' -> pg_ok pcs' (pids (<[v := t']> (s_vars s))) ->
  Inv md H (set_s_pcs pcs' (set_s_vars (<[v := t']> (s_vars s)) s)).
Proof.
  intros [] Ht Hp. constructor; simpl; try (rewrite insert_length); auto.
  intros w t Hw. destruct (decide (w = v)) as [->|Hne].
  - destruct (decide (v < length (s_vars s))%nat).
    + rewrite list_lookup_insert in Hw by done. by simplify_eq.
    + rewrite list_insert_ge in Hw by lia. auto.
  - rewrite list_lookup_insert_ne in Hw by done. auto.
Qed.

Lemma filter_used (l : list N) k : (tsize k <= length l)%nat ->
  (length (filter (fun p => p <> 0%N) (take (tsize k) l)) = tsize k - zeros k l)%nat.
Proof.
  intros Hl. pose proof (filter_neg_len (take (tsize k) l)) as Hn. rewrite take_length, Nat.min_l in Hn by done.
  unfold zeros. lia.
Qed.

Lemma sub64_sub a b : b <= a -> a < two64 -> sub64 a b = a - b.
Proof.
  intros Hle Hlt. unfold sub64. rewrite (N.mod_small b) by lia.
  replace (a + (two64 - b)) with ((a - b) + 1 * two64) by lia.
  rewrite N.mod_add by done. apply N.mod_small. lia.
Qed.

Lemma tab_zeros_pos k t : vt_shape k t ->
  (2 * (tsize k - zeros k (pg_slots (vt_page t))) <= tsize k + 2)%nat ->
  (0 < zeros k (pg_slots (vt_page t)))%nat.
Proof.
  intros (_&Hk&_) Hu. assert (64 <= tsize k)%nat; [|lia].
  unfold tsize. pose proof (N.pow_le_mono_r 2 6 k ltac:(lia) Hk). change (2 ^ 6) with 64 in *. lia.
Qed.

(** the half-full test is about the number of stored nodes *)
Lemma over_half_spec t k : vt_shape k t -> k <= 19 -> vt_free t = N.of_nat (zeros k (pg_slots (vt_page t))) ->
  over_half_full t = true <-> (tsize k < 2 * (tsize k - zeros k (pg_slots (vt_page t))))%nat.
Proof.
  intros Hs Hk Hf. unfold over_half_full. rewrite Hf.
  assert (Hsz : vt_size t = N.of_nat (tsize k)).
  { rewrite <- (vt_size_shape k t) by apply Hs. lia. }
  rewrite Hsz. pose proof (zeros_le k (pg_slots (vt_page t))).
  rewrite sub64_sub; [|lia|].
  - rewrite N.ltb_lt. lia.
  - unfold tsize, two64. pose proof (N.pow_le_mono_r 2 k 19 ltac:(lia) Hk).
    change (2 ^ 19) with 524288 in *. lia.
Qed.

Lemma sat_step {A B} (m : M A) (k : A -> M B) s Q Q' :
  sat m s Q' -> (forall a s', Q' a s' -> sat (k a) s' Q) -> sat (bind m k) s Q.
Proof. apply sat_bind_inv. Qed.

Lemma double_cache_spec md H s v t : Inv md H s -> s_vars s !! N.to_nat v = Some t ->
  over_half_full t = true ->
  sat (double_cache v) s (fun _ s' => exists t' pcs',
    s' = set_s_pcs pcs' (set_s_vars (<[N.to_nat v := t']> (s_vars s)) s) /\
    Inv md H s' /\ over_half_full t' = false /\ vt_timer t' = vt_timer t).
Proof.
  intros HI Hv Hover. pose proof (i_tab _ _ _ HI _ _ Hv) as (k&Hs&Hk&HT&Hf&Hused&Hcap&Hlow&Hmx).
  pose proof (proj1 (over_half_spec t k Hs Hk Hf) Hover) as Hhalf.
  pose proof Hs as (Hm&Hk6&Hlen). pose proof (zeros_le k (pg_slots (vt_page t))) as Hzle.
  rewrite N2Nat.id in HT.
  unfold double_cache. eapply sat_bind_ok; [by apply getV_eq|]. rewrite Hm.
  assert (N.ones k =? 1048575 = false) as ->.
  { apply N.eqb_neq. assert (Hcs := k_cases k ltac:(lia)). rewrite !elem_of_cons in Hcs.
    repeat destruct Hcs as [-> |Hcs]; try done. by apply elem_of_nil in Hcs. }
  apply sat_bind. apply sat_assertM.
  { intros _. unfold nr_free_slots_debug. rewrite (cells_shape k) by done. simpl.
    eapply sat_ok; [reflexivity|]. split; [|done]. rewrite Hf. apply N.eqb_eq. done. }
  eapply sat_bind_ok; [apply liftR_eq, (cells_shape k); done|].
  rewrite ones_double. simpl vt_mask.
  eapply sat_bind_ok; [reflexivity|].
  destruct (decide (k = 19)) as [->|Hk19].
  { unfold new_page. change (N.ones (19 + 1) =? 1048575) with true. unfold bind, fail, sat.
    split; [|split].
    3:{ intros p n Hp. change (s_heap s !! p = Some n) in Hp. destruct (ho_sink _ _ _ (i_heap _ _ _ HI)) as [[x Hb] [y Ht]].
        destruct (decide (p = botsink)) as [->|Hpb]; [rewrite Hb in Hp; by injection Hp as <-|].
        destruct (decide (p = topsink)) as [->|Hpt]; [rewrite Ht in Hp; by injection Hp as <-|].
        apply (ho_node _ _ _ (i_heap _ _ _ HI) p n Hp). by intros [?|?]. }
    2:{ exists (N.to_nat v), (with_mask (N.ones (19 + 1)) t). split; [by apply list_lookup_insert; apply lookup_lt_Some in Hv|].
        cbn [with_mask vt_page vt_mask]. change (N.ones (19 + 1) + 1) with 1048576. lia. }
    exists v. simpl. pose proof (tab_used _ _ _ _ Hs HT) as Hu.
    assert (524288 < 2 * N.of_nat (tsize 19 - zeros 19 (pg_slots (vt_page t)))); [|lia].
    assert (N.of_nat (tsize 19) = 524288) by (unfold tsize; rewrite N2Nat.id; reflexivity). lia. }
  destruct (new_page_spec k (set_s_vars (<[N.to_nat v := with_mask (N.ones (k+1)) t]> (s_vars s)) s) (pids (s_vars s))) as (c&m&pcs'&Hnp&Hc&Hmm&Hpcs'&Hm5).
  { apply HI. } { lia. }
  eapply sat_bind_ok; [exact Hnp|]. cbv zeta.
  set (t1 := with_page (Page c (repeat 0 m)) (with_mask (N.ones (k + 1)) t)).
  assert (Hs1 : vt_shape (k + 1) t1).
  { split_and!; [done|lia|]. simpl. rewrite repeat_length. done. }
  apply sat_bind. apply sat_assertM.
  { intros _. rewrite (cells_shape (k + 1)) by done. eapply sat_ok; [reflexivity|]. split; [|done].
    apply forallb_forall. intros x Hx. apply elem_of_list_In, elem_of_take in Hx as (i&Hi&_). simpl in Hi.
    apply repeat_lookup_0 in Hi as ->. done. }
  eapply sat_bind_ok; [reflexivity|].
  assert (Hz1 : zeros (k + 1) (repeat 0 m) = tsize (k + 1)) by (apply zeros_repeat; done).
  destruct (rehash_spec (s_heap s) (k + 1) (take (tsize k) (pg_slots (vt_page t))) t1 (fun _ => False) Hs1)
    as (l'&Hl'&Hlen'&HT'&Hz').
  { by apply ptab_empty. }
  { intros p Hp Hp0. split; [tauto|]. apply elem_of_take in Hp as (i&Hi&Hlt).
    destruct (pt_in _ _ _ _ HT i p Hlt Hi Hp0) as (Hns&n&Hn&_). eapply hcode_node; eauto. apply HI. }
  { intros i j p Hp Hi Hj. apply lookup_take_Some in Hi as [??], Hj as [??].
    eapply (pt_inj _ _ _ _ HT); eauto. }
  { simpl. rewrite Hz1, tsize_double, filter_used by done. lia. }
  eapply sat_bind_ok; [apply liftR_eq; exact Hl'|]. cbv zeta.
  eapply sat_bind_ok; [reflexivity|].
  set (t2 := with_free (vt_free (with_page _ _) + (N.ones k + 1)) _).
  match goal with |- sat _ ?x _ => set (s3 := x) end.
  pose proof (free_page_spec k (vt_page t) s3 ltac:(lia)) as Hfp. set (pcs2 := PCs _ _) in Hfp.
  assert (Hpcs2 : pg_ok pcs2 (pids (<[N.to_nat v := t2]> (s_vars s)))).
  { unfold pids. rewrite (list_fmap_insert (fun t => pg_id (vt_page t))). apply pg_swap; [exact Hpcs'| |exact Hcap]. rewrite (list_lookup_fmap (fun t => pg_id (vt_page t))), Hv. done. }
  simpl pg_slots in Hlen'. rewrite repeat_length in Hlen'.
  rewrite filter_used in Hz' by done. simpl pg_slots in Hz'. rewrite Hz1, tsize_double in Hz'.
  assert (Hs2 : vt_shape (k + 1) t2).
  { split_and!; [done|lia|]. simpl. lia. }
  assert (Hf2 : vt_free t2 = N.of_nat (zeros (k + 1) (pg_slots (vt_page t2)))).
  { simpl. rewrite Hf. rewrite N.ones_equiv. pose proof (pow_pos k). unfold tsize in *. lia. }
  assert (64 <= tsize k)%nat.
  { unfold tsize. pose proof (N.pow_le_mono_r 2 6 k ltac:(lia) Hk6). change (2 ^ 6) with 64 in *. lia. }
  eapply sat_ok; [exact Hfp|]. exists t2, pcs2. split_and!.
  - unfold s3, set_s_pcs, set_s_vars. simpl. by rewrite list_insert_insert.
  - assert (set_s_pcs pcs2 s3 = set_s_pcs pcs2 (set_s_vars (<[N.to_nat v:=t2]> (s_vars s)) s)) as ->.
    { unfold s3, set_s_pcs, set_s_vars. simpl. by rewrite list_insert_insert. }
    apply inv_set_tab; auto. exists (k + 1). split; [done|]. split; [lia|]. split; [|split; [done|split; [|split; [done|split; [intros _|]]]]].
    + simpl. rewrite N2Nat.id. eapply ptab_proper; [|exact HT']. intros p. split.
      * intros [[]|[Hp Hp0]]. apply elem_of_take in Hp as (i&Hi&Hlt). eapply pt_in; eauto.
      * intros Hp. right. destruct (pt_all _ _ _ _ HT p Hp) as (Hp0&i&Hi&Hli). split; [|done].
        apply elem_of_take. eauto.
    + simpl pg_slots. rewrite tsize_double. lia.
    + simpl pg_slots. rewrite tsize_double. lia.
    + simpl pg_slots. lia.
  - apply not_true_is_false. rewrite (over_half_spec t2 (k + 1)) by (auto; lia). simpl pg_slots. rewrite tsize_double. lia.
  - done.
Qed.

(** ** init_new_node *)
Definition inc (p : ptr) (h : heap) : heap := alter (with_xref (fun x => (x + 1)%Z)) p h.
Lemma xref_inc_eq p s n : s_heap s !! p = Some n -> xref_inc p s = Ok tt (set_s_heap (inc p (s_heap s)) s).
Proof.
  intros Hp. unfold xref_inc, modN. rewrite (bind_eq _ _ _ _ _ (getN_eq _ _ _ Hp)).
  unfold set_heap, inc, set_s_heap. do 2 f_equal. apply map_eq. intros q.
  destruct (decide (p = q)) as [->|Hne].
  - by rewrite lookup_insert, lookup_alter, Hp.
  - by rewrite lookup_insert_ne, lookup_alter_ne.
Qed.

Lemma inc_lookup p h q : inc p h !! q = (if decide (p = q) then with_xref (fun x => (x + 1)%Z) <$> h !! q else h !! q).
Proof. unfold inc. case_decide; subst; [apply lookup_alter|by apply lookup_alter_ne]. Qed.

(** heap after adding node [p] = (v, l, r) *)
Definition new_heap (p v l r key : N) (h : heap) : heap := <[p := Node l r v key false 0]> (inc l (inc r h)).

Lemma new_heap_same p v l r key h : new_heap p v l r key h !! p = Some (Node l r v key false 0).
Proof. apply lookup_insert. Qed.
Lemma new_heap_other p v l r key h q : q <> p -> new_heap p v l r key h !! q =
  (fun n => Node (n_lo n) (n_hi n) (n_idx n) (n_key n) (n_mark n)
     (n_xref n + (if decide (l = q) then 1 else 0) + (if decide (r = q) then 1 else 0))%Z) <$> h !! q.
Proof.
  intros Hq. unfold new_heap. rewrite lookup_insert_ne by done. rewrite !inc_lookup.
  destruct (h !! q) as [[a b c d e f]|]; [|by repeat case_decide].
  repeat case_decide; unfold with_xref; simpl; do 2 f_equal; lia.
Qed.
Lemma new_heap_ext p v l r key h : h !! p = None -> hext h (new_heap p v l r key h).
Proof.
  intros Hp q n Hq. rewrite new_heap_other by congruence. rewrite Hq. simpl. eexists. split; [done|]. done.
Qed.
Lemma new_heap_inv p v l r key h q n' : q <> p -> new_heap p v l r key h !! q = Some n' ->
  exists n, h !! q = Some n /\ same_core n n'.
Proof.
  intros Hq Hn. rewrite new_heap_other in Hn by done. destruct (h !! q) as [n|]; simpl in Hn; simplify_eq.
  eexists. split; [done|]. done.
Qed.

Lemma refs_inc h q p : refs (inc q h) p = refs h p.
Proof.
  unfold inc. destruct (h !! q) as [n|] eqn:Hq.
  - assert (alter (with_xref (fun x => (x + 1)%Z)) q h = <[q := with_xref (fun x => (x + 1)%Z) n]> h) as ->.
    { apply map_eq. intros i. destruct (decide (q = i)) as [->|?].
      - by rewrite lookup_alter, lookup_insert, Hq.
      - by rewrite lookup_alter_ne, lookup_insert_ne. }
    by apply (refs_update h q n).
  - assert (alter (with_xref (fun x => (x + 1)%Z)) q h = h) as ->; [|done].
    apply map_eq. intros i. destruct (decide (q = i)) as [->|?].
    + by rewrite lookup_alter, Hq.
    + by rewrite lookup_alter_ne.
Qed.

Lemma refs_zero h p : (forall q n, h !! q = Some n -> ~ sink q -> n_lo n <> p /\ n_hi n <> p) -> refs h p = 0%Z.
Proof.
  revert h. apply (map_ind (fun h => (forall q n, h !! q = Some n -> ~ sink q -> n_lo n <> p /\ n_hi n <> p) -> refs h p = 0%Z)).
  - intros _. apply refs_empty.
  - intros q n h Hq IH Hall. rewrite refs_insert by done. rewrite IH.
    + case_decide; [lia|]. destruct (Hall q n) as [? ?]; [apply lookup_insert|done|].
      unfold arcs. rewrite !decide_False by done. lia.
    + intros q' n' Hq' Hs. apply (Hall q'); [|done]. rewrite lookup_insert_ne; [done|congruence].
Qed.

Lemma node_children md nv h p n : heap_ok md nv h -> h !! p = Some n -> ~ sink p ->
  exists tl th, repr h (n_lo n) tl /\ repr h (n_hi n) th.
Proof.
  intros Hh Hn Hs. destruct (ho_node _ _ _ Hh p n Hn Hs) as (_&_&_&t&Ht).
  destruct (repr_nonsink _ _ _ Ht Hs) as (n'&tl&th&Hn'&->&Hl&Hr). simplify_eq. eauto.
Qed.

Lemma refs_fresh md nv h p : heap_ok md nv h -> h !! p = None -> refs h p = 0%Z.
Proof.
  intros Hh Hp. apply refs_zero. intros q n Hq Hs. destruct (node_children _ _ _ _ _ Hh Hq Hs) as (tl&th&Hl&Hr).
  destruct (repr_in _ _ _ _ _ Hh Hl) as [a Ha]. destruct (repr_in _ _ _ _ _ Hh Hr) as [b Hb]. split; congruence.
Qed.

Lemma new_heap_ok md nv h p v l r key tl th :
  heap_ok md nv h -> N.of_nat nv <= topsink_index -> h !! p = None -> v < N.of_nat nv ->
  l <> r -> repr h l tl -> repr h r th ->
  (md_ord md = true -> ordt (v + 1) tl /\ ordt (v + 1) th) ->
  (forall q n, ~ sink q -> h !! q = Some n -> n_idx n = v -> ~ (n_lo n = l /\ n_hi n = r)) ->
  heap_ok md nv (new_heap p v l r key h) /\ repr (new_heap p v l r key h) p (Br v tl th).
Proof.
  intros Hh Hnv Hp Hv Hlr Hl Hr Ho Hu. pose proof (new_heap_ext p v l r key h Hp) as He.
  destruct (ho_sink _ _ _ Hh) as [[x Hb] [y Ht]].
  assert (Hps : ~ sink p) by (intros [-> | ->]; congruence).
  assert (Hrp : repr (new_heap p v l r key h) p (Br v tl th)).
  { change (Br v tl th) with (Br (n_idx (Node l r v key false 0)) tl th).
    apply repr_br; [done|apply new_heap_same|..]; simpl; by eapply repr_ext. }
  split; [|done]. constructor.
  - split.
    + rewrite new_heap_other by congruence. rewrite Hb. simpl. eauto.
    + rewrite new_heap_other by congruence. rewrite Ht. simpl. eauto.
  - intros q n Hq Hs. destruct (decide (q = p)) as [->|Hqp].
    + rewrite new_heap_same in Hq. simplify_eq. simpl. split_and!; eauto.
    + destruct (new_heap_inv _ _ _ _ _ _ _ _ Hqp Hq) as (n0&Hn0&Hlo&Hhi&Hi&_&Hm).
      destruct (ho_node _ _ _ Hh q n0 Hn0 Hs) as (?&?&?&t&?). rewrite <- Hlo, <- Hhi, <- Hi, <- Hm.
      split_and!; auto. exists t. by eapply repr_ext.
  - intros q q' n n' Hsq Hsq' Hq Hq' Hi Hlo Hhi.
    destruct (decide (q = p)) as [->|Hqp], (decide (q' = p)) as [->|Hqp']; [done|..].
    + rewrite new_heap_same in Hq. simplify_eq. simpl in *.
      destruct (new_heap_inv _ _ _ _ _ _ _ _ Hqp' Hq') as (n0&Hn0&Hlo0&Hhi0&Hi0&_).
      exfalso. eapply (Hu q' n0); eauto; [congruence|]. split; congruence.
    + rewrite new_heap_same in Hq'. simplify_eq. simpl in *.
      destruct (new_heap_inv _ _ _ _ _ _ _ _ Hqp Hq) as (n0&Hn0&Hlo0&Hhi0&Hi0&_).
      exfalso. eapply (Hu q n0); eauto; [congruence|]. split; congruence.
    + destruct (new_heap_inv _ _ _ _ _ _ _ _ Hqp Hq) as (n0&Hn0&Hlo0&Hhi0&Hi0&_).
      destruct (new_heap_inv _ _ _ _ _ _ _ _ Hqp' Hq') as (n1&Hn1&Hlo1&Hhi1&Hi1&_).
      eapply (ho_uniq _ _ _ Hh q q' n0 n1); eauto; congruence.
  - intros Hmd q t Hq. destruct (decide (q = p)) as [->|Hqp].
    + rewrite (repr_fun _ _ _ _ Hq Hrp). destruct (Ho Hmd). simpl. split_and!; auto; lia.
    + assert (exists t', repr h q t') as [t' Ht'].
      { destruct (decide (sink q)) as [[-> | ->]|Hs]; [by eexists; constructor..|].
        destruct (repr_nonsink _ _ _ Hq Hs) as (n&?&?&Hn&_).
        destruct (new_heap_inv _ _ _ _ _ _ _ _ Hqp Hn) as (n0&Hn0&_).
        destruct (ho_node _ _ _ Hh q n0 Hn0 Hs) as (_&_&_&?). done. }
      rewrite (repr_fun _ _ _ _ Hq (repr_ext _ _ _ _ He Ht')). by eapply (ho_ord _ _ _ Hh).
Qed.

Lemma init_new_node_eq s p v l r : v < maxvarsize -> is_Some (s_heap s !! l) -> is_Some (s_heap s !! r) ->
  init_new_node p v l r s =
  Ok tt (MState (new_heap p v l r (e_rand (s_rnd s)) (s_heap s)) (s_nc s) (s_pcs s) (s_memo s) (s_vars s) (S (s_rnd s))).
Proof.
  intros Hv [a Ha] [b Hb]. unfold init_new_node.
  rewrite (bind_eq _ _ _ _ _ (assert_eq _ _ (proj2 (N.ltb_lt _ _) Hv))).
  rewrite (bind_eq _ _ _ _ _ (xref_inc_eq _ _ _ Hb)).
  assert (exists a', s_heap (set_s_heap (inc r (s_heap s)) s) !! l = Some a') as [a' Ha'].
  { simpl. rewrite inc_lookup, Ha. simpl. case_decide; eauto. }
  rewrite (bind_eq _ _ _ _ _ (xref_inc_eq _ _ _ Ha')). unfold bind, get, set_rnd, set_heap, set_s_heap. simpl.
  rewrite N.mod_small by done. done.
Qed.

Lemma xref_ok_new H h p v l r key md nv : heap_ok md nv h -> xref_ok H h -> h !! p = None -> H p = 0%Z ->
  is_Some (h !! l) -> is_Some (h !! r) -> ~ sink p ->
  xref_ok H (new_heap p v l r key h).
Proof.
  intros Hh Hx Hp HHp Hl Hr Hps q n Hq.
  assert (Hpn : inc l (inc r h) !! p = None) by (rewrite !inc_lookup, Hp; by repeat case_decide).
  assert (Href : refs (new_heap p v l r key h) q = (refs h q + arcs (Node l r v key false 0) q)%Z).
  { unfold new_heap. rewrite refs_insert by done. rewrite !refs_inc. rewrite decide_False by done. done. }
  rewrite Href. destruct (decide (q = p)) as [->|Hqp].
  - rewrite new_heap_same in Hq. simplify_eq. simpl. rewrite (refs_fresh _ _ _ _ Hh Hp), HHp.
    unfold arcs. simpl. destruct Hl as [a Ha], Hr as [b Hb].
    rewrite !decide_False; [lia|done|congruence|congruence].
  - rewrite new_heap_other in Hq by done. destruct (h !! q) as [n0|] eqn:Hn0; simpl in Hq; simplify_eq. simpl.
    rewrite (Hx q n0 Hn0). unfold arcs. simpl. lia.
Qed.

Lemma var_nodes_new h p v l r key w q : h !! p = None -> ~ sink p ->
  var_nodes (new_heap p v l r key h) w q <-> (w = v /\ q = p) \/ var_nodes h w q.
Proof.
  intros Hp Hps. unfold var_nodes. split.
  - intros (Hs&n&Hn&Hi). destruct (decide (q = p)) as [->|Hqp].
    + rewrite new_heap_same in Hn. simplify_eq. simpl. auto.
    + destruct (new_heap_inv _ _ _ _ _ _ _ _ Hqp Hn) as (n0&Hn0&_&_&Hi0&_). right. split; [done|].
      exists n0. split; [done|congruence].
  - intros [[-> ->]|(Hs&n&Hn&Hi)].
    + split; [done|]. eexists. split; [apply new_heap_same|done].
    + split; [done|]. destruct (new_heap_ext p v l r key h Hp q n Hn) as (n'&Hn'&_&_&Hi'&_). exists n'.
      split; [done|congruence].
Qed.

Definition br (v : N) (tl th : bdd) : bdd := if decide (tl = th) then tl else Br v tl th.
Lemma evalt_mkbr v tl th r : evalt (br v tl th) r = if r v then evalt th r else evalt tl r.
Proof. unfold br. case_decide; subst; simpl; [by destruct (r v)|done]. Qed.

Lemma hash_code_hcode h p hc : hcode h p = Some hc -> hash_code h p = inr hc.
Proof.
  unfold hcode, hkey, hash_code, hash_code2, derefR. destruct (h !! p) as [n|]; [|done]. simpl.
  destruct (h !! n_lo n), (h !! n_hi n); by intros; simplify_eq.
Qed.

(** the tail of unique_find: allocate and store *)
Lemma alloc_spec md H s v t l r tl th : Inv md H s -> s_vars s !! N.to_nat v = Some t ->
  over_half_full t = false ->
  l <> r -> repr (s_heap s) l tl -> repr (s_heap s) r th ->
  (md_ord md = true -> ordt (v + 1) tl /\ ordt (v + 1) th) ->
  (forall q n, ~ sink q -> s_heap s !! q = Some n -> n_idx n = v -> ~ (n_lo n = l /\ n_hi n = r)) ->
  sat (let* p := reserve_node in
    init_new_node p v l r ;;*
    let* t := getV v in
    assert_ (0 <? vt_free t) ;;*
    let t := with_free (sub64 (vt_free t) 1) t in
    let* s := get in
    let* hc := liftR (hash_code (s_heap s) p) in
    let* k := liftR (next_free_slot t hc) in
    let* t := liftR (store_node t k p) in
    setV v t ;;*
    ret p) s (fun p s' => Inv md H s' /\ ext s s' /\ repr (s_heap s') p (Br v tl th)).
Proof.
  intros HI Hv Hover Hlr Hl Hr Ho Hu. pose proof (i_heap _ _ _ HI) as Hh.
  pose proof (i_nv _ _ _ HI) as Hnv.
  assert (Hvn : v < N.of_nat (length (s_vars s))).
  { apply lookup_lt_Some in Hv. lia. }
  destruct (reserve_node_spec s (i_nc _ _ _ HI)) as (p&nc'&Hrn&Hp&Hpa&Hnc').
  eapply sat_bind_ok; [exact Hrn|].
  assert (is_Some (s_heap s !! l)) by (destruct (repr_in _ _ _ _ _ Hh Hl); eauto).
  assert (is_Some (s_heap s !! r)) by (destruct (repr_in _ _ _ _ _ Hh Hr); eauto).
  eapply sat_bind_ok; [apply init_new_node_eq; [unfold topsink_index, maxvarsize in *; lia|done|done]|].
  simpl. set (key := e_rand (s_rnd s)). set (h' := new_heap p v l r key (s_heap s)).
  destruct (new_heap_ok md _ (s_heap s) p v l r key tl th Hh Hnv Hp Hvn Hlr Hl Hr Ho Hu) as (Hh'&Hrp).
  pose proof (new_heap_ext p v l r key (s_heap s) Hp) as He.
  assert (Hps : ~ sink p).
  { destruct (ho_sink _ _ _ Hh) as [[x Hb] [y Ht]]. intros [-> | ->]; congruence. }
  pose proof (i_tab _ _ _ HI _ _ Hv) as (k&Hs&Hk&HT&Hf&Hused&Hcap&Hlow&Hmx). rewrite N2Nat.id in HT.
  pose proof Hs as (Hm&Hk6&Hlen). pose proof (zeros_le k (pg_slots (vt_page t))) as Hzle.
  assert (Hnh : ~ (tsize k < 2 * (tsize k - zeros k (pg_slots (vt_page t))))%nat).
  { rewrite <- over_half_spec by done. congruence. }
  assert (Hz0 := tab_zeros_pos _ _ Hs Hused).
  eapply sat_bind_ok; [by apply getV_eq|].
  eapply sat_bind_ok; [apply assert_eq, N.ltb_lt; lia|].
  eapply sat_bind_ok; [reflexivity|]. simpl s_heap.
  destruct (hcode_node _ _ _ p _ Hh' Hps (new_heap_same p v l r key (s_heap s))) as [hc Hhc].
  eapply sat_bind_ok; [apply liftR_eq, hash_code_hcode; exact Hhc|].
  rewrite Hf. rewrite sub64_sub; [|lia|].
  2:{ assert (N.of_nat (tsize k) <= 524288).
      { unfold tsize. rewrite N2Nat.id. by apply (N.pow_le_mono_r 2 k 19). } unfold two64. lia. }
  set (t1 := with_free _ t).
  assert (Hs1 : vt_shape k t1) by done.
  destruct (next_free_slot_spec k t1 hc Hs1 Hz0) as (d&Hd&Hnf&Hd0&Hdall).
  eapply sat_bind_ok; [apply liftR_eq; exact Hnf|].
  eapply sat_bind_ok; [apply liftR_eq, (store_node_eq k); done|].
  eapply sat_bind_ok; [reflexivity|]. apply sat_ret.
  assert (HT' : ptab h' k (<[pos k (hc + d) := p]> (pg_slots (vt_page t))) (fun q => q = p \/ var_nodes (s_heap s) v q)).
  { apply ptab_insert; auto.
    - eapply ptab_ext; eauto.
    - lia.
    - intros (_&n&Hn&_). congruence. }
  pose proof (pos_lt k (hc + d)) as Hpl.
  pose proof (zeros_insert k (pg_slots (vt_page t)) (pos k (hc + d)) p Hpl Hd0 ltac:(lia)) as Hzi.
  split_and!; [|split; simpl; [exact He|by rewrite insert_length]|exact Hrp].
  constructor; simpl.
  - by rewrite insert_length.
  - by rewrite insert_length.
  - intros w tw Hw. destruct (decide (w = N.to_nat v)) as [->|Hne].
    + rewrite list_lookup_insert in Hw by (by apply lookup_lt_Some in Hv). simplify_eq.
      exists k. split.
      { split_and!; auto. simpl. by rewrite insert_length. }
      split; [done|]. simpl. rewrite N2Nat.id.
      split; [eapply ptab_proper; [|exact HT']; intros q; unfold h'; rewrite var_nodes_new by done; tauto|].
      split; [lia|]. split; [lia|split; [done|split]]; [|by rewrite insert_length]. intros Hk7. specialize (Hlow Hk7). lia.
    + rewrite list_lookup_insert_ne in Hw by done.
      destruct (i_tab _ _ _ HI _ _ Hw) as (kw&Hsw&Hkw&HTw&Hrest). exists kw. split; [done|]. split; [done|].
      split; [|done]. eapply ptab_ext; [exact He|]. eapply ptab_proper; [|exact HTw].
      intros q. unfold h'. rewrite var_nodes_new by done. split; [auto|]. intros [[Hwv _]|?]; [|done].
      exfalso. apply Hne. lia.
  - rewrite insert_length. eapply memo_ok_ext; [exact He|apply HI].
  - destruct (Hnc' (Node l r v key false 0)) as (?&?&?&?&Htot&Hal).
    split_and!; auto.
    + rewrite Htot. f_equal. rewrite <- !(size_dom (D := gset N)). f_equal.
      unfold h', new_heap, inc. by rewrite !dom_insert_L, !dom_alter_L.
    + intros q Hq. apply Hal. unfold h', new_heap, inc in Hq. rewrite dom_insert_L, !dom_alter_L in Hq. by rewrite dom_insert_L.
  - rewrite (pids_same _ _ _ _ Hv) by done. apply HI.
  - eapply xref_ok_new; eauto; [apply HI|].
    destruct (decide (H p = 0%Z)) as [|Hn]; [done|]. apply (i_Hdom _ _ _ HI), elem_of_dom in Hn as [??]. congruence.
  - apply HI.
  - intros q Hq. apply (i_Hdom _ _ _ HI) in Hq. unfold h', new_heap, inc.
    rewrite dom_insert_L, !dom_alter_L. set_solver.
Qed.

Lemma tab_ok_timer h v t n : tab_ok h v t -> tab_ok h v (with_timer n t).
Proof. done. Qed.

Definition uf_post md H s v tl th := fun (p : ptr) s' =>
  Inv md H s' /\ ext s s' /\ repr (s_heap s') p (br v tl th).

Lemma set_pcs_same (s : mstate) : set_s_pcs (s_pcs s) s = s.
Proof. by destruct s. Qed.

Lemma inv_set_timer md H s v t n : Inv md H s -> s_vars s !! v = Some t ->
  Inv md H (set_s_vars (<[v := with_timer n t]> (s_vars s)) s).
Proof.
  intros HI Hv. pose proof (i_tab _ _ _ HI _ _ Hv) as Ht.
  apply (inv_set_tab md H s v (with_timer n t) (s_pcs s)) in HI; [done|by apply tab_ok_timer|rewrite (pids_same _ _ _ _ Hv) by done; apply HI].
Qed.

Lemma unique_find_fuel_spec fuel md H s v t l r tl th : Inv md H s -> s_vars s !! N.to_nat v = Some t ->
  repr (s_heap s) l tl -> repr (s_heap s) r th ->
  (md_ord md = true -> ordt (v + 1) tl /\ ordt (v + 1) th) ->
  ((vt_timer t + 1) mod 1024 <> 0 \/ (2 <= fuel)%nat) -> (1 <= fuel)%nat ->
  sat (unique_find_fuel fuel v l r) s (uf_post md H s v tl th).
Proof.
  revert s t. induction fuel as [|fuel IH]; intros s t HI Hv Hl Hr Ho Htm Hf1; [lia|].
  pose proof (i_heap _ _ _ HI) as Hh. simpl.
  destruct (N.eqb_spec l r) as [->|Hlr].
  { pose proof (repr_fun _ _ _ _ Hl Hr) as <-. apply sat_ret. unfold uf_post, br. rewrite decide_True by done.
    split_and!; [done|apply ext_refl|done]. }
  assert (Hne : tl <> th) by (intros ->; apply Hlr; eapply repr_inj; eauto).
  eapply sat_bind_ok; [by apply getV_eq|]. eapply sat_bind_ok; [reflexivity|].
  pose proof (i_tab _ _ _ HI _ _ Hv) as (k&Hs&Hk&HT&Hf&Hused&Hcap&Hlow&Hmx). rewrite N2Nat.id in HT.
  assert (Hz0 := tab_zeros_pos _ _ Hs Hused).
  destruct (repr_in _ _ _ _ _ Hh Hl) as [a Ha]. destruct (repr_in _ _ _ _ _ Hh Hr) as [b Hb].
  destruct (lookup_spec (s_heap s) k t (var_nodes (s_heap s) v) l r (N.lxor (n_key a) (2 * n_key b)) Hs HT Hz0)
    as (p&Hlk&Hcase); auto.
  { intros p (_&n&Hn&_). eauto. } { unfold hkey. by rewrite Ha, Hb. }
  eapply sat_bind_ok; [apply liftR_eq; exact Hlk|].
  destruct Hcase as [(Hp0&(Hps&n&Hn&Hi)&n'&Hn'&Hlo&Hhi)|(->&Hnone)].
  { apply N.eqb_neq in Hp0. rewrite Hp0. simpl. apply sat_ret. simplify_eq. unfold uf_post, br.
    rewrite decide_False by done. split_and!; [done|apply ext_refl|]. by constructor. }
  simpl. assert (Hvl : (N.to_nat v < length (s_vars s))%nat) by (by apply lookup_lt_Some in Hv).
  eapply sat_bind_ok; [reflexivity|].
  set (t1 := with_timer (vt_timer t + 1) t).
  change (MState (s_heap s) (s_nc s) (s_pcs s) (s_memo s) (<[N.to_nat v:=t1]> (s_vars s)) (s_rnd s))
    with (set_s_vars (<[N.to_nat v:=t1]> (s_vars s)) s).
  set (s1 := set_s_vars (<[N.to_nat v:=t1]> (s_vars s)) s).
  assert (HI1 : Inv md H s1) by (by apply inv_set_timer).
  assert (Hv1 : s_vars s1 !! N.to_nat v = Some t1) by (by apply list_lookup_insert).
  assert (Hext1 : ext s s1) by (split; [apply hext_refl|simpl; by rewrite insert_length]).
  destruct (N.eqb_spec ((vt_timer t + 1) mod 1024) 0) as [Hz|Hnz].
  { destruct Htm as [?|Hf2]; [done|].
    eapply sat_mono; [apply (IH s1 t1); auto; [|lia]|].
    - left. simpl. rewrite <- N.add_mod_idemp_l by lia. rewrite Hz. done.
    - intros p s' (?&?&?). split_and!; auto. eapply ext_trans; eauto. }
  eapply sat_bind_ok; [by apply getV_eq|].
  assert (Hafter : forall s2 t2, Inv md H s2 -> s_heap s2 = s_heap s -> length (s_vars s2) = length (s_vars s) ->
    s_vars s2 !! N.to_nat v = Some t2 -> over_half_full t2 = false ->
    sat (let* p := reserve_node in
    init_new_node p v l r ;;*
    let* t := getV v in
    assert_ (0 <? vt_free t) ;;*
    let t := with_free (sub64 (vt_free t) 1) t in
    let* s := get in
    let* hc := liftR (hash_code (s_heap s) p) in
    let* k := liftR (next_free_slot t hc) in
    let* t := liftR (store_node t k p) in
    setV v t ;;*
    ret p) s2 (uf_post md H s v tl th)).
  { intros s2 t2 HI2 Hheq Hleq Hv2 Hoh. eapply sat_mono; [eapply (alloc_spec md H s2 v t2 l r tl th); eauto; try (by rewrite Hheq)|].
    - rewrite Hheq. intros q n Hq Hn Hi. apply (Hnone q n); [|done]. split; eauto.
    - intros p s' (?&[? ?]&?). unfold uf_post, br. rewrite decide_False by done. split_and!; auto.
      split; [by rewrite <- Hheq|congruence]. }
  destruct (over_half_full t1) eqn:Hoh.
  - eapply sat_step; [apply (double_cache_spec md H s1 v t1); auto|].
    intros [] s2 (t2&pcs'&->&HI2&Hoh2&_). apply (Hafter _ t2); auto; simpl.
    + by rewrite !insert_length.
    + rewrite list_lookup_insert; [done|]. by rewrite insert_length.
  - eapply sat_bind_ok; [reflexivity|]. apply (Hafter s1 t1); auto. simpl. by rewrite insert_length.
Qed.

Lemma unique_find_spec md H s v l r tl th : Inv md H s -> v < N.of_nat (length (s_vars s)) ->
  repr (s_heap s) l tl -> repr (s_heap s) r th ->
  (md_ord md = true -> ordt (v + 1) tl /\ ordt (v + 1) th) ->
  sat (unique_find_v v l r) s (uf_post md H s v tl th).
Proof.
  intros HI Hv Hl Hr Ho. destruct (lookup_lt_is_Some_2 (s_vars s) (N.to_nat v)) as [t Ht]; [lia|].
  eapply unique_find_fuel_spec; eauto.
Qed.
End uf.
