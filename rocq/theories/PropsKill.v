(** * PropsKill.v -- killing and reviving nodes (C72) *)
From Verif Require Export PropsState2.
Open Scope N_scope.

Section kill.
Context {E : Env} (HE : env_ok E).

(** the manager with the count of node [p] set to [x p] for every [p] *)
Definition with_counts (x : ptr -> Z) (s : mstate) : mstate :=
  set_s_heap (map_imap (fun p n => Some (with_xref (fun _ => x p) n)) (s_heap s)) s.

Lemma with_counts_lookup x s p : s_heap (with_counts x s) !! p = with_xref (fun _ => x p) <$> s_heap s !! p.
Proof. unfold with_counts. cbn [s_heap set_s_heap]. rewrite map_lookup_imap. by destruct (s_heap s !! p). Qed.
Lemma with_counts_ext x y s : (forall p n, s_heap s !! p = Some n -> x p = y p) -> with_counts x s = with_counts y s.
Proof.
  intros Hxy. unfold with_counts, set_s_heap. f_equal. apply map_eq. intros p. rewrite !map_lookup_imap.
  destruct (s_heap s !! p) as [n|] eqn:Hp; [|done]. cbn. by rewrite (Hxy _ _ Hp).
Qed.
Lemma with_counts_id x s : (forall p n, s_heap s !! p = Some n -> x p = n_xref n) -> with_counts x s = s.
Proof.
  intros Hx. destruct s as [h nc pcs mc vs rn]. unfold with_counts, set_s_heap. cbn [s_heap s_nc s_pcs s_memo s_vars s_rnd] in *. f_equal. apply map_eq. intros p.
  rewrite map_lookup_imap. destruct (h !! p) as [n|] eqn:Hp; [|done]. cbn. rewrite (Hx _ _ Hp). by destruct n.
Qed.
Definition updc (x : ptr -> Z) (p : ptr) (z : Z) : ptr -> Z := fun q => if decide (q = p) then z else x q.
Lemma getN_counts x s p n : s_heap s !! p = Some n -> getN p (with_counts x s) = Ok (with_xref (fun _ => x p) n) (with_counts x s).
Proof. intros Hp. apply getN_eq. by rewrite with_counts_lookup, Hp. Qed.
Lemma modN_counts x s p n f g : s_heap s !! p = Some n -> (forall m, f m = with_xref g m) ->
  modN p f (with_counts x s) = Ok tt (with_counts (updc x p (g (x p))) s).
Proof.
  intros Hp Hf. unfold modN. rewrite (bind_eq _ _ _ _ _ (getN_counts x s p n Hp)). unfold set_heap. f_equal.
  destruct s as [h nc pcs mc vs rn]. unfold with_counts, set_s_heap. cbn [s_heap s_nc s_pcs s_memo s_vars s_rnd] in *. f_equal. apply map_eq. intros q.
  rewrite map_lookup_imap. destruct (decide (q = p)) as [->|Hne].
  - rewrite lookup_insert, Hp. cbn. rewrite Hf. unfold updc. by rewrite decide_True.
  - rewrite lookup_insert_ne, map_lookup_imap by done. unfold updc. by rewrite decide_False.
Qed.
Definition count0 (s : mstate) (p : ptr) : Z := from_option n_xref 0%Z (s_heap s !! p).
Lemma counts0 s : with_counts (count0 s) s = s.
Proof. apply with_counts_id. intros p n Hp. unfold count0. by rewrite Hp. Qed.
Lemma fuel_counts x s : fuel_of (with_counts x s) = fuel_of s.
Proof.
  unfold fuel_of. f_equal. rewrite <- !(size_dom (D := gset N)). do 2 f_equal. apply set_eq. intros q.
  rewrite !elem_of_dom, with_counts_lookup. by destruct (s_heap s !! q).
Qed.

(** the counts after [p] was killed: its own is -1, its children have lost one reference each *)
Definition killed (s : mstate) (p : ptr) (n : node) : ptr -> Z := fun q =>
  if decide (q = p) then (-1)%Z else (count0 s q - (if decide (q = n_lo n) then 1 else 0) - (if decide (q = n_hi n) then 1 else 0))%Z.

Lemma kids_counted md w p n : WInv md w -> s_heap (w_s w) !! p = Some n -> inner p ->
  n_lo n <> n_hi n /\ n_lo n <> p /\ n_hi n <> p /\ exists l h, s_heap (w_s w) !! n_lo n = Some l /\ s_heap (w_s w) !! n_hi n = Some h /\ (1 <= n_xref l)%Z /\ (1 <= n_xref h)%Z.
Proof.
  intros HW Hp Hi. assert (Hs : ~ sink p) by (destruct Hi; by intros [?|?]). pose proof (i_heap _ _ _ HW) as Hh.
  destruct (ho_node _ _ _ Hh p n Hp Hs) as (_&Hne&_&t&Ht).
  destruct (repr_nonsink _ _ _ Ht Hs) as (n'&tl&th&Hn'&Htt&Hl&Hr). subst t. assert (n' = n) as -> by congruence.
  destruct (repr_in _ _ _ _ _ Hh Hl) as [l Hln]. destruct (repr_in _ _ _ _ _ Hh Hr) as [h Hhn].
  split; [done|]. split; [|split].
  { intros Heq. rewrite Heq in Hl. pose proof (repr_fun _ _ _ _ Hl Ht) as Hx. apply (f_equal ht) in Hx. cbn in Hx. lia. }
  { intros Heq. rewrite Heq in Hr. pose proof (repr_fun _ _ _ _ Hr Ht) as Hx. apply (f_equal ht) in Hx. cbn in Hx. lia. }
  exists l, h. split_and!; [done|done|..].
  - rewrite (i_xref _ _ _ HW _ _ Hln). pose proof (hcount_nonneg (w_h w) (n_lo n)).
    assert (1 <= refs (s_heap (w_s w)) (n_lo n))%Z; [|case_decide; lia].
    rewrite <- (insert_delete _ _ _ Hp), refs_insert by apply lookup_delete. rewrite decide_False by done.
    pose proof (refs_nonneg (delete p (s_heap (w_s w))) (n_lo n)). unfold arcs. rewrite decide_True by done. case_decide; lia.
  - rewrite (i_xref _ _ _ HW _ _ Hhn). pose proof (hcount_nonneg (w_h w) (n_hi n)).
    assert (1 <= refs (s_heap (w_s w)) (n_hi n))%Z; [|case_decide; lia].
    rewrite <- (insert_delete _ _ _ Hp), refs_insert by apply lookup_delete. rewrite decide_False by done.
    pose proof (refs_nonneg (delete p (s_heap (w_s w))) (n_hi n)). unfold arcs. rewrite (decide_True _ _ (eq_refl (n_hi n))). case_decide; lia.
Qed.

(** node_struct::recursively_kill on a node kills only this node: its children lose a reference, but they still
    have the count of the arc that the library keeps, so the recursion stops at once; recursively_revive takes it back,
    except that the node's own count is then 0 *)
Theorem C72_kill_revive md w p n : reach md w -> s_heap (w_s w) !! p = Some n -> inner p ->
  exists s', recursively_kill p (w_s w) = Ok tt s' /\
    s' = with_counts (killed (w_s w) p n) (w_s w) /\
    (forall q m, s_heap s' !! q = Some m -> ((n_xref m < 0)%Z <-> q = p)) /\
    recursively_revive p s' = Ok tt (with_counts (updc (count0 (w_s w)) p 0) (w_s w)) /\
    (n_xref n = 0%Z -> recursively_revive p s' = Ok tt (w_s w)).
Proof.
  intros HR Hp Hi. pose proof (reach_inv HE _ _ HR) as HW. set (s := w_s w) in *.
  destruct (kids_counted _ _ _ _ HW Hp Hi) as (Hne&Hlp&Hhp&l&h&Hl&Hh&Hxl&Hxh). fold s in Hp, Hl, Hh.
  assert (Hc : forall q m, s_heap s !! q = Some m -> count0 s q = n_xref m). { intros q m Hq. unfold count0. by rewrite Hq. }
  assert (Hkill : forall f, recursively_kill_fuel (S f) p s = Ok tt (with_counts (killed s p n) s)).
  { intros f. rewrite <- (counts0 s) at 1. cbn [recursively_kill_fuel].
    rewrite (bind_eq _ _ _ _ _ (modN_counts _ s p n _ (fun _ => (-1)%Z) Hp (fun _ => eq_refl))).
    rewrite (bind_eq _ _ _ _ _ (getN_counts _ s p n Hp)). cbn [n_lo n_hi with_xref].
    rewrite (bind_eq _ _ _ _ _ (getN_counts _ s _ l Hl)). cbn [n_xref with_xref]. unfold updc at 1. rewrite decide_False by done.
    rewrite (Hc _ _ Hl). destruct (Z.eqb_spec (n_xref l) 0) as [|_]; [lia|].
    rewrite (bind_eq _ _ _ _ _ (modN_counts _ s _ l _ (fun x => (x - 1)%Z) Hl (fun _ => eq_refl))).
    rewrite (bind_eq _ _ _ _ _ (getN_counts _ s p n Hp)). cbn [n_lo n_hi with_xref].
    rewrite (bind_eq _ _ _ _ _ (getN_counts _ s _ h Hh)). cbn [n_xref with_xref].
    unfold updc at 1. rewrite decide_False by done. unfold updc at 1. rewrite decide_False by done.
    rewrite (Hc _ _ Hh). destruct (Z.eqb_spec (n_xref h) 0) as [|_]; [lia|].
    unfold xref_dec. rewrite (modN_counts _ s _ h _ (fun x => (x - 1)%Z) Hh (fun _ => eq_refl)). f_equal.
    apply with_counts_ext. intros q m Hq. unfold updc, killed. repeat case_decide; subst; try done; lia. }
  assert (Hrev : forall f, recursively_revive_fuel (S f) p (with_counts (killed s p n) s) = Ok tt (with_counts (updc (count0 s) p 0) s)).
  { intros f. cbn [recursively_revive_fuel].
    rewrite (bind_eq _ _ _ _ _ (modN_counts _ s p n _ (fun _ => 0%Z) Hp (fun _ => eq_refl))).
    rewrite (bind_eq _ _ _ _ _ (getN_counts _ s p n Hp)). cbn [n_lo n_hi with_xref].
    assert (Hkl : killed s p n (n_lo n) = (n_xref l - 1)%Z).
    { unfold killed. rewrite decide_False, decide_True, decide_False, (Hc _ _ Hl) by done. lia. }
    assert (Hkh : killed s p n (n_hi n) = (n_xref h - 1)%Z).
    { unfold killed. rewrite decide_False, decide_False, decide_True, (Hc _ _ Hh) by done. lia. }
    rewrite (bind_eq _ _ _ _ _ (getN_counts _ s _ l Hl)). cbn [n_xref with_xref]. unfold updc at 1. rewrite decide_False by done.
    rewrite Hkl. destruct (Z.ltb_spec (n_xref l - 1) 0) as [|_]; [lia|].
    rewrite (bind_eq _ _ _ _ _ (modN_counts _ s _ l _ (fun x => (x + 1)%Z) Hl (fun _ => eq_refl))).
    rewrite (bind_eq _ _ _ _ _ (getN_counts _ s p n Hp)). cbn [n_lo n_hi with_xref].
    rewrite (bind_eq _ _ _ _ _ (getN_counts _ s _ h Hh)). cbn [n_xref with_xref].
    unfold updc at 1. rewrite decide_False by done. unfold updc at 1. rewrite decide_False by done.
    rewrite Hkh. destruct (Z.ltb_spec (n_xref h - 1) 0) as [|_]; [lia|].
    unfold xref_inc. rewrite (modN_counts _ s _ h _ (fun x => (x + 1)%Z) Hh (fun _ => eq_refl)). f_equal.
    apply with_counts_ext. intros q m Hq. unfold updc, killed. repeat case_decide; subst; try done; lia. }
  assert (Hfuel : exists f, fuel_of s = S f). { unfold fuel_of. exists (6 * size (s_heap s) + 11)%nat. lia. } destruct Hfuel as [f Hf].
  assert (Hrev' : recursively_revive p (with_counts (killed s p n) s) = Ok tt (with_counts (updc (count0 s) p 0) s)).
  { unfold recursively_revive, with_fuel. rewrite fuel_counts, Hf. apply Hrev. }
  exists (with_counts (killed s p n) s). split_and!.
  - unfold recursively_kill, with_fuel. rewrite Hf. apply Hkill.
  - done.
  - intros q m Hq. rewrite with_counts_lookup in Hq. destruct (s_heap s !! q) as [m0|] eqn:Hm0; [|done]. cbn in Hq. injection Hq as <-.
    cbn [n_xref with_xref]. unfold killed. case_decide; [split; [done|lia]|]. split; [|done]. rewrite (Hc _ _ Hm0).
    pose proof (inv_xref_nonneg _ _ _ _ _ HW Hm0). repeat case_decide; subst; simplify_eq; lia.
  - exact Hrev'.
  - intros Hx. rewrite Hrev'. f_equal. apply with_counts_id. intros q m Hq. unfold updc. case_decide; [subst; congruence|]. by apply Hc.
Qed.

(** deref through a live handle is what destroying the handle does *)
Theorem C72_deref md w i p : reach md w -> hnd w i = Some p -> p <> 0 ->
  exists s', deref p (w_s w) = Ok tt s' /\ step (ODrop i) w = WOk OutU (W s' (<[i := None]> (w_h w))).
Proof.
  intros HR Hi H0. pose proof (reach_inv HE _ _ HR) as HW. destruct (winv_repr _ _ _ _ HW Hi H0) as [t Ht].
  destruct (repr_in _ _ _ _ _ (i_heap _ _ _ HW) Ht) as [n Hn].
  assert (Hx : (0 < n_xref n)%Z).
  { rewrite (i_xref _ _ _ HW p n Hn). pose proof (hcount_pos _ _ _ (proj1 (hnd_lookup _ _ _) Hi) H0).
    pose proof (refs_nonneg (s_heap (w_s w)) p). case_decide; lia. }
  eexists. split.
  - unfold deref. rewrite (bind_eq _ _ _ _ _ (getN_eq _ _ _ Hn)). destruct (Z.eqb_spec (n_xref n) 0) as [|_]; [lia|].
    unfold xref_dec, modN. by rewrite (bind_eq _ _ _ _ _ (getN_eq _ _ _ Hn)).
  - cbn [step]. unfold with1. rewrite Hi. unfold ref_release. apply N.eqb_neq in H0. rewrite H0.
    rewrite (bind_eq _ _ _ _ _ (getN_eq _ _ _ Hn)). rewrite (bind_eq _ _ _ _ _ (assert_eq _ _ (proj2 (Z.ltb_lt _ _) Hx))).
    unfold xref_dec, modN. by rewrite (bind_eq _ _ _ _ _ (getN_eq _ _ _ Hn)).
Qed.

(** node_struct::hash_code of an inner node returns, changes nothing, and depends only on the variables of the children
    (for a constant child, on the number that stands for it) *)
Theorem C72_hash_code md w p n : reach md w -> s_heap (w_s w) !! p = Some n -> inner p ->
  exists l h k, s_heap (w_s w) !! n_lo n = Some l /\ s_heap (w_s w) !! n_hi n = Some h /\
    node_hash_code p (w_s w) = Ok k (w_s w) /\ k < 2 ^ 64 /\ k = N.lxor (8 * n_idx l) (4 * n_idx h).
Proof.
  intros HR Hp Hi. pose proof (reach_inv HE _ _ HR) as HW. 
  destruct (kids_counted _ _ _ _ HW Hp Hi) as (Hne&Hlp&Hhp&l&h&Hl&Hh&_).
  pose proof (i_heap _ _ _ HW) as Hho. pose proof (i_nv _ _ _ HW) as Hnv.
  assert (Hidx : forall q m, s_heap (w_s w) !! q = Some m -> q <> 0 /\ n_idx m < 2 ^ 41).
  { intros q m Hq. split; [pose proof (inv_addr HE _ _ _ _ _ HW Hq); lia|].
    destruct (ho_sink _ _ _ Hho) as [[x Hb] [y Ht]].
    destruct (decide (q = botsink)) as [->|Hqb]; [rewrite Hb in Hq; injection Hq as <-; done|].
    destruct (decide (q = topsink)) as [->|Hqt]; [rewrite Ht in Hq; injection Hq as <-; done|].
    destruct (ho_node _ _ _ Hho q m Hq) as (Hlt&_); [by intros [?|?]|]. unfold topsink_index in Hnv. lia. }
  destruct (Hidx _ _ Hl) as [Hl0 Hli]. destruct (Hidx _ _ Hh) as [Hh0 Hhi].
  exists l, h, (N.lxor (8 * n_idx l) (4 * n_idx h)). split_and!; [done|done| | |done].
  - unfold node_hash_code. rewrite (bind_eq _ _ _ _ _ (getN_eq _ _ _ Hp)).
    apply N.eqb_neq in Hl0, Hh0. rewrite Hl0, Hh0.
    rewrite (bind_eq _ _ _ _ _ (assert_eq true _ eq_refl)), (bind_eq _ _ _ _ _ (assert_eq true _ eq_refl)).
    rewrite (bind_eq _ _ _ _ _ (getN_eq _ _ _ Hl)), (bind_eq _ _ _ _ _ (getN_eq _ _ _ Hh)).
    rewrite !N.mod_small by lia. unfold ret. by rewrite !(N.mul_comm (n_idx _)).
  - destruct (decide (N.lxor (8 * n_idx l) (4 * n_idx h) = 0)) as [->|Hnz]; [done|].
    apply N.log2_lt_pow2; [lia|]. eapply N.le_lt_trans; [apply N.log2_lxor|].
    apply N.max_lub_lt.
    + destruct (decide (8 * n_idx l = 0)) as [->|]; [done|]. apply N.log2_lt_pow2; lia.
    + destruct (decide (4 * n_idx h = 0)) as [->|]; [done|]. apply N.log2_lt_pow2; lia.
Qed.

(** ** C21: the counts fit into an int *)
Lemma arcs_into_le h p : (forall q n, h !! q = Some n -> inner q -> n_lo n <> n_hi n) -> (arcs_into h p <= size (filter (fun x : ptr * node => inner x.1) h))%nat.
Proof.
  unfold arcs_into. induction h as [|q n h Hq IH] using map_ind; intros Hne; [done|].
  assert (Hsz : forall (P : ptr * node -> Prop) `{forall x, Decision (P x)},
     size (filter P (<[q := n]> h)) = (size (filter P h) + if decide (P (q, n)) then 1 else 0)%nat).
  { intros P HP. destruct (decide (P (q, n))) as [Hd|Hd].
    - rewrite map_filter_insert_True by done. rewrite map_size_insert_None; [lia|].
      apply map_filter_lookup_None. by left.
    - rewrite map_filter_insert_False by done. rewrite delete_notin by done. lia. }
  rewrite !Hsz. clear Hsz. specialize (IH ltac:(intros q' m Hm; apply (Hne q'); rewrite lookup_insert_ne; [done|congruence])).
  pose proof (Hne q n ltac:(apply lookup_insert)) as Hn. cbn [fst snd] in *. repeat case_decide; try lia; exfalso; intuition congruence.
Qed.
Lemma hcount_len l p : (0 <= hcount l p <= Z.of_nat (length l))%Z.
Proof. induction l as [|o l IH]; cbn [hcount length]; [lia|]. case_decide; lia. Qed.
(** a count is non-negative, and at most the number of stored inner nodes plus the number of handles (plus one for a
    constant); so [int] is wide enough as long as nodes and handles together are fewer than 2^31 *)
Theorem C21_count_range md w p n : reach md w -> s_heap (w_s w) !! p = Some n ->
  (0 <= n_xref n < Z.of_N (mgr_nr_nodes (w_s w)) + Z.of_nat (length (w_h w)))%Z.
Proof.
  intros HR Hn. rewrite (C21_refcount_all HE md w p n HR Hn). pose proof (C24_manager_nr_nodes HE md w HR) as Hnr.
  simpl in Hnr. unfold query in Hnr. simpl in Hnr. assert (mgr_nr_nodes (w_s w) = 2 + N.of_nat (size (filter (fun x : ptr * node => inner x.1) (s_heap (w_s w))))) as -> by congruence.
  pose proof (hcount_len (w_h w) p). pose proof (arcs_into_le (s_heap (w_s w)) p) as Ha.
  specialize (Ha ltac:(intros q m Hm Hi; apply (C23_no_redundant HE md w q m HR Hm Hi))). case_decide; lia.
Qed.
End kill.
