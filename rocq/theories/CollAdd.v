(** * CollAdd.v -- bdd_collection::is_bdd and bdd_collection::add_bdd *)
From Verif Require Export Coll.
Open Scope N_scope.

Lemma sub64_small a b : b <= a -> a < two64 -> sub64 a b = a - b.
Proof.
  intros H1 H2. unfold sub64. rewrite (N.mod_small b) by lia.
  replace (a + (two64 - b)) with (a - b + 1 * two64) by lia. rewrite N.mod_add by done. apply N.mod_small. lia.
Qed.
Lemma add64_small a b : a + b < two64 -> add64 a b = a + b.
Proof. intros H. unfold add64. by apply N.mod_small. Qed.
Lemma two64_62 : 2 ^ 62 * 4 = two64.
Proof. done. Qed.
Lemma ci_eqb_eq x y : ci_eqb x y = true <-> x = y.
Proof.
  unfold ci_eqb. rewrite !andb_true_iff, !N.eqb_eq. destruct x, y; simpl. split; [intros [[-> ->] ->]; done|by intros [= -> -> ->]].
Qed.

Section iotac.
Context {E : Env}.

Lemma vecR_eq {A} (l : list A) i x : ix l i = Some x -> vecR l i = inr x.
Proof. unfold vecR. by intros ->. Qed.
Lemma del_at_eq c i a : ix (c_del c) i = Some a -> del_at c i = inr a.
Proof. apply vecR_eq. Qed.

Lemma slice_eq c a b : a <= b -> b <= N.of_nat (length (c_ins c)) ->
  exists l, slice c a b = inr l /\ length l = N.to_nat (b - a) /\ forall i, (i < N.to_nat (b - a))%nat -> l !! i = ix (c_ins c) (a + N.of_nat i).
Proof.
  intros Hab Hb. unfold slice. destruct (N.leb_spec b a).
  - exists []. assert (b = a) as -> by lia. rewrite N.sub_diag. split_and!; [done|done|]. intros i Hi. lia.
  - rewrite (proj2 (N.leb_le _ _)) by lia. eexists. split_and!; [reflexivity| |].
    + rewrite take_length, drop_length. lia.
    + intros i Hi. rewrite lookup_take by lia. rewrite lookup_drop. f_equal. lia.
Qed.

Lemma is_bdd_loop_true a b l : forall i seen,
  (forall k x, l !! k = Some x -> i_lo x <> i_hi x /\ i + N.of_nat k < i_lo x < b /\ i + N.of_nat k < i_hi x < b) ->
  a <= i -> (forall k x, l !! k = Some x -> x ∉ seen) -> (forall k k' x, l !! k = Some x -> l !! k' = Some x -> k = k') ->
  is_bdd_loop l i a b seen = true.
Proof.
  induction l as [|x l IH]; intros i seen Hn Hi Hs Hd; [done|]. simpl.
  destruct (Hn 0%nat x eq_refl) as (H1&H2&H3).
  unfold ci_is_term. rewrite (proj2 (N.eqb_neq _ _)) by done.
  rewrite (proj2 (N.leb_gt (i_lo x) i)), (proj2 (N.leb_gt (i_hi x) i)) by lia. cbn [orb].
  rewrite (proj2 (N.leb_gt b (i_lo x))), (proj2 (N.leb_gt b (i_hi x))) by lia. cbn [orb].
  rewrite (proj2 (N.ltb_ge (i_lo x) a)), (proj2 (N.ltb_ge (i_hi x) a)) by lia. cbn [orb].
  assert (Hex : existsb (ci_eqb x) seen = false).
  { apply not_true_iff_false. rewrite existsb_exists. intros (y&Hy&Heq). apply ci_eqb_eq in Heq as <-.
    apply (Hs 0%nat x eq_refl). by apply elem_of_list_In. }
  rewrite Hex. apply IH; [|lia| |].
  - intros k y Hy. destruct (Hn (S k) y Hy) as (?&?&?). split_and!; try done; lia.
  - intros k y Hy [->|Hin]%elem_of_cons; [|by eapply (Hs (S k))].
    by specialize (Hd 0%nat (S k) x eq_refl Hy).
  - intros k k' y Hy Hy'. specialize (Hd (S k) (S k') y Hy Hy'). lia.
Qed.

Lemma nr_bdd_nodes_eq c nr a b : CInv c -> cseg c nr a b -> b - a < two64 -> nr_bdd_nodes c nr = inr (b - a).
Proof.
  intros HI Hs Hsm. unfold nr_bdd_nodes. pose proof (cseg_lt _ _ _ _ HI Hs).
  rewrite assertR_true by (by apply N.ltb_lt). destruct Hs as [Ha Hb].
  rewrite (del_at_eq _ _ _ Ha), (del_at_eq _ _ _ Hb). unfold sub64.
  assert (a <= b).
  { pose proof (sg_ab _ _ _ (ci_seg _ HI _ _ _ (conj Ha Hb))). lia. }
  rewrite <- (N.mod_small (b - a) two64) by done.
  pose proof (N.div_mod a two64 ltac:(done)) as Ha'. pose proof (N.mod_lt a two64 ltac:(done)).
  cbn [bindR]. f_equal. replace (b + (two64 - a mod two64)) with (b - a + (a / two64 + 1) * two64) by lia.
  by rewrite N.mod_add.
Qed.

Lemma is_bdd_true c nr : CInv c -> nr < nr_bdds c -> (forall a b, cseg c nr a b -> b - a < two64) -> is_bdd c nr = inr true.
Proof.
  intros HI Hnr Hsm. destruct (cseg_ex _ _ HI Hnr) as (a&b&Hs). pose proof (ci_seg _ HI _ _ _ Hs) as Hg.
  unfold is_bdd. rewrite assertR_true by (by apply N.ltb_lt). rewrite (nr_bdd_nodes_eq _ _ _ _ HI Hs (Hsm _ _ Hs)).
  pose proof (sg_ab _ _ _ Hg). pose proof (sg_len _ _ _ Hg). cbn [bindR]. rewrite (proj2 (N.ltb_ge _ _)) by lia.
  destruct Hs as [Ha Hb]. rewrite (del_at_eq _ _ _ Ha), (del_at_eq _ _ _ Hb). cbn [bindR].
  destruct (sg_term _ _ _ Hg) as (bt&x&y&Hx&Hy&Tx&Ty). rewrite (vecR_eq _ _ _ Hx), (vecR_eq _ _ _ Hy). cbn [bindR].
  destruct (cterm_instr _ _ Tx) as (->&Tx1&Tx2). destruct (cterm_instr _ _ Ty) as (->&Ty1&Ty2). cbn [negb].
  assert (Hne : ci_eqb x y = false).
  { apply not_true_iff_false. intros ->%ci_eqb_eq. rewrite Tx1 in Ty1. by destruct bt. }
  rewrite Hne. destruct (slice_eq c a (b - 2)) as (l&->&Hl&Hlk); [lia..|]. cbn [bindR]. f_equal.
  apply is_bdd_loop_true; [|lia| |].
  - intros k z Hk. pose proof (lookup_lt_Some _ _ _ Hk). rewrite Hlk in Hk by lia.
    destruct (sg_node _ _ _ Hg (a + N.of_nat k) z ltac:(lia) Hk) as (?&_&?&?). done.
  - intros k z _ Hin. by apply elem_of_nil in Hin.
  - intros k k' z Hk Hk'. pose proof (lookup_lt_Some _ _ _ Hk). pose proof (lookup_lt_Some _ _ _ Hk').
    rewrite Hlk in Hk, Hk' by lia. pose proof (sg_dist _ _ _ Hg (a + N.of_nat k) (a + N.of_nat k') z ltac:(lia) ltac:(lia) Hk Hk'). lia.
Qed.

Lemma assertRR_true (r : R bool) : r = inr true -> assertRR r = inr tt.
Proof. intros ->. unfold assertRR. destruct e_ndebug; [done|]. cbn [bindR]. by apply assertR_true. Qed.
Lemma liftR_eq {A} (r : R A) a s : r = inr a -> liftR r s = Ok a s.
Proof. by intros ->. Qed.

Lemma ins_new_None k v (m : gmap N N) : m !! k = None -> ins_new k v m = <[k := v]> m.
Proof. unfold ins_new. by intros ->. Qed.

(** ** add_bdd *)
Section add.
Context (md : mode) (H : ptr -> Z) (s : mstate) (HI : Inv md H s).
Notation h := (s_heap s).
Context (p : ptr) (t : bdd) (Hr : repr h p t) (Hns : ~ sink p).

Definition nidx (q : ptr) : N := match h !! q with Some n => n_idx n | None => 0 end.
Definition nlo (q : ptr) : N := match h !! q with Some n => n_lo n | None => 0 end.
Definition nhi (q : ptr) : N := match h !! q with Some n => n_hi n | None => 0 end.

Lemma pass1_spec nodes : forall ins hash, Forall (fun q => reach_in h p q) nodes -> NoDup nodes ->
  (forall q, q ∈ nodes -> hash !! q = None) ->
  exists hash', add_pass1 nodes ins hash s = Ok (ins ++ map (fun q => Instr size_max size_max (nidx q)) nodes, hash') s /\
    (forall k q, nodes !! k = Some q -> hash' !! q = Some (N.of_nat (length ins + k))) /\
    (forall q, q ∉ nodes -> hash' !! q = hash !! q).
Proof.
  induction nodes as [|q nodes IH]; intros ins hash Hn Hnd Hh; simpl.
  - exists hash. rewrite app_nil_r. split_and!; done.
  - inversion Hn as [|? ? Hq Hn']; subst. inversion Hnd as [|? ? Hni Hnd']; subst.
    destruct (reach_node s _ _ Hq) as [Hqs [n Hqn]]. destruct (ho_node _ _ _ (i_heap _ _ _ HI) _ _ Hqn Hqs) as (_&_&_&tq&Hrq).
    destruct (IH (ins ++ [Instr size_max size_max (n_idx n)]) (ins_new q (N.of_nat (length ins)) hash) Hn' Hnd') as (hash'&He&Hin&Hout).
    { intros q' Hq'. rewrite ins_new_None by (apply Hh; by left). rewrite lookup_insert_ne; [apply Hh; by right|]. by intros <-. }
    exists hash'. split_and!.
    + assert (Ha : (if e_ndebug then ret tt else let* t0 := is_terminal q in assert_ (negb t0)) s = Ok tt s).
      { destruct e_ndebug; [done|]. rewrite (bind_eq _ _ _ _ _ (is_terminal_eq _ _ _ _ _ HI Hrq)).
        apply assert_eq. by rewrite bool_decide_eq_false_2. }
      rewrite (bind_eq _ _ _ _ _ Ha), (bind_eq _ _ _ _ _ (variable_eq _ _ _ Hqn)), He.
      rewrite <- app_assoc. simpl. unfold nidx at 2. by rewrite Hqn.
    + intros [|k] q' Hk; simpl in Hk.
      * simplify_eq. rewrite Hout by done. rewrite ins_new_None by (apply Hh; by left). rewrite lookup_insert. f_equal. lia.
      * rewrite (Hin _ _ Hk). f_equal. rewrite app_length. simpl. lia.
    + intros q' Hq'. apply not_elem_of_cons in Hq' as [Hne Hq']. rewrite Hout by done.
      rewrite ins_new_None by (apply Hh; by left). by rewrite lookup_insert_ne.
Qed.

Lemma pass2_spec off hash nodes : forall A D T i, Forall (fun q => reach_in h p q) nodes ->
  N.of_nat (length A) = off -> N.of_nat (length D) = i ->
  (forall k q, nodes !! k = Some q -> exists l r, hash !! nlo q = Some l /\ hash !! nhi q = Some r /\ i + N.of_nat k < l /\ i + N.of_nat k < r) ->
  add_pass2 nodes off i (A ++ D ++ map (fun q => Instr size_max size_max (nidx q)) nodes ++ T) hash s =
    Ok (A ++ D ++ map (fun q => Instr (default 0 (hash !! nlo q)) (default 0 (hash !! nhi q)) (nidx q)) nodes ++ T) s.
Proof.
  induction nodes as [|q nodes IH]; intros A D T i Hn HA HD Hp; [done|]. cbn [add_pass2 map app].
  inversion Hn as [|? ? Hq Hn']; subst. destruct (reach_node s _ _ Hq) as [Hqs [n Hqn]].
  destruct (ho_node _ _ _ (i_heap _ _ _ HI) _ _ Hqn Hqs) as (_&_&_&tq&Hrq).
  destruct (repr_nonsink _ _ _ Hrq Hqs) as (n'&tl&th&Hn1&_&Hl&Hh). simplify_eq.
  rewrite (bind_eq _ _ _ _ _ (low_eq _ _ _ _ _ _ HI Hqn Hl)), (bind_eq _ _ _ _ _ (high_eq _ _ _ _ _ _ HI Hqn Hh)).
  destruct (Hp 0%nat q eq_refl) as (l&r&El&Er&Hil&Hir). unfold nlo, nhi in El, Er. rewrite Hqn in El, Er. rewrite El, Er.
  rewrite (bind_eq _ _ _ _ _ (assert_eq _ s (proj2 (N.ltb_lt (N.of_nat (length D)) l) ltac:(lia)))).
  rewrite (bind_eq _ _ _ _ _ (assert_eq _ s (proj2 (N.ltb_lt (N.of_nat (length D)) r) ltac:(lia)))).
  set (off := N.of_nat (length A)). set (i := N.of_nat (length D)).
  assert (Hix : N.to_nat (off + i) = (length (A ++ D) + 0)%nat) by (rewrite app_length; unfold off, i; lia).
  assert (Hv : ix (A ++ D ++ Instr size_max size_max (nidx q) :: map (fun q => Instr size_max size_max (nidx q)) nodes ++ T) (off + i) = Some (Instr size_max size_max (nidx q))).
  { rewrite app_assoc, Hix, lookup_app_r by lia. replace (length (A ++ D) + 0 - length (A ++ D))%nat with 0%nat by lia. done. }
  rewrite (bind_eq _ _ _ _ _ (liftR_eq _ _ s (vecR_eq _ _ _ Hv))).
  assert (Hw : <[N.to_nat (off + i) := Instr l r (i_idx (Instr size_max size_max (nidx q)))]>
      (A ++ D ++ Instr size_max size_max (nidx q) :: map (fun q => Instr size_max size_max (nidx q)) nodes ++ T) =
      A ++ (D ++ [Instr l r (nidx q)]) ++ map (fun q => Instr size_max size_max (nidx q)) nodes ++ T).
  { rewrite app_assoc, Hix, insert_app_r. simpl. by rewrite <- !app_assoc. }
  rewrite Hw. rewrite IH.
  - unfold nlo at 2, nhi at 2. rewrite Hqn, El, Er. simpl. by rewrite <- !app_assoc.
  - done.
  - done.
  - rewrite app_length. simpl. unfold i. lia.
  - intros k q' Hk. destruct (Hp (S k) q' Hk) as (l'&r'&?&?&?&?). exists l', r'. split_and!; auto; unfold i; lia.
Qed.

Section main.
Context (po : list ptr) (Hlr : lists_reach s p po) (Hbu : bottom_up s po) (Hlast : last po = Some p).
Notation nodes := (reverse po).
Context (ins : list instr).
Notation off := (length ins).
Context (hash : gmap N N).
Context (Hnode : forall k q, nodes !! k = Some q -> hash !! q = Some (N.of_nat (off + k))).
Context (Hbot : hash !! botsink = Some (N.of_nat (off + length nodes))).
Context (Htop : hash !! topsink = Some (N.of_nat (off + length nodes + 1))).

Definition entries : list instr := map (fun q => Instr (default 0 (hash !! nlo q)) (default 0 (hash !! nhi q)) (nidx q)) nodes ++ [ci_botsink; ci_topsink].

Definition placed (q : ptr) (j : nat) : Prop :=
  (nodes !! j = Some q /\ ~ sink q) \/ q = botsink /\ j = length nodes \/ q = topsink /\ j = (length nodes + 1)%nat.
Lemma placed_hash q j : placed q j -> hash !! q = Some (N.of_nat (off + j)).
Proof. intros [[Hq _]|[[-> ->]|[-> ->]]]; [by apply Hnode|done|rewrite Htop; f_equal; lia]. Qed.
Lemma placed_inj q q' j : placed q j -> placed q' j -> q = q'.
Proof.
  intros [[Hq _]|[[-> ->]|[-> ->]]] [[Hq' _]|[[-> Hj]|[-> Hj]]]; try congruence; try lia;
    repeat match goal with H : nodes !! _ = Some _ |- _ => apply lookup_lt_Some in H end; lia.
Qed.
Lemma node_reach k q : nodes !! k = Some q -> reach_in h p q.
Proof. intros Hk. apply elem_of_list_lookup_2 in Hk. rewrite elem_of_reverse in Hk. by apply Hlr. Qed.
Lemma node_nonsink k q : nodes !! k = Some q -> ~ sink q.
Proof. intros Hk%node_reach. by apply reach_node in Hk as [? _]. Qed.
Lemma placed_child k q n c : nodes !! k = Some q -> h !! q = Some n -> (c = n_lo n \/ c = n_hi n) ->
  exists j, placed c j /\ (k < j < length nodes + 2)%nat.
Proof.
  intros Hk Hn Hc. pose proof (lookup_lt_Some _ _ _ Hk) as Hlt.
  assert (Hpo : po = reverse (drop (S k) nodes) ++ q :: reverse (take k nodes)).
  { pose proof (take_drop_middle _ _ _ Hk) as Ht. rewrite <- (reverse_involutive po), <- Ht at 1.
    rewrite reverse_app, reverse_cons, <- app_assoc. done. }
  destruct (Hbu _ _ _ _ Hpo Hn) as [Hl Hh].
  assert (Hcc : sink c \/ c ∈ reverse (drop (S k) nodes)) by (by destruct Hc as [-> | ->]).
  destruct (decide (sink c)) as [[->| ->]|Hcs].
  - exists (length nodes). split; [right; left; done|lia].
  - exists (length nodes + 1)%nat. split; [right; right; done|lia].
  - destruct Hcc as [?|Hin]; [done|]. rewrite elem_of_reverse in Hin. apply elem_of_list_lookup in Hin as [k' Hk'].
    rewrite lookup_drop in Hk'. exists (S k + k')%nat. pose proof (lookup_lt_Some _ _ _ Hk'). split; [left; done|lia].
Qed.
Lemma hash_child k q n c : nodes !! k = Some q -> h !! q = Some n -> (c = n_lo n \/ c = n_hi n) ->
  exists j, placed c j /\ (k < j < length nodes + 2)%nat /\ hash !! c = Some (N.of_nat (off + j)).
Proof. intros Hk Hn Hc. destruct (placed_child _ _ _ _ Hk Hn Hc) as (j&Hp&Hj). exists j. split_and!; auto; try lia. by apply placed_hash. Qed.
Lemma entries_len : length entries = (length nodes + 2)%nat.
Proof. unfold entries. rewrite app_length, map_length. done. Qed.
Lemma entry_at k q n : nodes !! k = Some q -> h !! q = Some n ->
  exists jl jh, placed (n_lo n) jl /\ placed (n_hi n) jh /\ (k < jl < length nodes + 2)%nat /\ (k < jh < length nodes + 2)%nat /\
  ix (ins ++ entries) (N.of_nat (off + k)) = Some (Instr (N.of_nat (off + jl)) (N.of_nat (off + jh)) (n_idx n)).
Proof.
  intros Hk Hn. destruct (hash_child _ _ _ _ Hk Hn (or_introl eq_refl)) as (jl&Pl&Hjl&El).
  destruct (hash_child _ _ _ _ Hk Hn (or_intror eq_refl)) as (jh&Ph&Hjh&Eh). exists jl, jh. split_and!; auto; try lia.
  rewrite Nat2N.id, lookup_app_r by lia. replace (off + k - off)%nat with k by lia. unfold entries.
  apply lookup_app_l_Some. rewrite list_lookup_fmap, Hk. simpl. unfold nlo, nhi, nidx. by rewrite Hn, El, Eh.
Qed.
Lemma entry_bot : ix (ins ++ entries) (N.of_nat (off + length nodes)) = Some ci_botsink.
Proof.
  rewrite Nat2N.id, lookup_app_r by lia. replace (off + length nodes - off)%nat with (length nodes) by lia. unfold entries.
  rewrite lookup_app_r by (by rewrite map_length). by rewrite map_length, Nat.sub_diag.
Qed.
Lemma entry_top : ix (ins ++ entries) (N.of_nat (off + length nodes + 1)) = Some ci_topsink.
Proof.
  rewrite Nat2N.id, lookup_app_r by lia. replace (off + length nodes + 1 - off)%nat with (length nodes + 1)%nat by lia. unfold entries.
  rewrite lookup_app_r by (rewrite map_length; lia). rewrite map_length. by replace (length nodes + 1 - length nodes)%nat with 1%nat by lia.
Qed.
Lemma placed_crep q tq : repr h q tq -> forall j, placed q j -> crep (ins ++ entries) (N.of_nat (off + j)) tq.
Proof.
  induction 1 as [| |q n tl th Hs Hn Hl IHl Hh IHh]; intros j Hj.
  - destruct Hj as [[Hq Hn]|[[_ ->]|[Hq _]]]; [destruct Hn; by left| |by apply bot_neq_top in Hq].
    eapply crep_leaf; [apply entry_bot|done].
  - destruct Hj as [[Hq Hn]|[[Hq _]|[_ ->]]]; [destruct Hn; by right|by apply (eq_sym) in Hq; apply bot_neq_top in Hq|].
    eapply crep_leaf; [rewrite Nat.add_assoc; apply entry_top|done].
  - destruct Hj as [[Hq _]|[[-> _]|[-> _]]]; [|destruct Hs; by left|destruct Hs; by right].
    destruct (entry_at _ _ _ Hq Hn) as (jl&jh&Pl&Ph&Hjl&Hjh&Hx).
    eapply (crep_node _ _ _ tl th) in Hx; simpl in *.
    + exact Hx.
    + intros He. assert (jl = jh) as <- by lia. pose proof (placed_inj _ _ _ Pl Ph) as Heq.
      destruct (ho_node _ _ _ (i_heap _ _ _ HI) _ _ Hn Hs) as (_&Hne&_). done.
    + destruct (ho_node _ _ _ (i_heap _ _ _ HI) _ _ Hn Hs) as (Hlt&_). pose proof (i_nv _ _ _ HI).
      unfold topsink_index, cbot in *. lia.
    + lia.
    + lia.
    + by apply IHl.
    + by apply IHh.
Qed.
Lemma entries_seg : seg (ins ++ entries) (N.of_nat off) (N.of_nat (off + length entries)) /\ sup (ins ++ entries) (N.of_nat off) (N.of_nat (off + length entries)).
Proof.
  assert (Hpos : (1 <= length nodes)%nat).
  { rewrite reverse_length. destruct po; [done|]. simpl. lia. }
  rewrite entries_len.
  assert (Hent : forall i x, N.of_nat off <= i < N.of_nat (off + (length nodes + 2)) - 2 -> ix (ins ++ entries) i = Some x ->
    exists k q n, i = N.of_nat (off + k) /\ nodes !! k = Some q /\ ~ sink q /\ h !! q = Some n /\
     exists jl jh, placed (n_lo n) jl /\ placed (n_hi n) jh /\ (k < jl < length nodes + 2)%nat /\ (k < jh < length nodes + 2)%nat /\
       x = Instr (N.of_nat (off + jl)) (N.of_nat (off + jh)) (n_idx n)).
  { intros i x Hi Hx. destruct (lookup_lt_is_Some_2 nodes (N.to_nat i - off)) as [q Hq]; [lia|].
    destruct (reach_node s _ _ (node_reach _ _ Hq)) as [Hqs [n Hn]].
    exists (N.to_nat i - off)%nat, q, n. destruct (entry_at _ _ _ Hq Hn) as (jl&jh&?&?&?&?&Hx').
    replace (N.of_nat (off + (N.to_nat i - off))) with i in * by lia. split_and!; auto.
    exists jl, jh. split_and!; auto; try lia. congruence. }
  split; [split|].
  - lia.
  - rewrite app_length, entries_len. lia.
  - exists false, ci_botsink, ci_topsink.
    replace (N.of_nat (off + (length nodes + 2)) - 2) with (N.of_nat (off + length nodes)) by lia.
    replace (N.of_nat (off + (length nodes + 2)) - 1) with (N.of_nat (off + length nodes + 1)) by lia.
    split_and!; [apply entry_bot|apply entry_top|done|done].
  - intros i x Hi Hx. destruct (Hent i x Hi Hx) as (k&q&n&->&Hq&Hqs&Hn&jl&jh&Pl&Ph&Hjl&Hjh&->). simpl.
    destruct (ho_node _ _ _ (i_heap _ _ _ HI) _ _ Hn Hqs) as (Hlt&Hne&_). split_and!; try lia.
    + intros He. assert (jl = jh) as <- by lia. by pose proof (placed_inj _ _ _ Pl Ph).
    + pose proof (i_nv _ _ _ HI). unfold topsink_index, cbot in *. lia.
  - intros i j x Hi Hj Hx Hx'. destruct (Hent i x Hi Hx) as (k&q&n&->&Hq&Hqs&Hn&jl&jh&Pl&Ph&Hjl&Hjh&->).
    destruct (Hent j _ Hj Hx') as (k'&q'&n'&->&Hq'&Hqs'&Hn'&jl'&jh'&Pl'&Ph'&Hjl'&Hjh'&[= E1 E2 E3]).
    assert (jl = jl') as <- by lia. assert (jh = jh') as <- by lia.
    assert (q = q') as <-.
    { eapply (ho_uniq _ _ _ (i_heap _ _ _ HI)); eauto using placed_inj. }
    f_equal. f_equal. eapply (NoDup_lookup nodes); eauto. rewrite reverse_Permutation. apply Hlr.
  - intros i Hi. destruct (lookup_lt_is_Some_2 nodes (N.to_nat i - off)) as [q Hq]; [lia|].
    assert (Hqp : q <> p).
    { intros ->. assert (N.to_nat i - off = 0)%nat; [|lia]. eapply (NoDup_lookup nodes); [rewrite reverse_Permutation; apply Hlr|exact Hq|].
      rewrite <- head_lookup. by rewrite <- last_reverse, reverse_involutive. }
    assert (Hpar : exists r n, reach_in h p r /\ h !! r = Some n /\ (n_lo n = q \/ n_hi n = q)).
    { pose proof (node_reach _ _ Hq) as Hre. clear -Hre Hqp. induction Hre as [p n Hs Hn|p n q Hs Hn Hre IH|p n q Hs Hn Hre IH]; [done| |].
      - destruct (decide (q = n_lo n)) as [->|Hne].
        + exists p, n. split_and!; auto. by eapply ri_refl.
        + destruct (IH Hne) as (r&m&Hr&Hm&Hc). exists r, m. split_and!; auto. by eapply ri_lo.
      - destruct (decide (q = n_hi n)) as [->|Hne].
        + exists p, n. split_and!; auto. by eapply ri_refl.
        + destruct (IH Hne) as (r&m&Hr&Hm&Hc). exists r, m. split_and!; auto. by eapply ri_hi. }
    destruct Hpar as (r&n&Hre&Hn&Hc). apply Hlr in Hre. rewrite <- elem_of_reverse in Hre. apply elem_of_list_lookup in Hre as [k Hk].
    destruct (entry_at _ _ _ Hk Hn) as (jl&jh&Pl&Ph&Hjl&Hjh&Hx).
    assert (Hpl : forall j, placed q j -> j = (N.to_nat i - off)%nat).
    { intros j Hj. apply placed_hash in Hj. rewrite (Hnode _ _ Hq) in Hj. injection Hj as Hj. lia. }
    exists (N.of_nat (off + k)). eexists. split_and!; [lia| |exact Hx|].
    + destruct Hc as [<-|<-]; [apply Hpl in Pl|apply Hpl in Ph]; lia.
    + simpl. destruct Hc as [<-|<-]; [left; apply Hpl in Pl|right; apply Hpl in Ph]; lia.
Qed.
End main.

(** one BDD is appended; its root entry represents the same tree *)
Lemma c_add_spec c : CInv c -> mgr_nr_nodes s < 2 ^ 62 -> exists po l, lists_reach s p po /\
  c_add_bdd c p s = Ok (nr_bdds c, Coll (c_ins c ++ l) (c_del c ++ [N.of_nat (length (c_ins c ++ l))])) s /\
  CInv (Coll (c_ins c ++ l) (c_del c ++ [N.of_nat (length (c_ins c ++ l))])) /\
  crep (c_ins c ++ l) (N.of_nat (length (c_ins c))) t /\ length l = (length po + 2)%nat /\
  l !! length po = Some ci_botsink /\ l !! S (length po) = Some ci_topsink /\
  sup (c_ins c ++ l) (N.of_nat (length (c_ins c))) (N.of_nat (length (c_ins c) + length l)).
Proof.
  intros HC Hsz. destruct (nodes_postorder_spec _ _ _ HI p t Hr Hns) as (po&Hpo&Hlr&Hbu&Hlast).
  assert (Hnd : NoDup (reverse po)) by (rewrite reverse_Permutation; apply Hlr).
  assert (Hall : Forall (fun q => reach_in h p q) (reverse po)).
  { apply Forall_forall. intros q Hq. apply Hlr. by rewrite elem_of_reverse in Hq. }
  destruct (pass1_spec (reverse po) (c_ins c) ∅ Hall Hnd) as (h1&He1&Hin1&Hout1); [intros; apply lookup_empty|].
  assert (Hnsk : forall q, sink q -> q ∉ reverse po).
  { intros q Hq Hin. rewrite Forall_forall in Hall. apply Hall in Hin. by apply reach_node in Hin as [? _]. }
  set (n1 := (c_ins c ++ map (fun q => Instr size_max size_max (nidx q)) (reverse po))).
  assert (Hn1 : length n1 = (length (c_ins c) + length (reverse po))%nat) by (unfold n1; by rewrite app_length, map_length).
  set (h2 := ins_new botsink (N.of_nat (length n1)) h1).
  assert (Hh2 : h2 = <[botsink := N.of_nat (length n1)]> h1).
  { apply ins_new_None. rewrite Hout1 by (apply Hnsk; by left). apply lookup_empty. }
  set (h3 := ins_new topsink (N.of_nat (length (n1 ++ [ci_botsink]))) h2).
  assert (Hh3 : h3 = <[topsink := N.of_nat (length (n1 ++ [ci_botsink]))]> h2).
  { apply ins_new_None. rewrite Hh2, lookup_insert_ne by apply bot_neq_top. rewrite Hout1 by (apply Hnsk; by right). apply lookup_empty. }
  assert (Hnode : forall k q, reverse po !! k = Some q -> h3 !! q = Some (N.of_nat (length (c_ins c) + k))).
  { intros k q Hk. assert (~ sink q) as Hq.
    { intros Hs. apply (Hnsk q Hs). by eapply elem_of_list_lookup_2. }
    rewrite Hh3, Hh2, !lookup_insert_ne by (intros <-; apply Hq; unfold sink; auto). by apply Hin1. }
  assert (Hbot : h3 !! botsink = Some (N.of_nat (length (c_ins c) + length (reverse po)))).
  { rewrite Hh3, lookup_insert_ne by (apply not_eq_sym, bot_neq_top). by rewrite Hh2, lookup_insert, Hn1. }
  assert (Htop : h3 !! topsink = Some (N.of_nat (length (c_ins c) + length (reverse po) + 1))).
  { rewrite Hh3, lookup_insert. f_equal. rewrite app_length, Hn1. simpl. lia. }
  destruct (entries_seg po Hlr Hbu Hlast (c_ins c) h3 Hnode Hbot Htop) as [Hseg Hsup].
  pose proof (CInv_app c _ HC Hseg) as HC'.
  assert (Hp0 : reverse po !! 0%nat = Some p).
  { rewrite <- head_lookup. by rewrite <- last_reverse, reverse_involutive. }
  exists po, (entries po h3). rewrite !reverse_length in *. split_and!; auto.
  - unfold c_add_bdd.
    rewrite (bind_eq _ _ _ _ _ (assert_eq _ s (proj2 (N.eqb_eq _ _) (back_del_len _ HC)))).
    rewrite (bind_eq _ _ _ _ _ Hpo). cbv zeta. rewrite (bind_eq _ _ _ _ _ He1). fold n1.
    assert (Hlst : exists q, last (reverse po) = Some q /\ reach_in h p q).
    { destruct (last (reverse po)) as [q|] eqn:Hq.
      - exists q. split; [done|]. rewrite Forall_forall in Hall. apply Hall.
        rewrite last_lookup in Hq. by eapply elem_of_list_lookup_2.
      - apply last_None in Hq. by rewrite Hq in Hp0. }
    destruct Hlst as (q&->&Hq). destruct (reach_node s _ _ Hq) as [Hqs [n Hqn]].
    destruct (ho_node _ _ _ (i_heap _ _ _ HI) _ _ Hqn Hqs) as (_&_&_&tq&Hrq).
    assert (Hvia : via_mgr q (ret tt) s = Ok tt s) by (by rewrite (via_mgr_spec _ _ _ HI _ _ _ Hrq)).
    rewrite (bind_eq _ _ _ _ _ Hvia). fold h2. fold h3.
    pose proof (pass2_spec (N.of_nat (length (c_ins c))) h3 (reverse po) (c_ins c) [] [ci_botsink; ci_topsink] 0 Hall eq_refl eq_refl) as H2.
    assert (Hprem : forall k q, reverse po !! k = Some q -> exists l r, h3 !! nlo q = Some l /\ h3 !! nhi q = Some r /\ 0 + N.of_nat k < l /\ 0 + N.of_nat k < r).
    { intros k q' Hk. assert (Hq' : reach_in h p q') by (rewrite Forall_forall in Hall; apply Hall; by eapply elem_of_list_lookup_2).
      destruct (reach_node s _ _ Hq') as [Hqs' [n' Hqn']]. unfold nlo, nhi. rewrite Hqn'.
      assert (Hbot' : h3 !! botsink = Some (N.of_nat (length (c_ins c) + length (reverse po)))) by (by rewrite reverse_length).
      assert (Htop' : h3 !! topsink = Some (N.of_nat (length (c_ins c) + length (reverse po) + 1))) by (by rewrite reverse_length).
      destruct (hash_child po Hbu (c_ins c) h3 Hnode Hbot' Htop' _ _ _ _ Hk Hqn' (or_introl eq_refl)) as (j1&_&?&E1).
      destruct (hash_child po Hbu (c_ins c) h3 Hnode Hbot' Htop' _ _ _ _ Hk Hqn' (or_intror eq_refl)) as (j2&_&?&E2).
      do 2 eexists. split_and!; [exact E1|exact E2|lia|lia]. }
    specialize (H2 Hprem).
    rewrite (back_del_len _ HC).
    assert (Hn2 : (n1 ++ [ci_botsink]) ++ [ci_topsink] = c_ins c ++ [] ++ map (fun q => Instr size_max size_max (nidx q)) (reverse po) ++ [ci_botsink; ci_topsink]).
    { unfold n1. by rewrite <- !app_assoc. }
    rewrite Hn2, (bind_eq _ _ _ _ _ H2). cbn [app]. fold (entries po h3).
    set (c' := Coll _ _). 
    assert (Hnrb : nr_bdds c' = nr_bdds c + 1).
    { unfold nr_bdds, c'. simpl. rewrite app_length. simpl. pose proof (nr_bdds_len _ HC). unfold nr_bdds in *. lia. }
    assert (Hsegs : forall a b, cseg c' (nr_bdds c) a b -> a = N.of_nat (length (c_ins c)) /\ b = N.of_nat (length (c_ins c ++ entries po h3))).
    { intros a b [Ha Hb]. unfold c' in Ha, Hb. simpl in Ha, Hb. pose proof (nr_bdds_len _ HC) as Hlen.
      rewrite lookup_app_l in Ha by lia. rewrite lookup_app_r in Hb by lia.
      replace (N.to_nat (nr_bdds c + 1) - length (c_del c))%nat with 0%nat in Hb by lia. simpl in Hb. injection Hb as <-. split; [|done].
      pose proof (ci_last _ HC) as Hl. rewrite last_lookup in Hl. replace (pred (length (c_del c))) with (N.to_nat (nr_bdds c)) in Hl by lia. congruence. }
    assert (Hpsz : N.of_nat (length po) <= mgr_nr_nodes s).
    { destruct (i_nc _ _ _ HI) as (_&_&_&_&Ht&_). unfold mgr_nr_nodes. rewrite Ht.
      assert (length po <= size h)%nat; [|lia]. rewrite <- size_dom. 
      rewrite <- (size_list_to_set (C := gset N) po) by apply Hlr. apply subseteq_size. intros x Hx.
      apply elem_of_list_to_set, Hlr in Hx. destruct (reach_node s _ _ Hx) as [_ [m Hm]]. by eapply elem_of_dom_2. }
    assert (Hsm : forall a b, cseg c' (nr_bdds c) a b -> b - a < two64).
    { intros a b Hab. destruct (Hsegs _ _ Hab) as [-> ->]. rewrite app_length, entries_len, reverse_length. rewrite <- two64_62. lia. }
    assert (Hib : is_bdd c' (nr_bdds c) = inr true) by (apply is_bdd_true; [exact HC'|lia|exact Hsm]).
    rewrite (bind_eq _ _ _ _ _ (liftR_eq _ _ s (assertRR_true _ Hib))).
    destruct (cseg_ex _ (nr_bdds c) HC') as (a&b&Hab); [fold c'; lia|]. fold c' in Hab.
    pose proof (nr_bdd_nodes_eq _ _ _ _ HC' Hab (Hsm _ _ Hab)) as Hnn. destruct (Hsegs _ _ Hab) as [-> ->].
    assert (Hnb : (letR* n0 := nr_bdd_nodes c' (nr_bdds c) in inr (n0 =? N.of_nat (length (reverse po)) + 2)) = inr true).
    { fold c' in Hnn. rewrite Hnn. cbn [bindR]. f_equal. apply N.eqb_eq. rewrite app_length, entries_len, reverse_length. lia. }
    rewrite (bind_eq _ _ _ _ _ (liftR_eq _ _ s (assertRR_true _ Hnb))). done.
  - replace (N.of_nat (length (c_ins c))) with (N.of_nat (length (c_ins c) + 0)) by lia.
    eapply placed_crep; eauto; try (by rewrite reverse_length). left. done.
  - by rewrite entries_len, reverse_length.
  - unfold entries. rewrite lookup_app_r by (by rewrite map_length, reverse_length). by rewrite map_length, reverse_length, Nat.sub_diag.
  - unfold entries. rewrite lookup_app_r by (rewrite map_length, reverse_length; lia). rewrite map_length, reverse_length.
    by replace (S (length po) - length po)%nat with 1%nat by lia.
Qed.
End add.
End iotac.
