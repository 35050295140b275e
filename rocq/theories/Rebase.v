(** * Rebase.v -- rebase: copying a diagram with renamed variables *)
From Verif Require Export Handle.
Open Scope N_scope.

(** the assignment seen through a renaming *)
Definition rename (vm : N -> option N) (r : asgn) : asgn := fun v => match vm v with Some w => r w | None => false end.

Section rebase.
Context {E : Env} (HE : env_ok E).

Section loop.
Context (s : mstate) (md : mode) (H : ptr -> Z) (HI : Inv md H s).
Context (vm : N -> option N) (p : ptr) (t : bdd) (Hr : repr (s_heap s) p t).
Notation h := (s_heap s).

Definition nm_ok (s1 : mstate) (nm : gmap N N) : Prop :=
  forall q q' tq, nm !! q = Some q' -> repr h q tq -> den s1 q' (fun r => evalt tq (rename vm r)).

Lemma reach_occurs_sub q tq v : reach_in h p q -> repr h q tq -> occurs v tq -> occurs v t.
Proof.
  intros Hre Hq Ho. apply (reach_occurs s q tq v Hq) in Ho as (q2&n&Hre2&Hn&Hv).
  apply (reach_occurs s p t v Hr). exists q2, n. split_and!; auto.
  clear Hr. induction Hre as [p n0 Hs Hp|p n0 q Hs Hp Hre IH|p n0 q Hs Hp Hre IH]; auto.
  - eapply ri_lo; eauto.
  - eapply ri_hi; eauto.
Qed.

Context (Hdef : forall v, occurs v t -> exists w, vm v = Some w /\ w < nr_variables s).
Context (Hmono : md_ord md = true -> forall u v wu wv, occurs u t -> occurs v t -> u < v ->
  vm u = Some wu -> vm v = Some wv -> wu < wv).

Lemma rebase_indep q n tq c tc w : reach_in h p q -> h !! q = Some n -> repr h q tq -> (c = n_lo n \/ c = n_hi n) -> repr h c tc ->
  vm (n_idx n) = Some w -> md_ord md = true ->
  forall u r b, u < w + 1 -> evalt tc (rename vm (upd r u b)) = evalt tc (rename vm r).
Proof.
  intros Hre Hn Hq Hc Htc Hw Ho u r b Hu. apply evalt_ext. intros v Hv.
  destruct (reach_node s _ _ Hre) as [Hns _].
  destruct (repr_nonsink _ _ _ Hq Hns) as (n'&tl&th&Hn'&->&Hl&Hh). simplify_eq.
  pose proof (ho_ord _ _ _ (i_heap _ _ _ HI) Ho _ _ Hq) as Hord. simpl in Hord. destruct Hord as (_&Hol&Hoh).
  assert (Hlt : n_idx n + 1 <= v).
  { destruct Hc as [-> | ->].
    - rewrite (repr_fun _ _ _ _ Htc Hl) in Hv. exact (ordt_occurs _ _ _ Hol Hv).
    - rewrite (repr_fun _ _ _ _ Htc Hh) in Hv. exact (ordt_occurs _ _ _ Hoh Hv). }
  assert (Hvt : occurs v t).
  { eapply (reach_occurs_sub q); eauto. simpl. right. destruct Hc as [-> | ->].
    - left. by rewrite <- (repr_fun _ _ _ _ Htc Hl).
    - right. by rewrite <- (repr_fun _ _ _ _ Htc Hh). }
  assert (Hnt : occurs (n_idx n) t) by (eapply (reach_occurs_sub q); eauto; simpl; auto).
  destruct (Hdef v Hvt) as (wv&Hwv&_). unfold rename. rewrite Hwv. apply upd_other.
  assert (w < wv); [|lia]. eapply (Hmono Ho (n_idx n) v); eauto. lia.
Qed.

Lemma rebase_loop_spec po (Hbu : bottom_up s po) (Hin : forall q, q ∈ po -> reach_in h p q) :
  forall qs done nm s1, po = done ++ qs -> Inv md H s1 -> ext s s1 -> nm_ok s1 nm ->
  (forall q, sink q \/ q ∈ done -> is_Some (nm !! q)) ->
  sat (rebase_loop vm qs nm) s1 (fun nm' s2 => Inv md H s2 /\ ext s s2 /\ nm_ok s2 nm' /\
     forall q, sink q \/ q ∈ po -> is_Some (nm' !! q)).
Proof.
  induction qs as [|q qs IH]; intros dn nm s1 Hpo HI1 He1 Hnm Hd.
  - apply sat_ret. rewrite app_nil_r in Hpo. subst. auto.
  - assert (Hre : reach_in h p q) by (apply Hin; rewrite Hpo; set_solver).
    destruct (reach_node s _ _ Hre) as [Hns [n Hn]].
    destruct (ho_node _ _ _ (i_heap _ _ _ HI) q n Hn Hns) as (_&_&_&tq&Hq).
    destruct (repr_nonsink _ _ _ Hq Hns) as (n'&tl&th&Hn'&Htq&Hl&Hh). assert (n' = n) as -> by congruence.
    destruct (Hbu dn q qs n Hpo Hn) as [Hlo Hhi].
    assert (Hoc : occurs (n_idx n) t) by (eapply (reach_occurs_sub q); eauto; rewrite Htq; simpl; auto).
    destruct (Hdef _ Hoc) as (w&Hw&Hwlt).
    destruct (proj1 He1 _ _ Hn) as (n1&Hn1&(Hl1&Hh1&Hi1&_)).
    destruct (Hd _ Hlo) as [l Hl']. destruct (Hd _ Hhi) as [hh Hh'].
    pose proof (Hnm _ _ _ Hl' Hl) as (t0&Hr0&Ht0). pose proof (Hnm _ _ _ Hh' Hh) as (t1&Hr1&Ht1).
    cbn [rebase_loop]. apply sat_bind. unfold rebase_node.
    eapply sat_bind_ok; [by apply getN_eq|]. rewrite <- Hi1, Hw, <- Hl1, <- Hh1, Hl', Hh'.
    assert (Hwl : w < N.of_nat (length (s_vars s1))) by (rewrite (inv_nv_ext _ _ He1); done).
    destruct (lookup_lt_is_Some_2 (s_vars s1) (N.to_nat w)) as [vt Hvt]; [lia|].
    eapply sat_bind_ok; [by apply getV_eq|].
    eapply sat_step.
    { apply (unique_find_spec HE md H s1 w l hh t0 t1); auto. intros Ho. split.
      - apply (den_ordt md H s1 _ _ _ _ HI1 Ho Hr0 Ht0). apply (rebase_indep q n tq (n_lo n) tl w); auto.
      - apply (den_ordt md H s1 _ _ _ _ HI1 Ho Hr1 Ht1). apply (rebase_indep q n tq (n_hi n) th w); auto. }
    intros r s2 Hu. apply uf_post_post in Hu. destruct Hu as (HI2&He2&Hd2). apply sat_ret.
    apply (IH (dn ++ [q])); auto.
    + by rewrite <- app_assoc.
    + by eapply ext_trans.
    + assert (Hnm2 : nm_ok s2 nm) by (intros ? ? ? ? ?; eapply den_ext; eauto).
      destruct (nm !! q) eqn:Hnq; [done|]. intros q0 q' tq' Hq0 Hrq0.
      apply lookup_insert_Some in Hq0 as [[<- <-]|[Hne Hq0]]; [|by eapply Hnm2].
      rewrite (repr_fun _ _ _ _ Hrq0 Hq), Htq. eapply den_proper; [|exact Hd2].
      intros x. simpl. rewrite Ht0, Ht1. unfold rename at 3. by rewrite Hw.
    + intros q0 [Hq0|Hq0].
      * destruct (nm !! q) eqn:Hnq; [apply Hd; auto|]. destruct (decide (q0 = q)) as [->|Hne].
        -- rewrite lookup_insert. eauto.
        -- rewrite lookup_insert_ne by done. apply Hd. auto.
      * destruct (decide (q0 = q)) as [->|Hne].
        -- destruct (nm !! q) eqn:Hnq; [by rewrite Hnq|]. rewrite lookup_insert. eauto.
        -- apply elem_of_app in Hq0 as [Hq0|Hq0%elem_of_list_singleton]; [|done].
           destruct (nm !! q) eqn:Hnq; [apply Hd; auto|]. rewrite lookup_insert_ne by done. apply Hd; auto.
Qed.

Definition nm0 : gmap N N := <[topsink := topsink]> (<[botsink := botsink]> ∅).
Lemma nm0_ok : nm_ok s nm0.
Proof.
  intros q q' tq Hq Hrq. unfold nm0 in Hq. rewrite lookup_insert_Some, lookup_insert_Some, lookup_empty in Hq.
  destruct Hq as [[<- <-]|[_ [[<- <-]|[_ ?]]]]; [..|done].
  - apply repr_top_inv in Hrq as ->. apply den_top.
  - apply repr_bot_inv in Hrq as ->. apply den_bot.
Qed.
Lemma nm0_sink q : sink q -> is_Some (nm0 !! q).
Proof.
  unfold nm0. intros [-> | ->]; [|rewrite lookup_insert; eauto].
  rewrite lookup_insert_ne; [rewrite lookup_insert; eauto|]. intros ?. by apply bot_neq_top.
Qed.

Lemma postorder_sink : sink p -> (e_ndebug = true \/ e_botmark = false /\ e_topmark = false) -> nodes_postorder p s = Ok [] s.
Proof.
  intros Hs Hok. unfold nodes_postorder.
  assert (exists m, marked p s = Ok m s /\ (e_botmark = false /\ e_topmark = false -> m = false)) as (m&Hm&Hmm).
  { destruct (ho_sink _ _ _ (i_heap _ _ _ HI)) as [[x Hb] [y Ht]]. unfold marked.
    destruct Hs as [->| ->]; [rewrite (bind_eq _ _ _ _ _ (getN_eq _ _ _ Hb))|rewrite (bind_eq _ _ _ _ _ (getN_eq _ _ _ Ht))]; eexists; (split; [reflexivity|simpl; tauto]). }
  rewrite (bind_eq _ _ _ _ _ Hm).
  assert (Ha : assert_ (negb m) s = Ok tt s).
  { unfold assert_, assertR. destruct Hok as [->|Hok]; [by rewrite orb_true_r|]. by rewrite Hmm. }
  rewrite (bind_eq _ _ _ _ _ Ha).
  assert (Hv : with_fuel (fun f => postorder_impl f p []) s = Ok [] s).
  { unfold with_fuel. destruct (fuel_of s) as [|f] eqn:Hf; [unfold fuel_of in Hf; lia|]. simpl.
    rewrite (bind_eq _ _ _ _ _ (is_terminal_eq _ _ _ _ _ HI Hr)). by rewrite bool_decide_eq_true_2 by done. }
  rewrite (bind_eq _ _ _ _ _ Hv). rewrite (bind_eq _ _ _ _ _ (unmark_sink s md H HI p Hs)).
  unfold assertM. destruct e_ndebug eqn:Hnd; [done|].
  assert (Hx : (let* n := nr_nodes p in ret (N.of_nat (length (@nil N)) =? n)) s = Ok true s).
  { rewrite (bind_eq _ _ _ _ _ (nr_nodes_sink s md H HI p Hs ltac:(rewrite Hnd; exact Hok))). done. }
  unfold bind at 1. by rewrite (bind_eq _ _ _ _ _ Hx).
Qed.

Lemma rebase_copy_spec : (sink p -> e_ndebug = true \/ e_botmark = false /\ e_topmark = false) ->
  sat (rebase_copy vm p) s (post md H s (fun r => evalt t (rename vm r))).
Proof.
  intros Hok. unfold rebase_copy.
  assert (exists po, nodes_postorder p s = Ok po s /\ bottom_up s po /\ (forall q, q ∈ po -> reach_in h p q) /\ (~ sink p -> p ∈ po)) as (po&Hpo&Hbu&Hin&Hp).
  { destruct (decide (sink p)) as [Hs|Hs].
    - exists []. rewrite (postorder_sink Hs (Hok Hs)). split_and!; auto.
      + intros [] ? ? ? ?; done.
      + intros q Hq. by apply elem_of_nil in Hq.
      + done.
    - destruct (nodes_postorder_spec s md H HI p t Hr Hs) as (l&Hl&[Hnd Hlr]&Hbu&Hlast). exists l. split_and!; auto.
      + intros q. by apply Hlr.
      + intros _. apply Hlr. destruct (repr_nonsink _ _ _ Hr Hs) as (n&?&?&Hn&_). by eapply ri_refl. }
  eapply sat_bind_ok; [exact Hpo|].
  eapply sat_step.
  { apply (rebase_loop_spec po Hbu Hin po [] nm0 s); auto using ext_refl, nm0_ok.
    intros q [Hq|Hq]; [by apply nm0_sink|by apply elem_of_nil in Hq]. }
  intros nm s2 (HI2&He2&Hnm&Hall).
  destruct (Hall p) as [r Hrp]. { destruct (decide (sink p)); auto. }
  rewrite Hrp. pose proof (Hnm _ _ _ Hrp Hr) as Hden. destruct Hden as (tr&Htr&Hev).
  eapply sat_ok; [by eapply touch_repr|]. split_and!; auto. by exists tr.
Qed.
End loop.

Lemma vars_eq_inv_repr s s' p t : s_heap s' = s_heap s -> repr (s_heap s) p t -> repr (s_heap s') p t.
Proof. by intros ->. Qed.

Lemma map_fold_max_ge (vm : gmap N N) k w : vm !! k = Some w -> w <= map_fold (fun _ y acc => N.max y acc) 0 vm.
Proof.
  revert k w. apply (map_fold_ind (fun acc (m : gmap N N) => forall k w, m !! k = Some w -> w <= acc)).
  - intros k w Hk. by rewrite lookup_empty in Hk.
  - intros i x m r Hi IH k w Hk. apply lookup_insert_Some in Hk as [[<- <-]|[Hne Hk]]; [lia|].
    specialize (IH _ _ Hk). lia.
Qed.
Lemma map_fold_max_lt (vm : gmap N N) b : 0 < b -> (forall k w, vm !! k = Some w -> w < b) -> map_fold (fun _ y acc => N.max y acc) 0 vm < b.
Proof.
  intros Hb. apply (map_fold_ind (fun acc (m : gmap N N) => (forall k w, m !! k = Some w -> w < b) -> acc < b)); [done|].
  intros i x m r Hi IH Hk. assert (x < b) by (apply (Hk i); by rewrite lookup_insert).
  assert (r < b); [|lia]. apply IH. intros k w Hkw. apply (Hk k). rewrite lookup_insert_ne; [done|congruence].
Qed.

Lemma rebase_map_spec md H s p t (vm : gmap N N) : Inv md H s -> repr (s_heap s) p t ->
  (sink p -> e_ndebug = true \/ e_botmark = false /\ e_topmark = false) ->
  (forall v, occurs v t -> is_Some (vm !! v)) ->
  (forall v w, vm !! v = Some w -> w < topsink_index) ->
  (md_ord md = true -> forall u v wu wv, occurs u t -> occurs v t -> u < v -> vm !! u = Some wu -> vm !! v = Some wv -> wu < wv) ->
  sat (rebase_map p vm) s (postl md H s (fun r => evalt t (rename (fun v => vm !! v) r))).
Proof.
  intros HI Hr Hok Hdef Hlt Hmono. unfold rebase_map. cbv zeta.
  set (lst := map_fold (fun _ y acc => N.max y acc) 0 vm).
  assert (Hl : lst < topsink_index) by (by apply map_fold_max_lt).
  destruct (ensure_var_spec md H s lst HI Hl) as (s1&H1&HI1&Hh1&Hn1).
  eapply sat_bind_ok; [exact H1|].
  eapply sat_mono.
  { apply (rebase_copy_spec s1 md H HI1 (fun v => vm !! v) p t); auto.
    - by rewrite Hh1.
    - intros v Hv. destruct (Hdef v Hv) as [w Hw]. exists w. split; [done|].
      assert (w <= lst) by (by eapply map_fold_max_ge). rewrite Hn1. lia. }
  intros r s' (HI'&He&Hd). split_and!; auto. eapply lext_trans; [|by apply ext_lext].
  apply heap_eq_lext; auto. unfold nr_variables in Hn1. lia.
Qed.

Lemma foldr_max_ge vm i w : vm !! i = Some w -> w <= foldr N.max 0 vm.
Proof.
  revert i. induction vm as [|x vm IH]; intros [|i] Hi; simpl in *; simplify_eq; [lia|].
  specialize (IH _ Hi). lia.
Qed.
Lemma foldr_max_lt vm b : 0 < b -> Forall (fun w => w < b) vm -> foldr N.max 0 vm < b.
Proof. intros Hb. induction 1; simpl; lia. Qed.

Lemma rebase_vec_spec md H s p t (vm : list N) : Inv md H s -> repr (s_heap s) p t -> ~ sink p ->
  (forall v, occurs v t -> v < N.of_nat (length vm)) ->
  Forall (fun w => w < topsink_index) vm ->
  (md_ord md = true -> forall u v wu wv, occurs u t -> occurs v t -> u < v -> vm !! N.to_nat u = Some wu -> vm !! N.to_nat v = Some wv -> wu < wv) ->
  sat (rebase_vec p vm) s (postl md H s (fun r => evalt t (rename (fun v => vm !! N.to_nat v) r))).
Proof.
  intros HI Hr Hns Hdef Hlt Hmono. unfold rebase_vec.
  destruct (variables_spec s md H HI p t Hr) as (l&Hl&_&Hin).
  destruct (repr_nonsink _ _ _ Hr Hns) as (n&tl&th&Hn&Ht&_).
  assert (Hoc : occurs (n_idx n) t) by (rewrite Ht; simpl; auto).
  apply sat_bind. apply sat_assertM.
  { intros _. eapply sat_bind_ok; [exact Hl|]. destruct (last l) as [b|] eqn:Hb.
    - apply sat_ret. split; [|done]. apply N.leb_le. assert (b ∈ l) as Hbl by (by apply last_Some_elem_of).
      apply Hin, Hdef in Hbl. lia.
    - apply last_None in Hb as ->. exfalso. apply (Hin (n_idx n)), elem_of_nil in Hoc. done. }
  assert (Hbody : match vm with
    | [] => fail EUB
    | _ :: _ => ensure_var (foldr N.max 0 vm);;* rebase_copy (fun v : N => vm !! N.to_nat v) p
    end = (ensure_var (foldr N.max 0 vm);;* rebase_copy (fun v : N => vm !! N.to_nat v) p)).
  { destruct vm; [|done]. exfalso. apply Hdef in Hoc. simpl in Hoc. lia. }
  cbv zeta. rewrite Hbody. clear Hbody. set (lst := foldr N.max 0 vm).
  assert (Hls : lst < topsink_index) by (by apply foldr_max_lt).
  destruct (ensure_var_spec md H s lst HI Hls) as (s1&H1&HI1&Hh1&Hn1).
  cbv zeta. eapply sat_bind_ok; [exact H1|].
  eapply sat_mono.
  { apply (rebase_copy_spec s1 md H HI1 (fun v => vm !! N.to_nat v) p t); auto.
    - by rewrite Hh1.
    - intros v Hv. specialize (Hdef v Hv). destruct (lookup_lt_is_Some_2 vm (N.to_nat v)) as [w Hw]; [lia|].
      exists w. split; [done|]. assert (w <= lst) by (by eapply foldr_max_ge). rewrite Hn1. lia. }
  intros r s' (HI'&He&Hd). split_and!; auto. eapply lext_trans; [|by apply ext_lext].
  apply heap_eq_lext; auto. unfold nr_variables in Hn1. lia.
Qed.
End rebase.
