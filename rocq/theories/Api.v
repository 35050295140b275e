(** * Api.v -- the remaining manager operations: creation, variables, literals, rebase,
      and_rec with a node limit, handle life cycle *)
From Verif Require Export Ite Nary Trav2.
Open Scope N_scope.

Section api.
Context {E : Env} (HE : env_ok E).

(** like [ext], but variables may have been added *)
Definition lext (s s' : mstate) : Prop :=
  hext (s_heap s) (s_heap s') /\ (length (s_vars s) <= length (s_vars s'))%nat.
Lemma lext_refl s : lext s s.
Proof. split; [apply hext_refl|lia]. Qed.
Lemma lext_trans a b c : lext a b -> lext b c -> lext a c.
Proof. intros [H1 H2] [H3 H4]. split; [by eapply hext_trans|lia]. Qed.
Lemma ext_lext s s' : ext s s' -> lext s s'.
Proof. intros [H1 H2]. split; [done|lia]. Qed.
Lemma den_lext s s' p phi : lext s s' -> den s p phi -> den s' p phi.
Proof. intros [He _] (t&?&?). exists t. eauto using repr_ext. Qed.

Definition postl md H s (phi : bfun) : ptr -> mstate -> Prop :=
  fun p s' => Inv md H s' /\ lext s s' /\ den s' p phi.
Lemma post_postl md H s phi p s' : post md H s phi p s' -> postl md H s phi p s'.
Proof. intros (?&?&?). split_and!; auto using ext_lext. Qed.

Definition postlp (P : Prop) md H s (phi : bfun) : ptr -> mstate -> Prop :=
  fun p s' => Inv md H s' /\ lext s s' /\ denp P s' p phi.
Lemma postp_postlp P md H s phi p s' : postp P md H s phi p s' -> postlp P md H s phi p s'.
Proof. intros (?&?&?). split_and!; auto using ext_lext. Qed.
Lemma postl_postlp P md H s phi p s' : postl md H s phi p s' -> postlp P md H s phi p s'.
Proof. intros (?&?&?). split_and!; auto using den_denp. Qed.

(** ** creation *)
Lemma bot_ne_top : botsink <> topsink.
Proof. apply bot_neq_top. Qed.
Lemma heap_init_bot : heap_init !! botsink = Some (sink_node botsink_index e_botkey e_botmark).
Proof. unfold heap_init. by rewrite lookup_insert. Qed.
Lemma heap_init_top : heap_init !! topsink = Some (sink_node topsink_index e_topkey e_topmark).
Proof. unfold heap_init. rewrite lookup_insert_ne by apply bot_neq_top. by rewrite lookup_insert. Qed.
Lemma heap_init_inv p n : heap_init !! p = Some n -> sink p.
Proof.
  unfold heap_init, sink. rewrite lookup_insert_Some, lookup_insert_Some, lookup_empty. naive_solver.
Qed.
Lemma refs_init p : refs heap_init p = 0%Z.
Proof. apply refs_zero. intros q n Hq Hs. by apply heap_init_inv in Hq. Qed.
Lemma repr_init p t : repr heap_init p t -> exists b, t = Leaf b.
Proof. inversion 1; eauto. by apply heap_init_inv in H1. Qed.

Lemma inv_init md : Inv md (fun _ => 0%Z) mgr_init.
Proof.
  constructor; simpl.
  - constructor.
    + split; eexists; [apply heap_init_bot|apply heap_init_top].
    + intros p n Hp Hs. by apply heap_init_inv in Hp.
    + intros p q n m Hp Hq Hn. by apply heap_init_inv in Hn.
    + intros _ p t Hr. apply repr_init in Hr as [b ->]. done.
  - unfold topsink_index. lia.
  - intros v t Hv. by rewrite lookup_nil in Hv.
  - split.
    + done.
    + intros m Hm. apply elem_of_list_singleton in Hm as ->. done.
  - unfold nc_ok, nc_init. simpl. split_and!; auto.
    + exists 2. split; [by vm_compute|lia].
    + unfold heap_init. rewrite !map_size_insert_None; rewrite ?map_size_empty; auto.
      rewrite lookup_insert_ne; [apply lookup_empty|]. intros ?. by apply bot_neq_top.
    + intros p Hp. apply elem_of_dom in Hp as [n Hn]. apply heap_init_inv in Hn. unfold allocd. simpl.
      destruct Hn as [-> | ->].
      * exists 0%nat, 0. unfold botsink, node_size. split; [lia|]. right. split; [done|lia].
      * exists 0%nat, 1. unfold topsink, node_size. split; [lia|]. right. split; [done|lia].
  - assert (Hav : forall c, avail c (PCs ∅ 0) = []). { intros c. unfold avail; cbn [pc_free]. by rewrite lookup_empty. }
    split.
    + intros i j x y H. by rewrite lookup_nil in H.
    + intros x c y H. by apply elem_of_nil in H.
    + intros c c' x y H. rewrite Hav in H. by apply elem_of_nil in H.
    + intros c. rewrite Hav. constructor.
    + intros c x H. rewrite Hav in H. by apply elem_of_nil in H.
    + intros x [H|[c H]]; [|rewrite Hav in H]; by apply elem_of_nil in H.
    + intros b H. cbn [pc_blk] in H. lia.
  - intros p n Hp. rewrite refs_init. destruct (heap_init_inv _ _ Hp) as [-> | ->].
    + rewrite heap_init_bot in Hp. simplify_eq. simpl. rewrite decide_True; [done|by left].
    + rewrite heap_init_top in Hp. simplify_eq. simpl. rewrite decide_True; [done|by right].
  - done.
  - done.
Qed.

(** ** variables *)
Lemma heap_ok_nv md nv nv' h : (nv <= nv')%nat -> heap_ok md nv h -> heap_ok md nv' h.
Proof.
  intros Hle []. constructor; auto. intros p n Hp Hs. destruct (ho_node p n Hp Hs) as (?&?&?&?).
  split_and!; auto. lia.
Qed.

(** no stored node mentions a new variable, so every memoised ite is safe for it *)
Lemma memo_ok_nv md nv h mc : heap_ok md nv h -> memo_ok md nv h mc -> memo_ok md (nv + 1) h mc.
Proof.
  intros Hh [Hm He]. split; [done|]. intros m Hin Hr. destruct (He m Hin Hr) as (tf&tg&tr&Hf&Hg&Hrr&Ha&Ho&Hi).
  exists tf, tg, tr. split_and!; auto. intros G1 G2. destruct (Hi G1 G2) as (th&Hth&Hsem&_). exists th. split_and!; auto.
  intros _ r [Hne _]. apply Hne. apply evalt_ext. intros v Hv. pose proof (repr_occurs _ _ _ _ _ _ Hh Hf Hv) as Hlt.
  unfold upd. destruct (N.eqb_spec v (N.of_nat (nv + 1) - 1)) as [->|]; [lia|done].
Qed.

Lemma add_variable_spec md H s : Inv md H s -> nr_variables s < topsink_index ->
  exists s', add_variable s = Ok (nr_variables s) s' /\ Inv md H s' /\
    s_heap s' = s_heap s /\ length (s_vars s') = S (length (s_vars s)).
Proof.
  intros HI Hnv. pose proof (i_heap _ _ _ HI) as Hheap. unfold add_variable.
  rewrite (bind_eq get _ s s s eq_refl).
  rewrite (bind_eq _ _ _ _ _ (assert_eq _ s (proj2 (N.ltb_lt _ _) (N.lt_trans _ topsink_index maxvarsize Hnv eq_refl)))).
  destruct (reserve_page_spec 64 s (pids (s_vars s))) as (c&pcs'&Hrp&Hc&Hp'); [apply HI|lia|].
  assert (Hn : TableModel.new_var s = Ok (VTab (Page c (repeat 0 (N.to_nat 64))) 63 64 0) (set_s_pcs pcs' s)).
  { unfold TableModel.new_var. by rewrite (bind_eq _ _ _ _ _ Hrp). }
  rewrite (bind_eq _ _ _ _ _ Hn).
  eexists. split; [reflexivity|]. simpl. rewrite app_length. simpl.
  split_and!; [|done|lia]. destruct HI. constructor; simpl; rewrite ?app_length; simpl; auto.
  - eapply heap_ok_nv; [|done]. lia.
  - unfold nr_variables, topsink_index in *. lia.
  - intros v t Hv. apply lookup_app_Some in Hv as [Hv|[Hge Hv]]; [by apply i_tab|].
    destruct (v - length (s_vars s))%nat as [|m] eqn:Hm; cbn [lookup list_lookup] in Hv; [|done].
    injection Hv as <-. assert (v = length (s_vars s)) as -> by lia.
    exists 6. cbn [vt_page pg_slots vt_free pg_cap].
    split_and!.
    + split_and!; [done|lia|done].
    + lia.
    + eapply ptab_proper; [|apply (ptab_empty _ 6 (N.to_nat 64)); done].
      intros p. split; [done|]. intros (Hs&n&Hn'&Hi). destruct (ho_node _ _ _ Hheap p n Hn' Hs) as (Hlt&_). lia.
    + by vm_compute.
    + vm_compute. lia.
    + exact Hc.
    + intros Hlt; lia.
    + done.
  - by eapply memo_ok_nv.
  - unfold pids. rewrite map_app. exact Hp'.
Qed.

Lemma add_variables_spec md H n : forall s, Inv md H s -> nr_variables s + N.of_nat n <= topsink_index ->
  exists s', add_variables n s = Ok tt s' /\ Inv md H s' /\
    s_heap s' = s_heap s /\ length (s_vars s') = (length (s_vars s) + n)%nat.
Proof.
  induction n as [|n IH]; intros s HI Hn.
  - exists s. split_and!; auto.
  - destruct (add_variable_spec md H s HI) as (s1&H1&HI1&Hh1&Hl1); [lia|].
    destruct (IH s1 HI1) as (s2&H2&HI2&Hh2&Hl2); [unfold nr_variables in *; rewrite Hl1; lia|].
    exists s2. split_and!; auto; [|congruence|lia].
    cbn [add_variables]. by rewrite (bind_eq _ _ _ _ _ H1).
Qed.

Lemma ensure_var_spec md H s v : Inv md H s -> v < topsink_index ->
  exists s', ensure_var v s = Ok tt s' /\ Inv md H s' /\
    s_heap s' = s_heap s /\ nr_variables s' = N.max (nr_variables s) (v + 1).
Proof.
  intros HI Hv. unfold ensure_var. rewrite (bind_eq get _ s s s eq_refl).
  pose proof (i_nv _ _ _ HI) as Hnv.
  destruct (add_variables_spec md H (N.to_nat (v + 1 - nr_variables s)) s HI) as (s'&H1&HI1&Hh&Hl).
  - unfold nr_variables in *. lia.
  - exists s'. split_and!; auto. unfold nr_variables in *. rewrite Hl. lia.
Qed.

Lemma heap_eq_lext s s' : s_heap s' = s_heap s -> (length (s_vars s) <= length (s_vars s'))%nat -> lext s s'.
Proof. intros Hh Hl. split; [rewrite Hh; apply hext_refl|done]. Qed.

Lemma uf_sink md H s v (b : bool) : Inv md H s -> v < nr_variables s ->
  sat (unique_find_v v (if b then botsink else topsink) (if b then topsink else botsink)) s
    (post md H s (fun r => Bool.eqb (r v) b)).
Proof.
  intros HI Hv. eapply sat_mono.
  - apply (unique_find_spec HE md H s v _ _ (Leaf (negb b)) (Leaf b)); auto.
    + destruct b; constructor.
    + destruct b; constructor.
    + done.
  - intros p s' Hu. apply uf_post_post in Hu. eapply post_proper; [|exact Hu].
    intros r. simpl. destruct b; by destruct (r v).
Qed.

Lemma projection_spec md H s v : Inv md H s -> v < topsink_index ->
  sat (projection v) s (fun p s' => postl md H s (fun r => r v) p s' /\ nr_variables s' = N.max (nr_variables s) (v + 1)).
Proof.
  intros HI Hv. destruct (ensure_var_spec md H s v HI Hv) as (s1&H1&HI1&Hh1&Hn1).
  unfold projection. eapply sat_bind_ok; [exact H1|]. eapply sat_bind_ok; [reflexivity|].
  eapply sat_bind_ok; [apply assert_eq, N.ltb_lt; lia|].
  eapply sat_mono; [apply (uf_sink md H s1 v true); auto; lia|].
  intros p s' (HI'&He&Hd). split.
  - split_and!; auto.
    + eapply lext_trans; [|by apply ext_lext]. apply heap_eq_lext; auto. unfold nr_variables in *. lia.
    + eapply den_proper; [|exact Hd]. intros r. simpl. by destruct (r v).
  - unfold nr_variables. rewrite (inv_nv_ext _ _ He). done.
Qed.

Lemma neg_projection_spec md H s v : Inv md H s -> v < nr_variables s ->
  sat (neg_projection v) s (post md H s (fun r => negb (r v))).
Proof.
  intros HI Hv. unfold neg_projection. eapply sat_bind_ok; [reflexivity|].
  eapply sat_bind_ok; [by apply assert_eq, N.ltb_lt|].
  eapply sat_mono; [by apply (uf_sink md H s v false)|]. intros p s'. apply post_proper. intros r. simpl. by destruct (r v).
Qed.

Lemma mgr_unique_find_spec md H s v l r pl pr : Inv md H s -> v < nr_variables s -> den s l pl -> den s r pr ->
  (md_ord md = true -> forall u x b, u <= v -> pl (upd x u b) = pl x /\ pr (upd x u b) = pr x) ->
  sat (mgr_unique_find v l r) s (post md H s (fun x => if x v then pr x else pl x)).
Proof.
  intros HI Hv (tl&Hl&Htl) (th&Hr&Hth) Ho. unfold mgr_unique_find. eapply sat_bind_ok; [reflexivity|].
  eapply sat_bind_ok; [by apply assert_eq, N.ltb_lt|].
  eapply sat_mono; [apply (unique_find_spec HE md H s v l r tl th); auto|].
  - intros Hm. split.
    + eapply (den_ordt md H s l tl pl); eauto. intros u x b Hu. apply (Ho Hm). lia.
    + eapply (den_ordt md H s r th pr); eauto. intros u x b Hu. apply (Ho Hm). lia.
  - intros p s' Hu. apply uf_post_post in Hu. eapply post_proper; [|exact Hu].
    intros x. simpl. by rewrite Htl, Hth.
Qed.

End api.
