(** * CollBase.v -- stored BDDs as trees; what each operation on a well-formed collection does *)
From Verif Require Export SpecColl CollRem World3.
Open Scope N_scope.

Section coll_base.
Context {E : Env}.

(** ** stored BDDs and trees *)
Definition croot (c : coll) (nr : N) (t : bdd) : Prop := exists a, ix (c_del c) nr = Some a /\ crep (c_ins c) a t.
Lemma croot_ex c nr : CInv c -> nr < nr_bdds c -> exists t, croot c nr t.
Proof.
  intros HI Hn. destruct (cseg_ex _ _ HI Hn) as (a&b&Hs). pose proof (ci_seg _ HI _ _ _ Hs) as Hg.
  destruct (seg_crep _ _ _ Hg a) as [t Ht]; [pose proof (sg_ab _ _ _ Hg); lia|]. exists t, a. split; [apply Hs|done].
Qed.
Lemma croot_lt c nr t : CInv c -> croot c nr t -> nr < nr_bdds c.
Proof.
  intros HI (a&Ha&Ht). pose proof (nr_bdds_len _ HI). pose proof (lookup_lt_Some _ _ _ Ha). destruct (decide (nr = nr_bdds c)) as [->|]; [|lia].
  exfalso. pose proof (ci_last _ HI) as Hl. rewrite last_lookup in Hl. replace (pred (length (c_del c))) with (N.to_nat (nr_bdds c)) in Hl by lia.
  simplify_eq. apply crep_lt in Ht. lia.
Qed.
Lemma cval_croot c nr t x : CInv c -> croot c nr t -> cval c nr x = evp t x.
Proof.
  intros HI Hr. pose proof (croot_lt _ _ _ HI Hr). destruct Hr as (a&Ha&Ht). unfold cval.
  pose proof (c_evaluate_spec c nr a t x HI ltac:(done) Ha Ht) as He. destruct (evp t x); [by rewrite He|]. by destruct He as [e ->].
Qed.
Lemma croot_occurs c nr t v : CInv c -> croot c nr t -> occurs v t -> cvar c nr v.
Proof.
  intros HI Hr Ho. pose proof (croot_lt _ _ _ HI Hr) as Hn. destruct Hr as (a&Ha&Ht). destruct (cseg_ex _ _ HI Hn) as (a'&b&Hs).
  assert (a' = a) as -> by (destruct Hs; congruence). pose proof (ci_seg _ HI _ _ _ Hs) as Hg. pose proof (sg_ab _ _ _ Hg).
  destruct (seg_occurs _ _ _ a t v Hg) as (j&x&Hj&Hx&Hv); [lia|done|done|]. exists x. split; [|done]. exists a, b, j. done.
Qed.
Lemma cval_covers c nr t x : CInv c -> croot c nr t -> ccovers c nr x -> cval c nr x = Some (evalt t (asg x)).
Proof. intros HI Hr Hc. rewrite (cval_croot _ _ _ _ HI Hr). apply evp_covers. intros v Hv. apply Hc. by eapply croot_occurs. Qed.
Lemma evp_evalt t x b : evp t x = Some b -> evalt t (asg x) = b.
Proof.
  induction t as [z|v l IHl h IHh]; simpl; [by intros [= ->]|]. unfold asg at 1. destruct (x !! N.to_nat v) as [[]|] eqn:Hx; simpl; auto. done.
Qed.
Lemma cappends_croot c c' k nr t : CInv c -> cappends c c' k -> croot c nr t -> croot c' nr t.
Proof.
  intros HI (_&_&l&Hi&Hd) (a&Ha&Ht). exists a. rewrite Hi, Hd. split; [by apply lookup_app_l_Some|by apply crep_ext].
Qed.
Lemma cappends_keeps c c' k : CInv c -> CInv c' -> cappends c c' k -> ckeeps c c'.
Proof.
  intros HI HI' Ha nr x Hn. destruct (croot_ex _ _ HI Hn) as [t Ht]. rewrite (cval_croot _ _ _ _ HI Ht). by rewrite (cval_croot _ _ _ _ HI' (cappends_croot _ _ _ _ _ HI Ha Ht)).
Qed.
Lemma roots_croot c bs ts : roots c bs ts <-> Forall2 (croot c) bs ts.
Proof. done. Qed.
Lemma sat_conjf c bs ts : CInv c -> roots c bs ts -> csatisfiable c bs -> exists r, conjf ts r = true.
Proof.
  intros HI Hr [x Hx]. exists (asg x). induction Hr as [|b t bs ts Hb Hr IH]; [done|]. inversion Hx; subst.
  unfold conjf in *. simpl. rewrite IH by done. rewrite (cval_croot _ _ _ _ HI Hb) in *. rewrite andb_true_r. by apply evp_evalt.
Qed.
Lemma conj_croot c bs ts x : CInv c -> roots c bs ts -> Forall (fun b => ccovers c b x) bs -> conjf ts (asg x) = cconj c bs x.
Proof.
  intros HI Hr. induction Hr as [|b t bs ts Hb Hr IH]; [done|]. intros Hc. inversion Hc; subst. unfold conjf, cconj in *. simpl. rewrite IH by done. f_equal.
  rewrite (cval_covers _ _ _ _ HI Hb) by done. destruct (evalt t (asg x)); [by rewrite bool_decide_true|]. by rewrite bool_decide_false.
Qed.
Lemma cappends_intro c l : CInv c -> cappends c (Coll (c_ins c ++ l) (c_del c ++ [N.of_nat (length (c_ins c ++ l))])) (nr_bdds c).
Proof.
  intros HI. split; [done|]. split; [|by exists l]. pose proof (nr_bdds_len _ HI). unfold nr_bdds in *. cbn [c_del]. rewrite app_length. simpl. lia.
Qed.
Lemma new_croot c l t : CInv c -> crep (c_ins c ++ l) (N.of_nat (length (c_ins c))) t ->
  croot (Coll (c_ins c ++ l) (c_del c ++ [N.of_nat (length (c_ins c ++ l))])) (nr_bdds c) t.
Proof.
  intros HI Ht. exists (N.of_nat (length (c_ins c))). split; [|done]. cbn [c_del]. apply lookup_app_l_Some.
  pose proof (ci_last _ HI) as Hl. rewrite last_lookup in Hl. pose proof (nr_bdds_len _ HI). rewrite <- Hl. f_equal. lia.
Qed.

(** every entry of BDD [nr] has a parent *)
Definition csup (c : coll) (nr : N) : Prop := forall a b, cseg c nr a b -> sup (c_ins c) a b.
Lemma new_cseg c l a b : CInv c -> cseg (Coll (c_ins c ++ l) (c_del c ++ [N.of_nat (length (c_ins c ++ l))])) (nr_bdds c) a b <->
  a = N.of_nat (length (c_ins c)) /\ b = N.of_nat (length (c_ins c) + length l).
Proof.
  intros HI. pose proof (nr_bdds_len _ HI) as Hlen. pose proof (ci_last _ HI) as Hl. rewrite last_lookup in Hl.
  replace (pred (length (c_del c))) with (N.to_nat (nr_bdds c)) in Hl by lia. unfold cseg. cbn [c_del]. rewrite lookup_app_l by lia. rewrite lookup_app_r by lia.
  replace (N.to_nat (nr_bdds c + 1) - length (c_del c))%nat with 0%nat by lia. cbn. rewrite Hl, app_length. split.
  - intros [[= <-] [= <-]]. done.
  - intros [-> ->]. done.
Qed.
Lemma new_csup c l : CInv c -> sup (c_ins c ++ l) (N.of_nat (length (c_ins c))) (N.of_nat (length (c_ins c) + length l)) ->
  csup (Coll (c_ins c ++ l) (c_del c ++ [N.of_nat (length (c_ins c ++ l))])) (nr_bdds c).
Proof. intros HI Hs a b [-> ->]%new_cseg; done. Qed.

Lemma lists_reach_bound md w p po : WInv md w -> lists_reach (w_s w) p po -> N.of_nat (length po) <= mgr_nr_nodes (w_s w).
Proof.
  intros HW Hlr. destruct (i_nc _ _ _ HW) as (_&_&_&_&Ht&_). unfold mgr_nr_nodes. rewrite Ht.
  assert (length po <= size (s_heap (w_s w)))%nat; [|lia]. rewrite <- size_dom.
  rewrite <- (size_list_to_set (C := gset N) po) by apply Hlr. apply subseteq_size. intros x Hx.
  apply elem_of_list_to_set, Hlr in Hx. destruct (reach_node (w_s w) _ _ Hx) as [_ [m Hm]]. by eapply elem_of_dom_2.
Qed.

(** what add_bdd does, with the tree *)
Lemma add_facts md w c i p t : WInv md w -> CInv c -> hrep w i p t -> ~ isconst w i -> mgr_nr_nodes (w_s w) < 2 ^ 62 ->
  exists po l, let c' := Coll (c_ins c ++ l) (c_del c ++ [N.of_nat (length (c_ins c ++ l))]) in
   lists_reach (w_s w) p po /\ step (QCollAdd c i) w = WOk (OutC (nr_bdds c) c') w /\ CInv c' /\ cappends c c' (nr_bdds c) /\ croot c' (nr_bdds c) t /\
   length l = (length po + 2)%nat /\ l !! length po = Some ci_botsink /\ l !! S (length po) = Some ci_topsink /\ csup c' (nr_bdds c).
Proof.
  intros HW HI Hr Hnc Hsz. pose proof (nonconst_nonsink _ _ _ _ Hr Hnc) as Hns.
  destruct (c_add_spec _ _ _ HW p t (proj2 (proj2 Hr)) Hns c HI Hsz) as (po&l&H1&H2&H3&H4&H5&H6&H7&H8).
  exists po, l. split_and!; auto.
  - simpl. rewrite (with1_hrep _ _ _ _ _ Hr). by rewrite (query_eq w (fun r => OutC (fst r) (snd r)) _ _ H2).
  - by apply cappends_intro.
  - by apply new_croot.
  - by apply new_csup.
Qed.

Lemma rebase_facts c nr vm : CInv c -> nr < nr_bdds c -> (forall v, cvar c nr v -> exists u, vm v = Some u /\ u < cbot) ->
  exists a b ins', cseg c nr a b /\ c_rebase c nr vm = inr (Coll ins' (c_del c)) /\ length ins' = length (c_ins c) /\
    (forall i, ~ (a <= i < b) -> ix ins' i = ix (c_ins c) i) /\ (forall i x, a <= i < b -> ix (c_ins c) i = Some x -> ix ins' i = Some (reb vm x)).
Proof.
  intros HI Hn Hv. destruct (cseg_ex _ _ HI Hn) as (a&b&Hs).
  destruct (rebase_ok c nr a b vm HI Hs) as (ins'&?&?&?&?).
  { intros x Hx. destruct (Hv (i_idx x)) as (u&->&_); [by exists x|done]. }
  exists a, b, ins'. done.
Qed.
Lemma remove_facts c rs : CInv c -> csmall c -> StronglySorted N.lt rs -> Forall (fun r => r < nr_bdds c) rs ->
  rs = [] /\ c_remove c rs = inr c \/
  rs <> [] /\ (nr_bdds c - 1) ∈ rs /\ (exists c', c_remove c rs = inr c' /\ RInv c c' (nr_bdds c) (kept rs (nats 0 (nr_bdds c)))) \/
  rs <> [] /\ (nr_bdds c - 1) ∉ rs /\ c_remove c rs = inl EUB.
Proof.
  intros HI Hsm Hs HF. destruct (decide (rs = [])) as [->|Hne].
  - left. split; [done|]. unfold c_remove. by rewrite !assertR_true by (done || (apply N.leb_le; simpl; lia)).
  - right. destruct (decide ((nr_bdds c - 1) ∈ rs)) as [Hin|Hin]; [left|right]; split_and!; auto; [by apply c_remove_ok|by apply c_remove_ub].
Qed.

Lemma subt_occurs s t v : subt s t -> occurs v s -> occurs v t.
Proof.
  induction t as [b|u l IHl h IHh]; simpl; [by intros [->|[]]|]. intros [->|[H|H]] Hv; [done|right; left; auto|right; right; auto].
Qed.
Lemma del_ge c nr a : CInv c -> ix (c_del c) nr = Some a -> 3 * nr <= a.
Proof.
  intros HI. revert a. induction nr as [|nr IH] using N.peano_ind; intros a Ha; [lia|]. rewrite <- N.add_1_r in *.
  destruct (lookup_lt_is_Some_2 (c_del c) (N.to_nat nr)) as [a' Ha']; [apply lookup_lt_Some in Ha; lia|].
  specialize (IH a' Ha'). pose proof (del_mono _ _ _ _ _ HI Ha' Ha). lia.
Qed.
Lemma del_len c : CInv c -> 3 * nr_bdds c <= N.of_nat (length (c_ins c)).
Proof.
  intros HI. apply (del_ge c); [done|]. pose proof (nr_bdds_len _ HI). pose proof (ci_last _ HI) as Hl. rewrite last_lookup in Hl. rewrite <- Hl. f_equal. lia.
Qed.
Lemma cvar_occurs c nr t v : CInv c -> csup c nr -> croot c nr t -> cvar c nr v -> occurs v t.
Proof.
  intros HI Hup (a0&Ha0&Ht) (x&(a&b&i&Hs&Hi&Hx)&<-). assert (a0 = a) as -> by (destruct Hs; congruence).
  pose proof (ci_seg _ HI _ _ _ Hs) as Hg. destruct (seg_crep _ _ _ Hg i) as [ti Hti]; [lia|].
  pose proof (seg_reach _ _ _ Hg i t ti (Hup _ _ Hs) Hi Ht Hti) as Hsub. eapply subt_occurs; [exact Hsub|].
  inversion Hti as [? y z Hy [Hz _]|? y tl th Hy]; simplify_eq; [|by left]. by destruct (sg_node _ _ _ Hg i x Hi Hx).
Qed.
Lemma AndOut_done c bs ts l : CInv c -> roots c bs ts -> AndOut c ts l ->
  let c' := Coll (c_ins c ++ l) (c_del c ++ [N.of_nat (length (c_ins c ++ l))]) in CInv c' /\ cand_done c bs c'.
Proof.
  intros HI Hr [HI' (t&Ht&Hev&Hord&Hoc&_&_&_&_&_&_&Hsup)] c'. split; [done|]. pose proof (cappends_intro c l HI) as Ha. pose proof (new_croot c l t HI Ht) as Hrt.
  fold c' in Ha, Hrt, HI'.
  assert (Hex : forall v, occurs v t -> Exists (fun b => cvar c b v) bs).
  { intros v Hv. specialize (Hoc v Hv). clear -HI Hr Hoc. induction Hr as [|b t' bs ts Hb Hr IH]; inversion Hoc; subst; [|right; auto].
    left. eapply croot_occurs; eauto. }
  split_and!.
  - done.
  - by eapply cappends_keeps.
  - intros v Hv. eapply Hex, cvar_occurs; [exact HI'| |exact Hrt|exact Hv]. by apply new_csup.
  - intros x Hx. rewrite (cval_croot _ _ _ _ HI' Hrt), <- (conj_croot _ _ _ _ HI Hr Hx), <- Hev. apply evp_covers.
    intros v Hv. specialize (Hex v Hv). apply Exists_exists in Hex as (b&Hb&Hv'). rewrite Forall_forall in Hx. by apply (Hx b Hb).
Qed.
End coll_base.
