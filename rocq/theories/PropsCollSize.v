(** * PropsCollSize.v -- sizes of stored BDDs (C76) *)
From Verif Require Export PropsColl9 PropsSize.
Open Scope N_scope.

(** ** Tuples of subtrees *)
Fixpoint tup {A} (ls : list (list A)) : list (list A) :=
  match ls with [] => [[]] | l :: ls => flat_map (fun x => map (cons x) (tup ls)) l end.
Lemma tup_len {A} (ls : list (list A)) : length (tup ls) = foldr (fun (l : list A) n => (length l * n)%nat) 1%nat ls.
Proof.
  induction ls as [|l ls IH]; [done|]. cbn [tup foldr]. rewrite <- IH. clear IH. induction l as [|x l IH]; [done|].
  simpl. rewrite app_length, map_length, IH. done.
Qed.
Lemma tup_in {A} (ls : list (list A)) us : Forall2 (fun u l => u ∈ l) us ls -> us ∈ tup ls.
Proof.
  induction 1 as [|u l us ls Hu _ IH]; [by left|]. cbn [tup]. apply elem_of_list_In, in_flat_map. exists u.
  split; [by apply elem_of_list_In|]. by apply in_map, elem_of_list_In.
Qed.
Lemma tup_head {A} (a : A) (ls : list (list A)) : exists rest, tup (map (cons a) ls) = replicate (length ls) a :: rest.
Proof. induction ls as [|l ls [rest IH]]; [by exists []|]. cbn [map tup flat_map length replicate]. rewrite IH. simpl. eauto. Qed.

(** ** The list of inner subtrees *)
Fixpoint inners (t : bdd) : list bdd := match t with Leaf _ => [] | Br v l h => Br v l h :: inners l ++ inners h end.
Lemma inners_in t s : s ∈ inners t <-> subt s t /\ exists v l h, s = Br v l h.
Proof.
  induction t as [b|v l IHl h IHh]; simpl.
  - rewrite elem_of_nil. split; [done|]. intros [[->|[]] (v&l&h&?)]. done.
  - rewrite elem_of_cons, elem_of_app, IHl, IHh. split.
    + intros [->|[[??]|[??]]]; split; eauto.
    + intros [[->|[?|?]] ?]; auto.
Qed.
Lemma inn_ex t : exists ts, inn ts t.
Proof. exists (remove_dups (inners t)). split; [apply NoDup_remove_dups|]. intros s. by rewrite elem_of_remove_dups, inners_in. Qed.
Lemma inn_len ts ts' t : inn ts t -> inn ts' t -> length ts = length ts'.
Proof. intros [H1 H2] [H3 H4]. apply Permutation_length, NoDup_Permutation; auto. intros s. by rewrite H2, H4. Qed.
Lemma subt_tr (a b t : bdd) : subt a b -> subt b t -> subt a t.
Proof.
  intros Hab. induction t as [z|v l IHl h IHh]; simpl.
  - intros [->|[]]. done.
  - intros [->|[H|H]]; [exact Hab|right; left; auto|right; right; auto].
Qed.
Lemma subt_cof v b t : subt (cof v b t) t.
Proof. destruct t as [z|w l h]; simpl; [by left|]. unfold cof. destruct (v =? w), b; simpl; auto using subt_refl. Qed.

(** ** bdd_and: every node ever pushed is a conjunction of subfunctions of the operands *)
Section bound.
Context {E : Env} (c : coll) (TS : list bdd) (HO : Forall (ordt 0) TS).
Notation ins := (c_ins c).
Definition Jst (stk : list instr) : Prop := forall i x, 2 <= i -> ix stk i = Some x ->
  exists t us, srep stk i t /\ Forall2 subt us TS /\ (forall r, evalt t r = conjf us r) /\ ordt 0 t.
Definition Bnd (limit : N) (r : N) (st : cst) : Prop :=
  (r <> size_max -> Jst (st_stack st)) /\
  (r = size_max -> exists stk tbl, SInv stk tbl /\ Jst stk /\ limit < N.of_nat (length stk)).

Lemma us_ord us : Forall2 subt us TS -> Forall (ordt 0) us.
Proof.
  intros H. induction H as [|u t us TS' Hu _ IH]; [constructor|]. inversion HO; subst. constructor; [by eapply ordt_sub|auto].
Qed.
Lemma us_cof v b us : Forall2 subt us TS -> Forall2 subt (map (cof v b) us) TS.
Proof. clear HO. induction 1 as [|u t us TS' Hu _ IH]; simpl; constructor; [|done]. eapply subt_tr; [apply subt_cof|done]. Qed.
Lemma CPost_mono limit ts st r st' : CPost c limit ts st r st' -> CPost c (limit + 1) ts st r st'.
Proof. intros [????H??]. split; auto. lia. Qed.

Lemma meld_bound limit key us v st lo st1 hi st2 r st' : limit + 1 < 2 ^ 62 -> v < cbot ->
  Exists (rootis v) us -> Forall (rootge v) us -> Forall2 (crep ins) key us ->
  CPost c limit (map (cof v false) us) st lo st1 -> CPost c limit (map (cof v true) us) st1 hi st2 ->
  Forall2 subt us TS -> Jst (st_stack st2) -> meld key lo hi v limit st2 = (r, st') -> Bnd limit r st'.
Proof.
  intros Hlim Hv Hex Hge Hkey Hlo Hhi Hus HJ Hm.
  destruct (and_step c (limit + 1) key us v st lo st1 hi st2 Hlim Hv Hex Hge Hkey (CPost_mono _ _ _ _ _ Hlo) (CPost_mono _ _ _ _ _ Hhi)) as (r1&st3&Heq&Hor).
  injection Heq as Hm1. assert (Hlim0 : limit < 2 ^ 62) by lia. pose proof (CPost_r _ _ _ _ _ _ Hlim0 Hlo) as Hlon. pose proof (cp_lim _ _ _ _ _ _ Hhi) as Hl2.
  pose proof (cp_S _ _ _ _ _ _ Hhi) as HS2.
  unfold meld in Hm, Hm1. destruct (lo =? hi).
  { injection Hm as <- <-. split; [done|]. by intros ->. }
  destruct (st_red st2 !! (lo, hi, v)) as [m|] eqn:Hred.
  { injection Hm as <- <-. split; [done|]. intros ->. apply (si_red _ _ HS2) in Hred as [_ Hr]. apply lookup_lt_Some in Hr. unfold size_max in Hr. lia. }
  assert (Hlen : N.of_nat (length (st_stack st2 ++ [Instr lo hi v])) = N.of_nat (length (st_stack st2)) + 1) by (rewrite app_length; simpl; lia).
  cbv zeta in Hm, Hm1. rewrite Hlen in Hm, Hm1. rewrite (proj2 (N.ltb_ge (limit + 1) _)) in Hm1 by lia.
  set (m := N.of_nat (length (st_stack st2)) + 1 - 1) in *.
  destruct Hor as [->|[_ HP]]; [injection Hm1 as Hm1 _; unfold size_max in Hm1; lia|].
  assert (Hr1 : r1 = m) by congruence. assert (Hst3 : st_stack st3 = st_stack st2 ++ [Instr lo hi v]) by (injection Hm1 as _ <-; done).
  assert (HJ3 : Jst (st_stack st3)).
  { intros i x Hi Hx. rewrite Hst3 in Hx. apply lookup_app_Some in Hx as [Hx|[Hge' Hx]].
    - destruct (HJ i x Hi Hx) as (t&us'&Ht&?&?&?). exists t, us'. split_and!; auto. rewrite Hst3. by apply srep_ext.
    - apply list_lookup_singleton_Some in Hx as [Hi0 _]. destruct (cp_t _ _ _ _ _ _ HP) as (t&Hr&He&_&Hor&_).
      exists t, us. assert (i = r1) as -> by (subst r1; unfold m; lia). split_and!; auto. apply Hor. by apply us_ord. }
  destruct (limit <? N.of_nat (length (st_stack st2)) + 1) eqn:Hlt.
  - injection Hm as <- <-. split; [done|]. intros _. exists (st_stack st3), (st_red st3). split_and!; [apply HP|done|].
    rewrite Hst3, Hlen. by apply N.ltb_lt.
  - assert ((r, st') = (r1, st3)) as Heq by congruence. injection Heq as -> ->. split; [done|]. intros Hs. exfalso. subst r1. unfold m, size_max in Hs. lia.
Qed.
Lemma Bnd_here limit r st : r <> size_max -> Jst (st_stack st) -> Bnd limit r st.
Proof. intros Hr HJ. by split. Qed.
Lemma gen_ne limit ks us r st : limit < 2 ^ 62 -> SInv (st_stack st) (st_red st) -> GInv c st -> N.of_nat (length (st_stack st)) <= limit ->
  st_gen st !! ks = Some r -> Forall2 (crep ins) ks us -> r <> size_max.
Proof.
  intros Hlim HS HG Hl Hg Hk. destruct (HG _ _ _ Hg Hk) as (t&Hr&_). apply srep_lt in Hr; [|apply HS]. unfold size_max. lia.
Qed.
Lemma bound_tail (F : list N -> cst -> R (N * cst)) limit key us v lows highs st r st' :
  limit + 1 < 2 ^ 62 -> v < cbot -> Exists (rootis v) us -> Forall (rootge v) us -> Forall2 (crep ins) key us -> Forall2 subt us TS ->
  (forall k b st0, k = (if b : bool then highs else lows) -> SInv (st_stack st0) (st_red st0) -> GInv c st0 -> N.of_nat (length (st_stack st0)) <= limit -> Jst (st_stack st0) ->
     CRes c limit (map (cof v b) us) st0 (F k st0) /\ forall r0 st1, F k st0 = inr (r0, st1) -> Bnd limit r0 st1) ->
  SInv (st_stack st) (st_red st) -> GInv c st -> N.of_nat (length (st_stack st)) <= limit -> Jst (st_stack st) ->
  (letR* (lo, st) := F lows st in if lo =? size_max then inr (size_max, st) else
   letR* (hi, st) := F highs st in if hi =? size_max then inr (size_max, st) else inr (meld key lo hi v limit st)) = inr (r, st') ->
  Bnd limit r st'.
Proof.
  intros Hlim Hv Hex Hge Hkey Hus HF HS HG Hl HJ.
  destruct (HF _ false st eq_refl HS HG Hl HJ) as [(lo&st1&->&Hlo) HB]. specialize (HB _ _ eq_refl). cbn [bindR].
  destruct Hlo as [->|[Hne Hlo]]; [rewrite N.eqb_refl; by intros [= <- <-]|]. rewrite (proj2 (N.eqb_neq _ _) Hne).
  pose proof (proj1 HB Hne) as HJ1.
  destruct (HF _ true st1 eq_refl (cp_S _ _ _ _ _ _ Hlo) (cp_G _ _ _ _ _ _ Hlo) (cp_lim _ _ _ _ _ _ Hlo) HJ1) as [(hi&st2&->&Hhi) HB2]. specialize (HB2 _ _ eq_refl). cbn [bindR].
  destruct Hhi as [->|[Hne' Hhi]]; [rewrite N.eqb_refl; by intros [= <- <-]|]. rewrite (proj2 (N.eqb_neq _ _) Hne').
  intros [= Hm]. eapply (meld_bound limit key us v st lo st1 hi st2); eauto. by apply HB2.
Qed.

Lemma impl2_bound fuel : forall fi gi tf tg limit st r st', limit + 1 < 2 ^ 62 -> SInv (st_stack st) (st_red st) -> GInv c st ->
  N.of_nat (length (st_stack st)) <= limit -> crep ins fi tf -> crep ins gi tg -> (ht tf + ht tg < fuel)%nat ->
  Forall2 subt [tf; tg] TS -> Jst (st_stack st) -> bdd_and_impl2 fuel c fi gi limit st = inr (r, st') -> Bnd limit r st'.
Proof.
  induction fuel as [|fuel IH]; intros fi gi tf tg limit st r st' Hlim HS HG Hl Hf Hg Hfu Hus HJ; [lia|]. cbn [bdd_and_impl2].
  destruct (st_gen st !! [fi; gi]) as [r0|] eqn:Hgen.
  { intros [= <- <-]. apply Bnd_here; [|done]. refine (gen_ne limit [fi; gi] [tf; tg] r0 st _ HS HG Hl Hgen _); [lia|by repeat constructor]. }
  destruct (crep_root _ _ _ Hf) as (x&Hx&Hxr). destruct (crep_root _ _ _ Hg) as (y&Hy&Hyr).
  rewrite (vecR_eq _ _ _ Hx), (vecR_eq _ _ _ Hy). cbn [bindR].
  assert (Hleaf : forall b : bool, (inr ((if b then 1 else 0), st) : R (N * cst)) = inr (r, st') -> Bnd limit r st').
  { intros b [= <- <-]. apply Bnd_here; [|done]. unfold size_max. destruct b; lia. }
  assert (Hgo : forall v, v = N.min (i_idx x) (i_idx y) -> v < cbot -> rootis v tf \/ rootis v tg -> rootge v tf -> rootge v tg ->
    (letR* (lo, st) := bdd_and_impl2 fuel c (if v =? i_idx x then i_lo x else fi) (if v =? i_idx y then i_lo y else gi) limit st in
        if lo =? size_max then inr (size_max, st) else
        letR* (hi, st) := bdd_and_impl2 fuel c (if v =? i_idx x then i_hi x else fi) (if v =? i_idx y then i_hi y else gi) limit st in
        if hi =? size_max then inr (size_max, st) else inr (meld [fi; gi] lo hi v limit st)) = inr (r, st') -> Bnd limit r st').
  { intros v Hv Hvb Hri Hgf Hgg.
    assert (Hex : Exists (rootis v) [tf; tg]) by (destruct Hri; [by left|right; by left]).
    pose proof (sumht_cof v false _ Hex) as Ht0. pose proof (sumht_cof v true _ Hex) as Ht1. simpl in Ht0, Ht1.
    intros Hrun. eapply (bound_tail (fun k s => match k with [a; b] => bdd_and_impl2 fuel c a b limit s | _ => inl EAssert end) limit [fi; gi] [tf; tg] v
      [if v =? i_idx x then i_lo x else fi; if v =? i_idx y then i_lo y else gi] [if v =? i_idx x then i_hi x else fi; if v =? i_idx y then i_hi y else gi] st);
      [done|done|done|by repeat constructor|by repeat constructor|done| |done|done|done|done|exact Hrun].
    intros k b st0 -> HS0 HG0 Hl0 HJ0. pose proof (crep_cof c v b _ _ _ Hf Hx Hvb) as Hf0. pose proof (crep_cof c v b _ _ _ Hg Hy Hvb) as Hg0.
    pose proof (us_cof v b _ Hus) as Hus0. cbn [map] in Hus0 |- *.
    destruct b; (split; [apply impl2_spec; auto; lia|intros r0 st1; eapply IH; eauto; lia]). }
  destruct tf as [bf|vf lf hf], tg as [bg|vg lg hg]; simpl in Hxr, Hyr.
  - destruct Hxr as (->&->&Hxb&_). destruct Hyr as (->&->&Hyb&_). cbn [andb negb]. apply Hleaf.
  - destruct Hxr as (->&Hxt&->&Hxi). destruct Hyr as (->&Hyt&Hyb&Hyi&Hv). cbn [andb negb].
    destruct bf; cbn [andb negb]; [|by apply (Hleaf false)].
    apply Hgo; [done| |right| |]; rewrite ?Hxi, ?Hyi; unfold ctop, cbot in *; simpl; lia.
  - destruct Hxr as (->&Hxt&Hxb&Hxi&Hv). destruct Hyr as (->&Hyt&Hyb&Hyi). cbn [andb negb].
    apply Hgo; [done| |left| |]; rewrite ?Hxi, ?Hyi; unfold ctop, cbot in *; simpl; destruct bg; lia.
  - destruct Hxr as (->&Hxt&Hxb&Hxi&Hv). destruct Hyr as (->&Hyt&Hyb&Hyi&Hv'). cbn [andb negb].
    apply Hgo; [done|lia| | |]; rewrite ?Hxi, ?Hyi; simpl; lia.
Qed.
Lemma implN_bound fuel : forall ks us limit st r st', limit + 1 < 2 ^ 62 -> SInv (st_stack st) (st_red st) -> GInv c st ->
  N.of_nat (length (st_stack st)) <= limit -> Forall2 (crep ins) ks us -> (sumht us < fuel)%nat ->
  Forall2 subt us TS -> Jst (st_stack st) -> bdd_and_implN fuel c ks limit st = inr (r, st') -> Bnd limit r st'.
Proof.
  induction fuel as [|fuel IH]; intros ks us limit st r st' Hlim HS HG Hl Hk Hfu Hus HJ; [lia|]. cbn [bdd_and_implN].
  destruct (st_gen st !! ks) as [r0|] eqn:Hgen.
  { intros [= <- <-]. apply Bnd_here; [|done]. refine (gen_ne limit ks us r0 st _ HS HG Hl Hgen Hk); lia. }
  destruct (vecsR_spec _ _ _ Hk) as (fs&->&Hfs). cbn [bindR].
  destruct (implN_head _ _ _ _ Hk Hfs) as [(->&Hall)|[(->&->&Hex)|(->&->&Hvb&Hex&Hge)]].
  { intros [= <- <-]. by apply Bnd_here. }
  { intros [= <- <-]. by apply Bnd_here. }
  set (v := foldr N.min size_max (map i_idx fs)) in *.
  pose proof (sumht_cof v false _ Hex) as Ht0. pose proof (sumht_cof v true _ Hex) as Ht1.
  intros Hrun. eapply (bound_tail (fun k s => bdd_and_implN fuel c k limit s) limit ks us v _ _ st);
    [done|done|done|done|done|done| |done|done|done|done|exact Hrun].
  intros k b st0 -> HS0 HG0 Hl0 HJ0. pose proof (zip_cof c v b _ _ _ Hvb Hk Hfs) as Hz. pose proof (us_cof v b _ Hus) as Hus0.
  destruct b; (split; [apply implN_spec; auto; lia|intros r0 st1; eapply IH; eauto; lia]).
Qed.

(** such a stack is small *)
Lemma stack_small stk tbl tss : SInv stk tbl -> Jst stk -> Forall2 inn tss TS ->
  (length stk <= 1 + foldr (fun (l : list bdd) n => (S (length l) * n)%nat) 1%nat tss)%nat.
Proof.
  intros HS HJ Hin. destruct (tup_head (Leaf true) tss) as [rest Hrest].
  assert (Hlen : S (length rest) = foldr (fun (l : list bdd) n => (S (length l) * n)%nat) 1%nat tss).
  { transitivity (length (tup (map (cons (Leaf true)) tss))); [by rewrite Hrest|]. rewrite tup_len. clear. induction tss as [|l tss IH]; [done|]. cbn [map foldr]. by rewrite IH. }
  rewrite <- Hlen. pose proof (si_len _ _ HS) as H2. enough (length (seq 2 (length stk - 2)) <= length rest)%nat by (rewrite seq_length in *; lia).
  set (R := fun (k : nat) (us : list bdd) => exists t, srep stk (N.of_nat k) t /\ ordt 0 t /\ forall r, evalt t r = conjf us r).
  apply (count_inj _ _ R).
  - apply NoDup_seq.
  - intros k Hk. apply elem_of_seq in Hk. destruct (lookup_lt_is_Some_2 stk k) as [x Hx]; [lia|].
    destruct (HJ (N.of_nat k) x) as (t&us&Ht&Hus&He&Ho); [lia|by rewrite Nat2N.id|].
    assert (Hred : redt t) by (by eapply srep_redt).
    assert (exists v l h, t = Br v l h) as (v&l&h&->).
    { inversion Ht; subst; [lia|lia|eauto]. }
    assert (Hnc : forall b, ~ forall r, evalt (Br v l h) r = b).
    { intros b Hb. assert (Br v l h = Leaf b); [|done]. by apply canon. }
    exists us. split; [|by eexists].
    assert (Hin' : Forall2 (fun u l => u ∈ l) us (map (cons (Leaf true)) tss)).
    { assert (Hnf : Leaf false ∉ us).
      { intros Hf. apply (Hnc false). intros r. rewrite He. unfold conjf. apply not_true_iff_false. rewrite forallb_forall. intros Ha.
        specialize (Ha (Leaf false) (proj1 (elem_of_list_In _ _) Hf)). done. }
      clear -Hus Hin Hnf. revert us Hus Hnf. induction Hin as [|l t tss TS' Hl _ IH]; intros us Hus Hnf; inversion Hus as [|u ? us' ? Hu Hus']; subst; cbn [map]; constructor.
      - destruct u as [b|v l' h']; [|right; apply Hl; eauto]. destruct b; [by left|]. destruct Hnf. by left.
      - apply IH; [done|]. intros Hf. apply Hnf. by right. }
    apply tup_in in Hin'. rewrite Hrest in Hin'. apply elem_of_cons in Hin' as [->|Hin']; [|done].
    exfalso. apply (Hnc true). intros r. rewrite He. unfold conjf. apply forallb_forall. intros u Hu. apply elem_of_list_In, elem_of_replicate_inv in Hu. by subst.
  - intros k k' us _ _ (t&Ht&Ho&He) (t'&Ht'&Ho'&He'). assert (t = t') as <-.
    { apply canon; [done|done|by eapply srep_redt|by eapply srep_redt|]. intros r. by rewrite He, He'. }
    apply Nat2N.inj. by eapply srep_inj.
Qed.
End bound.

Section collsize.
Context {E : Env} (HE : env_ok E).

Lemma root_inn c nr t n : CInv c -> csmall c -> croot c nr t -> nr_bdd_nodes c nr = inr n ->
  redt t /\ exists ts, inn ts t /\ N.of_nat (length ts) + 2 <= n /\ (csup c nr -> N.of_nat (length ts) + 2 = n).
Proof.
  intros HI Hsm Ht Hn. pose proof (croot_lt _ _ _ HI Ht) as Hlt. destruct (cseg_ex _ _ HI Hlt) as (a&b&Hs). pose proof (ci_seg _ HI _ _ _ Hs) as Hg.
  destruct Ht as (a0&Ha0&Ht). assert (a0 = a) as -> by (destruct Hs; congruence). pose proof (sg_ab _ _ _ Hg) as Hab. pose proof (sg_len _ _ _ Hg) as Hlen.
  assert (n = b - a) as ->.
  { rewrite (nr_bdd_nodes_eq _ _ _ _ HI Hs) in Hn; [congruence|]. unfold csmall in Hsm. assert (two64 = 2 ^ 62 * 4) by done. lia. }
  split; [eapply seg_redt; [exact Hg| |exact Ht]; lia|].
  destruct (inn_ex t) as [ts Hts]. exists ts. split; [done|].
  (* the trees of the inner entries *)
  assert (exists us, Forall2 (fun k u => crep (c_ins c) (a + N.of_nat k) u) (seq 0 (N.to_nat (b - 2 - a))) us) as [us Hus].
  { assert (Hall : Forall (fun k => a + N.of_nat k < b - 2) (seq 0 (N.to_nat (b - 2 - a)))).
    { apply Forall_forall. intros k Hk%elem_of_seq. lia. }
    induction Hall as [|k ks Hk _ [us IH]]; [exists []; constructor|]. destruct (seg_crep _ _ _ Hg (a + N.of_nat k)) as [u Hu]; [lia|]. exists (u :: us). by constructor. }
  assert (Hul : N.of_nat (length us) = b - 2 - a) by (rewrite <- (Forall2_length _ _ _ Hus), seq_length; lia).
  assert (Hat : forall u, u ∈ us <-> exists i, a <= i < b - 2 /\ crep (c_ins c) i u).
  { intros u. split.
    - intros [k Hk]%elem_of_list_lookup. destruct (Forall2_lookup_r _ _ _ _ _ Hus Hk) as (j&Hj&Hu). apply lookup_seq in Hj as [-> Hj]. eexists. split; [|exact Hu]. lia.
    - intros (i&Hi&Hu). destruct (Forall2_lookup_l _ _ _ (N.to_nat (i - a)) (N.to_nat (i - a)) Hus) as (u'&Hu'&Hr); [by apply lookup_seq_lt; lia|].
      replace (a + N.of_nat (N.to_nat (i - a))) with i in Hr by lia. rewrite (crep_fun _ _ _ _ Hu Hr). by eapply elem_of_list_lookup_2. }
  assert (Hund : NoDup us).
  { apply NoDup_alt. intros k k' u Hk Hk'. destruct (Forall2_lookup_r _ _ _ _ _ Hus Hk) as (j&Hj&Hu). destruct (Forall2_lookup_r _ _ _ _ _ Hus Hk') as (j'&Hj'&Hu').
    apply lookup_seq in Hj as [-> Hj]. apply lookup_seq in Hj' as [-> Hj']. assert (a + N.of_nat (0 + k) = a + N.of_nat (0 + k')); [|lia]. eapply (seg_inj _ _ _ Hg u); [lia|lia|done|done]. }
  assert (Hsub : forall i u s, a <= i < b -> crep (c_ins c) i u -> subt s u -> (exists v l h, s = Br v l h) -> s ∈ us).
  { intros i u s Hi Hu. induction Hu as [i x z Hx Hz|i x tl th Hx Hne Hv Hl Hh Hrl IHl Hrh IHh]; intros Hsu Hbr.
    - destruct Hsu as [->|[]]. by destruct Hbr as (?&?&?&?).
    - assert (Hi2 : i < b - 2).
      { destruct (decide (i < b - 2)); [done|]. destruct (seg_last _ _ _ Hg i x ltac:(lia) Hx) as [z [Hz _]]. congruence. }
      destruct (sg_node _ _ _ Hg i x ltac:(lia) Hx) as (_&_&?&?).
      destruct Hsu as [->|[Hsu|Hsu]]; [|apply IHl; [lia|done|done]|apply IHh; [lia|done|done]].
      apply Hat. exists i. split; [lia|]. by apply crep_node. }
  assert (Hincl : forall s, s ∈ ts -> s ∈ us).
  { intros s Hin. apply Hts in Hin as [Hs1 Hs2]. eapply (Hsub a t); [lia|done|done|done]. }
  assert (Hle : (length ts <= length us)%nat) by (apply submseteq_length, NoDup_submseteq; [apply Hts|done]).
  split; [lia|]. intros Hsup. enough (length us <= length ts)%nat by lia. apply submseteq_length, NoDup_submseteq; [done|].
  intros u Hu. apply Hts. apply Hat in Hu as (i&Hi&Hu). split; [eapply seg_reach; [exact Hg|by eapply Hsup|exact Hi|exact Ht|exact Hu]|].
  inversion Hu as [i' x z Hx [Hz _]|]; subst; [|eauto]. destruct (sg_node _ _ _ Hg i x ltac:(lia) Hx) as (?&_). congruence.
Qed.

Lemma cvar_bound c nr : exists n, forall v, cvar c nr v -> v < N.of_nat n.
Proof.
  assert (exists n, Forall (fun x => i_idx x < N.of_nat n) (c_ins c)) as [n Hn].
  { induction (c_ins c) as [|x l [n IH]]; [exists 0%nat; constructor|]. exists (S (N.to_nat (i_idx x)) + n)%nat. constructor; [lia|].
    eapply Forall_impl; [exact IH|]. cbn beta. intros y Hy. lia. }
  exists n. intros v (x&(a&b&i&_&_&Hx)&<-). rewrite Forall_forall in Hn. apply Hn. by eapply elem_of_list_lookup_2.
Qed.
Lemma tabl_cov c nr n r : (forall v, cvar c nr v -> v < N.of_nat n) -> ccovers c nr (tabl n r).
Proof. intros H v Hv. unfold tabl. rewrite map_length, seq_length. auto. Qed.
Lemma cval_tabl c nr t n r : CInv c -> croot c nr t -> (forall v, cvar c nr v -> v < N.of_nat n) -> cval c nr (tabl n r) = Some (evalt t r).
Proof. intros HI Ht Hn. rewrite (cval_croot _ _ _ _ HI Ht). apply tabl_eval. intros v Hv. apply Hn. by eapply croot_occurs. Qed.

(** equal functions are stored with equally many entries, in whatever collections *)
Theorem C76_same_size c c' nr nr' n n' : ofbuilt c -> ofbuilt c' -> csmall c -> csmall c' -> nr < nr_bdds c -> nr' < nr_bdds c' ->
  (forall x, ccovers c nr x -> ccovers c' nr' x -> cval c nr x = cval c' nr' x) ->
  nr_bdd_nodes c nr = inr n -> nr_bdd_nodes c' nr' = inr n' -> n = n'.
Proof.
  intros HB HB' Hsm Hsm' Hnr Hnr' Heq Hn Hn'.
  pose proof (built_CInv HE _ (ofbuilt_built _ HB)) as HI. pose proof (built_CInv HE _ (ofbuilt_built _ HB')) as HI'.
  destruct (croot_ex _ _ HI Hnr) as [t Ht]. destruct (croot_ex _ _ HI' Hnr') as [t' Ht'].
  destruct (root_inn _ _ _ _ HI Hsm Ht Hn) as (Hr&ts&Hts&_&Hl). destruct (root_inn _ _ _ _ HI' Hsm' Ht' Hn') as (Hr'&ts'&Hts'&_&Hl').
  specialize (Hl (ofbuilt_full HE _ _ HB)). specialize (Hl' (ofbuilt_full HE _ _ HB')).
  assert (t = t') as <-.
  { apply canon; [exact (obuilt_ordall HE _ (ofbuilt_obuilt _ HB) _ _ Ht)|exact (obuilt_ordall HE _ (ofbuilt_obuilt _ HB') _ _ Ht')|done|done|].
    intros r. destruct (cvar_bound c nr) as [m Hm], (cvar_bound c' nr') as [m' Hm'].
    assert (H1 : forall v, cvar c nr v -> v < N.of_nat (m + m')) by (intros v Hv; specialize (Hm v Hv); lia).
    assert (H2 : forall v, cvar c' nr' v -> v < N.of_nat (m + m')) by (intros v Hv; specialize (Hm' v Hv); lia).
    specialize (Heq (tabl (m + m') r) (tabl_cov _ _ _ _ H1) (tabl_cov _ _ _ _ H2)).
    rewrite (cval_tabl _ _ _ _ _ HI Ht H1), (cval_tabl _ _ _ _ _ HI' Ht' H2) in Heq. congruence. }
  rewrite (inn_len _ _ _ Hts Hts') in Hl. lia.
Qed.
(** a stored BDD has as many inner entries as the handle with the same function has nodes *)
Theorem C76_like_manager c nr n md w i f m : ofbuilt c -> csmall c -> nr < nr_bdds c -> md_ord md = true -> reach md w -> evals w i f -> nnodes w i m ->
  (forall x, ccovers c nr x -> covers w x -> cval c nr x = Some (f x)) ->
  nr_bdd_nodes c nr = inr n -> n = N.of_nat m + 2.
Proof.
  intros HB Hsm Hnr Ho HR Hf Hm Heq Hn. pose proof (built_CInv HE _ (ofbuilt_built _ HB)) as HI. pose proof (reach_inv HE _ _ HR) as HW.
  destruct (croot_ex _ _ HI Hnr) as [t Ht]. destruct (root_inn _ _ _ _ HI Hsm Ht Hn) as (Hr&ts&Hts&_&Hl). specialize (Hl (ofbuilt_full HE _ _ HB)).
  destruct (evals_tree HE _ _ _ _ Ho HW Hf) as (p&u&Hu&Hou&Hru&Heu). destruct (nnodes_inn _ _ _ _ _ _ HW Hu Hm) as (us&<-&Hus).
  assert (t = u) as <-.
  { apply canon; [exact (obuilt_ordall HE _ (ofbuilt_obuilt _ HB) _ _ Ht)|done|done|done|]. intros r.
    destruct (cvar_bound c nr) as [k Hk]. set (x := tabl (k + length (s_vars (w_s w))) r).
    assert (H1 : forall v, cvar c nr v -> v < N.of_nat (k + length (s_vars (w_s w)))) by (intros v Hv; specialize (Hk v Hv); lia).
    assert (Hcw : covers w x) by (unfold covers, x, tabl, nr_variables; rewrite map_length, seq_length; lia).
    pose proof (Heq x (tabl_cov _ _ _ _ H1) Hcw) as He. unfold x in He. rewrite (cval_tabl _ _ _ _ _ HI Ht H1) in He. injection He as ->.
    pose proof (val_covers _ _ _ _ _ x HW Hu Hcw) as Hv1. rewrite (Hf x Hcw) in Hv1. fold x. injection Hv1 as ->.
    apply evalt_ext. intros v Hv. unfold asg, x, tabl. pose proof (hrep_occurs _ _ _ _ _ _ HW Hu Hv) as Hlt. unfold nr_variables in Hlt.
    rewrite list_lookup_fmap, lookup_seq_lt by lia. simpl. f_equal. lia. }
  rewrite (inn_len _ _ _ Hts Hus) in Hl. lia.
Qed.
(** no ordered decision graph for the same function is smaller *)
Theorem C76_minimal c nr n : ofbuilt c -> csmall c -> nr < nr_bdds c -> nr_bdd_nodes c nr = inr n ->
  forall (g : graph) a, gordered g -> gclosed g -> gdef g a ->
    (forall x, ccovers c nr x -> exists b, cval c nr x = Some b /\ gval g a (asg x) b) -> n <= N.of_nat (size g) + 2.
Proof.
  intros HB Hsm Hnr Hn g a Hgo Hgc Hgd Hgv. pose proof (built_CInv HE _ (ofbuilt_built _ HB)) as HI.
  destruct (croot_ex _ _ HI Hnr) as [t Ht]. destruct (root_inn _ _ _ _ HI Hsm Ht Hn) as (Hr&ts&Hts&_&Hl). specialize (Hl (ofbuilt_full HE _ _ HB)).
  assert (Ho : ordt 0 t) by (exact (obuilt_ordall HE _ (ofbuilt_obuilt _ HB) _ _ Ht)).
  destruct (gunfold g Hgo Hgc _ a 0 eq_refl) as (T&HT&HoT); [destruct a; simpl; [done|intros; lia]|done|].
  assert (He : forall r, evalt t r = evalt T r).
  { intros r. destruct (cvar_bound c nr) as [k Hk]. destruct (occurs_bound T) as [k' Hk'].
    assert (H1 : forall v, cvar c nr v -> v < N.of_nat (k + k')) by (intros v Hv; specialize (Hk v Hv); lia).
    destruct (Hgv (tabl (k + k') r) (tabl_cov _ _ _ _ H1)) as (b&Hb&Hgb). rewrite (cval_tabl _ _ _ _ _ HI Ht H1) in Hb. injection Hb as ->.
    rewrite (gval_fun _ _ _ _ _ Hgb (grepr_val _ _ _ _ HT)). apply evalt_ext. intros v Hv. unfold asg, tabl. specialize (Hk' v Hv).
    rewrite list_lookup_fmap, lookup_seq_lt by lia. simpl. f_equal. lia. }
  enough (length ts <= length (elements (dom g)))%nat as Hle by (rewrite <- (size_dom (D := gset N) g); unfold size, set_size; simpl; lia).
  apply (count_inj ts _ (fun s k => exists s', grepr g (inr k) s' /\ forall r, evalt s r = evalt s' r)).
  - apply Hts.
  - intros s Hs. pose proof Hs as Hs0. apply Hts in Hs as [Hsub _]. destruct (subfunctions T 0 t HoT Ho Hr He s Hsub) as (s'&Hsub'&Hes).
    destruct s' as [b|v l h].
    { exfalso. by apply (inn_nonconst ts t s b Hts Ho Hr Hs0). }
    destruct (grepr_sub _ _ _ _ _ _ _ HT Hsub' eq_refl) as (k&Hk&Hgk). exists k. split; [by apply elem_of_elements, elem_of_dom|]. eauto.
  - intros s s' k Hs Hs' (u&Hu&Heu) (u'&Hu'&Heu'). assert (u' = u) as -> by (by eapply grepr_fun). apply (inn_canon ts t); auto. intros r. by rewrite Heu, Heu'.
Qed.

(** product of the operands' sizes *)
Definition size_prod (ns : list N) : N := foldr (fun n p => (n - 1) * p) 1 ns.
(** bdd_and of ordered BDDs with n1, n2, ... entries has at most (n1-1)(n2-1)...+1 entries, and is found under every limit of at least that *)
Theorem C76_and c bs ns L : obuilt c -> csmall c -> Forall (fun b => b < nr_bdds c) bs -> (2 <= length bs <= 49)%nat -> csatisfiable c bs ->
  Forall2 (fun b n => nr_bdd_nodes c b = inr n) bs ns -> size_prod ns + 3 < 2 ^ 62 -> size_prod ns + 1 <= L ->
  exists c' n, bdd_and_range c bs L = inr (nr_bdds c, c') /\ nr_bdd_nodes c' (nr_bdds c) = inr n /\ n <= size_prod ns + 1.
Proof.
  intros HB Hsm HF Hlen Hsat Hns Hsz HL. pose proof (oby_CInv HE _ _ HB) as HI. destruct (roots_ex _ _ HI HF) as [TS Hr].
  pose proof (sat_conjf _ _ _ HI Hr Hsat) as Hst.
  assert (HO : Forall (ordt 0) TS). { pose proof (obuilt_ordall HE _ HB) as Ho. clear -Ho Hr. induction Hr; constructor; eauto. }
  assert (exists tss, Forall2 inn tss TS /\ N.of_nat (foldr (fun (l : list bdd) n => (S (length l) * n)%nat) 1%nat tss) <= size_prod ns /\ 2 ^ N.of_nat (length bs) <= size_prod ns) as (tss&Htss&Hprod&Hbig).
  { clear -HI Hsm Hns Hr. revert ns Hns. induction Hr as [|b t bs TS Hb _ IH]; intros ns Hns; inversion Hns as [|? n ? ns' Hn Hns']; subst.
    - exists []. split_and!; [constructor|done|done].
    - destruct (IH _ Hns') as (tss&H1&H2&H3). destruct (root_inn _ _ _ _ HI Hsm Hb Hn) as (_&ts&Hts&Hle&_). exists (ts :: tss).
      assert (Hpos : (1 <= length ts)%nat).
      { destruct Hb as (a&Ha&Ht). destruct (cseg_ex c b HI) as (a'&b'&Hs); [by eapply croot_lt; [|exists a]|]. assert (a' = a) as -> by (destruct Hs; congruence).
        destruct (seg_root _ _ _ (ci_seg _ HI _ _ _ Hs)) as (v&l&h&Hv). rewrite (crep_fun _ _ _ _ Ht Hv) in Hts.
        assert (Hin : Br v l h ∈ ts) by (apply Hts; split; [apply subt_refl|eauto]). destruct ts; [by apply elem_of_nil in Hin|simpl; lia]. }
      split; [by constructor|]. cbn [foldr size_prod length]. fold (size_prod ns').
      split; [rewrite Nat2N.inj_mul; apply N.mul_le_mono; lia|]. rewrite Nat2N.inj_succ, N.pow_succ_r'. apply N.mul_le_mono; [lia|done]. }
  assert (H4 : 4 <= size_prod ns).
  { etransitivity; [|exact Hbig]. change 4 with (2 ^ 2). apply N.pow_le_mono_r; lia. }
  (* the run with the limit size_prod + 1 *)
  set (B := size_prod ns + 1). assert (HB1 : B + 1 < 2 ^ 62) by (unfold B; lia).
  assert (Hrefl : forall l : list bdd, Forall2 subt l l) by (intros l; induction l; constructor; [apply subt_refl|done]).
  assert (HJ0 : Jst TS (st_stack st_init)).
  { intros i x Hi Hx. apply lookup_lt_Some in Hx. simpl in Hx. lia. }
  destruct (and_run_spec c bs TS B Hr ltac:(unfold B; lia) ltac:(lia)) as (r&st&Hrun&Hor).
  assert (Hbnd : Bnd TS B r st).
  { assert (HN : (letR* l := dels c bs in bdd_and_implN (S (length bs * length (c_ins c))) c l B st_init) = inr (r, st) -> Bnd TS B r st).
    { destruct (dels_eq _ _ _ Hr) as (l&->&Hl). cbn [bindR]. pose proof (sumht_le _ _ _ Hl). pose proof (Forall2_length _ _ _ Hr). pose proof (Forall2_length _ _ _ Hl).
      apply (implN_bound c TS HO _ l TS); auto; [apply SInv_init|apply GInv_init|simpl; unfold B; lia|]. replace (length bs) with (length l) by lia. lia. }
    unfold and_run in Hrun. destruct bs as [|i [|j [|k bs]]]; try (by apply HN). clear HN.
    inversion Hr as [|? ti ? ts' (a&Ha&Ht) Hr']; subst. inversion Hr' as [|? tj ? ts'' (b&Hb&Ht') Hr'']; subst. inversion Hr''; subst.
    rewrite (del_at_eq _ _ _ Ha), (del_at_eq _ _ _ Hb) in Hrun. cbn [bindR] in Hrun. revert Hrun.
    apply (impl2_bound c [ti; tj] HO _ a b ti tj); auto; [apply SInv_init|apply GInv_init|simpl; unfold B; lia|].
    apply crep_ht in Ht, Ht'. lia. }
  destruct Hor as [->|[Hne HP]].
  { exfalso. destruct (proj2 Hbnd eq_refl) as (stk&tbl&HS&HJ&Hlt). pose proof (stack_small TS _ _ _ HS HJ Htss). unfold B in Hlt. lia. }
  destruct (cand_range_spec c bs TS B HI Hsm HF Hlen Hr ltac:(unfold B; lia) Hst) as [Hbad|(l&He&Ho&Hll&Hst')].
  { exfalso. rewrite and_range_run in Hbad by (done || (unfold B; lia)). rewrite Hrun in Hbad. cbn [bindR] in Hbad. unfold and_finish in Hbad. rewrite (proj2 (N.eqb_neq _ _) Hne) in Hbad.
    destruct (assertR _); [done|]. cbn [bindR] in Hbad. destruct (assertRR _); [done|]. cbn [bindR] in Hbad. injection Hbad as Hbad _.
    pose proof (nr_bdds_len _ HI). pose proof (del_len _ HI). unfold csmall in Hsm. unfold size_max in Hbad. lia. }
  eexists _, (N.of_nat (length l)). rewrite (Hst' L ltac:(unfold B in *; lia) ltac:(unfold B in *; lia)). split; [exact He|]. destruct Ho as [HI' _].
  split; [|done]. rewrite (nr_bdd_nodes_eq _ _ (N.of_nat (length (c_ins c))) (N.of_nat (length (c_ins c) + length l)) HI'); [f_equal; lia|by apply new_cseg|].
  unfold csmall in Hsm. assert (two64 = 2 ^ 62 * 4) by done. unfold B in Hll. lia.
Qed.
(** the same for two operands *)
Theorem C76_and2 c i j a b L : obuilt c -> csmall c -> i < nr_bdds c -> j < nr_bdds c -> csatisfiable c [i; j] ->
  nr_bdd_nodes c i = inr a -> nr_bdd_nodes c j = inr b -> (a - 1) * (b - 1) + 3 < 2 ^ 62 -> (a - 1) * (b - 1) + 1 <= L ->
  exists c' n, bdd_and2 c i j L = inr (nr_bdds c, c') /\ nr_bdd_nodes c' (nr_bdds c) = inr n /\ n <= (a - 1) * (b - 1) + 1.
Proof.
  intros HB Hsm Hi Hj Hsat Ha Hb Hsz HL. assert (Hp : size_prod [a; b] = (a - 1) * (b - 1)) by (cbn [size_prod foldr]; lia).
  rewrite <- Hp in *. apply (C76_and c [i; j] [a; b] L); auto; simpl; lia.
Qed.
End collsize.
