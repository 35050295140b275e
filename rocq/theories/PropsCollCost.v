(** * PropsCollCost.v -- how often bdd_collection::bdd_and calls itself (C77)

    bdd_collection.cpp:54-108 and 209-280 put a pair (tuple) of entries into generated_nodes only when the
    call for it pushes a new node: results that are constant, that equal one of the two branches or that were
    found in [reduction] are not recorded.  So the same pair can be worked on again and again.  The two functions
    below are bdd_and_impl with a counter of the activations; [C77_and_counted] says that they are the same code. *)
From Verif Require Export PropsCollSize PropsCost.
Open Scope N_scope.

Section countmodel.
Context {E : Env}.
(** bdd_collection.cpp:54-108 with a counter of its own activations *)
Fixpoint and2_count (fuel : nat) (c : coll) (fi gi limit : N) (st : cst) : R (N * cst * N) :=
  match fuel with
  | O => inl ELoop
  | S fuel =>
    match st_gen st !! [fi; gi] with
    | Some r => inr (r, st, 1)
    | None =>
      letR* f := vecR (c_ins c) fi in
      letR* g := vecR (c_ins c) gi in
      if ci_is_term f && ci_is_term g then
        inr ((if ci_is_top f && ci_is_top g then 1 else 0), st, 1)
      else if ci_is_term f && negb (ci_is_term g) && ci_is_bot f then inr (0, st, 1)
      else
        let v := N.min (i_idx f) (i_idx g) in
        letR* (lo, st, k) := and2_count fuel c (if v =? i_idx f then i_lo f else fi)
                                        (if v =? i_idx g then i_lo g else gi) limit st in
        if lo =? size_max then inr (size_max, st, 1 + k) else
        letR* (hi, st, k') := and2_count fuel c (if v =? i_idx f then i_hi f else fi)
                                        (if v =? i_idx g then i_hi g else gi) limit st in
        if hi =? size_max then inr (size_max, st, 1 + k + k') else
        inr (meld [fi; gi] lo hi v limit st, 1 + k + k')
    end
  end.
(** bdd_collection.cpp:209-280 with a counter of its own activations *)
Fixpoint andN_count (fuel : nat) (c : coll) (bs : list N) (limit : N) (st : cst) : R (N * cst * N) :=
  match fuel with
  | O => inl ELoop
  | S fuel =>
    match st_gen st !! bs with
    | Some r => inr (r, st, 1)
    | None =>
      letR* fs := vecsR (c_ins c) bs in
      if forallb ci_is_top fs then inr (1, st, 1) else
      if existsb ci_is_bot fs then inr (0, st, 1) else
      let v := foldr N.min size_max (map i_idx fs) in
      letR* (lo, st, k) := andN_count fuel c
         (zip_with (fun f b => if i_idx f =? v then i_lo f else b) fs bs) limit st in
      if lo =? size_max then inr (size_max, st, 1 + k) else
      letR* (hi, st, k') := andN_count fuel c
         (zip_with (fun f b => if i_idx f =? v then i_hi f else b) fs bs) limit st in
      if hi =? size_max then inr (size_max, st, 1 + k + k') else
      inr (meld bs lo hi v limit st, 1 + k + k')
    end
  end.
(** bdd_collection.cpp:22-23 and 123-124: the call made by bdd_and *)
Definition and_calls_run (c : coll) (bs : list N) (L : N) : R (N * cst * N) :=
  match bs with
  | [i; j] => letR* a := del_at c i in letR* b := del_at c j in and2_count (S (2 * length (c_ins c))) c a b L st_init
  | _ => letR* l := dels c bs in andN_count (S (length bs * length (c_ins c))) c l L st_init
  end.
(** bdd_and of the BDDs [bs] with node limit [L] enters bdd_and_impl [k] times *)
Definition and_calls (c : coll) (bs : list N) (L k : N) : Prop := exists r, and_calls_run c bs L = inr (r, k).
End countmodel.

Section collcost.
Context {E : Env} (HE : env_ok E).

Definition countedR {A} (mc : R (A * N)) (m : R A) : Prop := m = match mc with inr (a, _) => inr a | inl e => inl e end.
Lemma and2_counted fuel c limit : forall fi gi st, countedR (and2_count fuel c fi gi limit st) (bdd_and_impl2 fuel c fi gi limit st).
Proof.
  induction fuel as [|fuel IH]; intros fi gi st; [done|]. unfold countedR in *. cbn [and2_count bdd_and_impl2].
  destruct (st_gen st !! [fi; gi]); [done|]. destruct (vecR _ fi) as [|f]; [done|]. cbn [bindR]. destruct (vecR _ gi) as [|g]; [done|]. cbn [bindR].
  destruct (_ && _); [done|]. destruct (_ && _); [done|]. cbv zeta. rewrite IH. destruct (and2_count _ _ _ _ _ _) as [|[[lo st1] k]]; [done|]. cbn [bindR].
  destruct (lo =? size_max); [done|]. rewrite IH. destruct (and2_count _ _ _ _ _ _) as [|[[hi st2] k']]; [done|]. cbn [bindR].
  destruct (hi =? size_max); done.
Qed.
Lemma andN_counted fuel c limit : forall bs st, countedR (andN_count fuel c bs limit st) (bdd_and_implN fuel c bs limit st).
Proof.
  induction fuel as [|fuel IH]; intros bs st; [done|]. unfold countedR in *. cbn [andN_count bdd_and_implN].
  destruct (st_gen st !! bs); [done|]. destruct (vecsR _ bs) as [|fs]; [done|]. cbn [bindR].
  destruct (forallb _ _); [done|]. destruct (existsb _ _); [done|]. cbv zeta. rewrite IH. destruct (andN_count _ _ _ _ _) as [|[[lo st1] k]]; [done|]. cbn [bindR].
  destruct (lo =? size_max); [done|]. rewrite IH. destruct (andN_count _ _ _ _ _) as [|[[hi st2] k']]; [done|]. cbn [bindR].
  destruct (hi =? size_max); done.
Qed.
Lemma run_counted c bs L : countedR (and_calls_run c bs L) (and_run c bs L).
Proof.
  assert (HN : countedR (letR* l := dels c bs in andN_count (S (length bs * length (c_ins c))) c l L st_init)
                        (letR* l := dels c bs in bdd_and_implN (S (length bs * length (c_ins c))) c l L st_init)).
  { destruct (dels c bs) as [|l]; [done|]. apply andN_counted. }
  unfold and_calls_run, and_run. destruct bs as [|i [|j [|k bs]]]; try exact HN. clear HN.
  destruct (del_at c i) as [|a]; [done|]. cbn [bindR]. destruct (del_at c j) as [|b]; [done|]. apply and2_counted.
Qed.
(** bdd_and is the counted call followed by appending the result: the counter changes nothing *)
Theorem C77_and_counted c bs L : built c -> Forall (fun b => b < nr_bdds c) bs -> (2 <= length bs <= 49)%nat -> 2 < L ->
  bdd_and_range c bs L = letR* x := and_calls_run c bs L in and_finish c x.1.
Proof.
  intros HB HF Hlen HL. rewrite and_range_run by (done || by apply (built_CInv HE)). rewrite (run_counted c bs L).
  by destruct (and_calls_run c bs L) as [|[x k]].
Qed.

(** ** upper bound *)
Lemma pow_step n lb v k k' : lb <= v -> v < n -> k < 2 ^ (n - (v + 1) + 1) -> k' < 2 ^ (n - (v + 1) + 1) -> 1 + k + k' < 2 ^ (n - lb + 1).
Proof.
  intros H1 H2 Hk Hk'. assert (Hp : 2 ^ (n - v + 1) = 2 * 2 ^ (n - (v + 1) + 1)).
  { replace (n - v + 1) with (N.succ (n - (v + 1) + 1)) by lia. apply N.pow_succ_r'. }
  assert (2 ^ (n - v + 1) <= 2 ^ (n - lb + 1)) by (apply N.pow_le_mono_r; lia). lia.
Qed.
Lemma pow_one m : 1 < 2 ^ (m + 1).
Proof. rewrite N.add_1_r, N.pow_succ_r'. pose proof (N.pow_nonzero 2 m). lia. Qed.
Lemma andN_upper c n fuel : forall ks us lb limit st x k, Forall2 (crep (c_ins c)) ks us -> Forall (ordt lb) us -> Forall (fun t => forall v, occurs v t -> v < n) us ->
  andN_count fuel c ks limit st = inr (x, k) -> k < 2 ^ (n - lb + 1).
Proof.
  induction fuel as [|fuel IH]; intros ks us lb limit st x k Hk Ho Hn; [done|]. cbn [andN_count].
  destruct (st_gen st !! ks) as [r0|]; [intros [= _ <-]; apply pow_one|].
  destruct (vecsR_spec _ _ _ Hk) as (fs&->&Hfs). cbn [bindR].
  destruct (implN_head _ _ _ _ Hk Hfs) as [(->&Hall)|[(->&->&Hex)|(->&->&Hvb&Hex&Hge)]]; [intros [= _ <-]; apply pow_one|intros [= _ <-]; apply pow_one|].
  cbv zeta. set (v := foldr N.min size_max (map i_idx fs)) in *.
  assert (lb <= v /\ v < n) as [Hlb Hvn].
  { apply Exists_exists in Hex as (t&Ht&Hr). rewrite Forall_forall in Ho, Hn. specialize (Ho t Ht). specialize (Hn t Ht v). destruct t; simpl in *; [done|]. subst. split; [lia|auto]. }
  assert (Hstep : forall b st0 x0 k0, andN_count fuel c (zip_with (fun f i => if i_idx f =? v then (if b : bool then i_hi f else i_lo f) else i) fs ks) limit st0 = inr (x0, k0) ->
    k0 < 2 ^ (n - (v + 1) + 1)).
  { intros b st0 x0 k0. apply (IH _ (map (cof v b) us)); [by apply zip_cof| |].
    - apply Forall_fmap, Forall_forall. intros t Ht. rewrite Forall_forall in Ho, Hge. simpl. apply cof_ordt. eapply rootge_ordt; eauto.
    - apply Forall_fmap, Forall_forall. intros t Ht u Hu. rewrite Forall_forall in Hn. apply (Hn t Ht). by eapply occurs_cof. }
  pose proof (Hstep false st) as Hs0. cbn iota in Hs0. destruct (andN_count fuel c _ limit st) as [|[[lo st1] k1]]; [done|]. specialize (Hs0 _ _ eq_refl). cbn [bindR].
  destruct (lo =? size_max); [intros [= _ <-]; pose proof (pow_step n lb v k1 0 Hlb Hvn Hs0 ltac:(pose proof (N.pow_nonzero 2 (n - (v + 1) + 1)); lia)); lia|].
  pose proof (Hstep true st1) as Hs1. cbn iota in Hs1. destruct (andN_count fuel c _ limit st1) as [|[[hi st2] k2]]; [done|]. specialize (Hs1 _ _ eq_refl). cbn [bindR].
  destruct (hi =? size_max); intros [= _ <-]; by apply (pow_step n lb v).
Qed.
Definition rootx (t : bdd) (x : instr) : Prop :=
  match t with
  | Leaf b => ci_is_term x = true /\ ci_is_top x = b /\ ci_is_bot x = negb b /\ i_idx x = (if b then ctop else cbot)
  | Br v _ _ => ci_is_term x = false /\ ci_is_top x = false /\ ci_is_bot x = false /\ i_idx x = v /\ v < cbot
  end.
Lemma and2_head tf tg x y v : rootx tf x -> rootx tg y -> ci_is_term x && ci_is_term y = false -> ci_is_term x && negb (ci_is_term y) && ci_is_bot x = false ->
  v = N.min (i_idx x) (i_idx y) -> v < cbot /\ (rootis v tf \/ rootis v tg) /\ rootge v tf /\ rootge v tg.
Proof.
  intros Hxr Hyr Htt Htb Hv.
  destruct tf as [bf|vf lf hf], tg as [bg|vg lg hg]; simpl in Hxr, Hyr.
    - destruct Hxr as (Hx1&_). destruct Hyr as (Hy1&_). rewrite Hx1, Hy1 in Htt. done.
    - destruct Hxr as (Hx1&_&Hx2&Hxi). destruct Hyr as (Hy1&Hyt&Hyb&Hyi&Hvg). rewrite Hx1, Hy1, Hx2 in Htb. destruct bf; [|done].
      rewrite Hxi, Hyi in Hv. unfold ctop, cbot in *. simpl. split_and!; [lia|right; lia|done|lia].
    - destruct Hxr as (Hx1&_&_&Hxi&Hvf). destruct Hyr as (_&_&_&Hyi). rewrite Hxi, Hyi in Hv. unfold ctop, cbot in *. simpl. destruct bg; (split_and!; [lia|left; lia|lia|done]).
    - destruct Hxr as (_&_&_&Hxi&Hvf). destruct Hyr as (_&_&_&Hyi&Hvg). rewrite Hxi, Hyi in Hv. simpl. split_and!; lia.
Qed.
Lemma and2_upper c n fuel : forall fi gi tf tg lb limit st x k, crep (c_ins c) fi tf -> crep (c_ins c) gi tg -> ordt lb tf -> ordt lb tg ->
  (forall v, occurs v tf \/ occurs v tg -> v < n) -> and2_count fuel c fi gi limit st = inr (x, k) -> k < 2 ^ (n - lb + 1).
Proof.
  induction fuel as [|fuel IH]; intros fi gi tf tg lb limit st z k Hf Hg Hof Hog Hn; [done|]. cbn [and2_count].
  destruct (st_gen st !! [fi; gi]) as [r0|]; [intros [= _ <-]; apply pow_one|].
  destruct (crep_root _ _ _ Hf) as (x&Hx&Hxr). destruct (crep_root _ _ _ Hg) as (y&Hy&Hyr).
  rewrite (vecR_eq _ _ _ Hx), (vecR_eq _ _ _ Hy). cbn [bindR].
  destruct (ci_is_term x && ci_is_term y) eqn:Htt; [intros [= _ <-]; apply pow_one|].
  destruct (ci_is_term x && negb (ci_is_term y) && ci_is_bot x) eqn:Htb; [intros [= _ <-]; apply pow_one|].
  cbv zeta. remember (N.min (i_idx x) (i_idx y)) as v eqn:Hv.
  destruct (and2_head tf tg x y v) as (Hvb&Hri&Hgf&Hgg); [done|done|done|done|done|].
  clear Htt Htb Hv.
  assert (lb <= v /\ v < n) as [Hlb Hvn].
  { destruct Hri as [Hr|Hr]; [destruct tf as [|w l h]|destruct tg as [|w l h]]; simpl in Hr; try done; subst; (split; [by apply Hof || by apply Hog|apply Hn; simpl; auto]). }
  assert (Hstep : forall b st0 x0 k0, and2_count fuel c (if v =? i_idx x then (if b : bool then i_hi x else i_lo x) else fi) (if v =? i_idx y then (if b then i_hi y else i_lo y) else gi) limit st0 = inr (x0, k0) ->
    k0 < 2 ^ (n - (v + 1) + 1)).
  { intros b st0 x0 k0. apply (IH _ _ (cof v b tf) (cof v b tg)); [by apply crep_cof|by apply crep_cof|apply cof_ordt; by eapply rootge_ordt|apply cof_ordt; by eapply rootge_ordt|].
    intros u [Hu|Hu]; apply Hn; [left|right]; by eapply occurs_cof. }
  pose proof (Hstep false st) as Hs0. cbn iota in Hs0. destruct (and2_count fuel c _ _ limit st) as [|[[lo st1] k1]]; [done|]. specialize (Hs0 _ _ eq_refl). cbn [bindR].
  destruct (lo =? size_max); [intros [= _ <-]; pose proof (pow_step n lb v k1 0 Hlb Hvn Hs0 ltac:(pose proof (N.pow_nonzero 2 (n - (v + 1) + 1)); lia)); lia|].
  pose proof (Hstep true st1) as Hs1. cbn iota in Hs1. destruct (and2_count fuel c _ _ limit st1) as [|[[hi st2] k2]]; [done|]. specialize (Hs1 _ _ eq_refl). cbn [bindR].
  destruct (hi =? size_max); intros [= _ <-]; by apply (pow_step n lb v).
Qed.
(** bdd_and of ordered BDDs over variables below n makes fewer than 2^(n+1) calls, and it returns *)
Theorem C77_and_at_most c bs L n : obuilt c -> Forall (fun b => b < nr_bdds c) bs -> (2 <= length bs <= 49)%nat -> 2 < L < 2 ^ 62 ->
  (forall b v, b ∈ bs -> cvar c b v -> v < n) -> exists k, and_calls c bs L k /\ k < 2 ^ (n + 1).
Proof.
  intros HB HF Hlen HL Hn. pose proof (oby_CInv HE _ _ HB) as HI. destruct (roots_ex _ _ HI HF) as [TS Hr].
  destruct (and_run_spec c bs TS L Hr ltac:(lia) ltac:(lia)) as (r&st&Hrun&_). pose proof (run_counted c bs L) as Hc. unfold countedR in Hc. rewrite Hrun in Hc.
  destruct (and_calls_run c bs L) as [|[x k]] eqn:Hk; [done|]. exists k. split; [by exists x|]. clear Hrun Hc r st.
  assert (HO : Forall (ordt 0) TS). { pose proof (obuilt_ordall HE _ HB) as Ho. clear -Ho Hr. induction Hr; constructor; eauto. }
  assert (HV : Forall (fun t => forall v, occurs v t -> v < n) TS).
  { clear -HI Hr Hn. induction Hr as [|b t bs TS Hb _ IH]; constructor.
    - intros v Hv. apply (Hn b); [by left|]. by eapply croot_occurs.
    - apply IH. intros b' v Hb'. apply Hn. by right. }
  assert (HN : (letR* l := dels c bs in andN_count (S (length bs * length (c_ins c))) c l L st_init) = inr (x, k) -> k < 2 ^ (n + 1)).
  { destruct (dels_eq _ _ _ Hr) as (l&->&Hl). cbn [bindR]. intros Hk'. rewrite <- (N.sub_0_r n). by eapply (andN_upper c n). }
  unfold and_calls_run in Hk. destruct bs as [|i [|j [|m bs]]]; try (by apply HN). clear HN.
  inversion Hr as [|? ti ? ts' (a&Ha&Ht) Hr']; subst. inversion Hr' as [|? tj ? ts'' (b&Hb&Ht') Hr'']; subst. inversion Hr''; subst.
  rewrite (del_at_eq _ _ _ Ha), (del_at_eq _ _ _ Hb) in Hk. cbn [bindR] in Hk. rewrite <- (N.sub_0_r n).
  inversion HO as [|? ? Ho1 HO']; subst. inversion HO' as [|? ? Ho2 _]; subst. inversion HV as [|? ? Hv1 HV']; subst. inversion HV' as [|? ? Hv2 _]; subst.
  eapply (and2_upper c n); [exact Ht|exact Ht'|done|done| |exact Hk]. intros v [?|?]; auto.
Qed.

(** ** recursion depth: [d] nested activations are enough, if n - lb < d *)
Lemma andN_depth c n d : forall fuel ks us lb limit st, Forall2 (crep (c_ins c)) ks us -> Forall (ordt lb) us -> Forall (fun t => forall v, occurs v t -> v < n) us ->
  (N.to_nat (n - lb) < d)%nat -> (sumht us < fuel)%nat -> bdd_and_implN d c ks limit st = bdd_and_implN fuel c ks limit st.
Proof.
  induction d as [|d IH]; intros fuel ks us lb limit st Hk Ho Hn Hd Hfu; [lia|]. destruct fuel as [|fuel]; [lia|]. cbn [bdd_and_implN].
  destruct (st_gen st !! ks) as [r0|]; [done|]. destruct (vecsR_spec _ _ _ Hk) as (fs&->&Hfs). cbn [bindR].
  destruct (implN_head _ _ _ _ Hk Hfs) as [(->&Hall)|[(->&->&Hex)|(->&->&Hvb&Hex&Hge)]]; [done|done|].
  cbv zeta. set (v := foldr N.min size_max (map i_idx fs)) in *.
  assert (lb <= v /\ v < n) as [Hlb Hvn].
  { apply Exists_exists in Hex as (t&Ht&Hr). rewrite Forall_forall in Ho, Hn. specialize (Ho t Ht). specialize (Hn t Ht v). destruct t; simpl in *; [done|]. subst. split; [lia|auto]. }
  assert (Hstep : forall (b : bool) st0, bdd_and_implN d c (zip_with (fun f i => if i_idx f =? v then (if b then i_hi f else i_lo f) else i) fs ks) limit st0 =
    bdd_and_implN fuel c (zip_with (fun f i => if i_idx f =? v then (if b then i_hi f else i_lo f) else i) fs ks) limit st0).
  { intros b st0. pose proof (sumht_cof v b _ Hex). apply (IH fuel _ (map (cof v b) us) (v + 1)); [by apply zip_cof| | |lia|lia].
    - apply Forall_fmap, Forall_forall. intros t Ht. rewrite Forall_forall in Ho, Hge. simpl. apply cof_ordt. eapply rootge_ordt; eauto.
    - apply Forall_fmap, Forall_forall. intros t Ht u Hu. rewrite Forall_forall in Hn. apply (Hn t Ht). by eapply occurs_cof. }
  pose proof (Hstep false st) as Hs0. cbn iota in Hs0. rewrite Hs0. destruct (bdd_and_implN fuel c _ limit st) as [|[lo st1]]; [done|]. cbn [bindR].
  destruct (lo =? size_max); [done|]. pose proof (Hstep true st1) as Hs1. cbn iota in Hs1. by rewrite Hs1.
Qed.
Lemma and2_depth c n d : forall fuel fi gi tf tg lb limit st, crep (c_ins c) fi tf -> crep (c_ins c) gi tg -> ordt lb tf -> ordt lb tg ->
  (forall v, occurs v tf \/ occurs v tg -> v < n) -> (N.to_nat (n - lb) < d)%nat -> (ht tf + ht tg < fuel)%nat ->
  bdd_and_impl2 d c fi gi limit st = bdd_and_impl2 fuel c fi gi limit st.
Proof.
  induction d as [|d IH]; intros fuel fi gi tf tg lb limit st Hf Hg Hof Hog Hn Hd Hfu; [lia|]. destruct fuel as [|fuel]; [lia|]. cbn [bdd_and_impl2].
  destruct (st_gen st !! [fi; gi]) as [r0|]; [done|].
  destruct (crep_root _ _ _ Hf) as (x&Hx&Hxr). destruct (crep_root _ _ _ Hg) as (y&Hy&Hyr).
  rewrite (vecR_eq _ _ _ Hx), (vecR_eq _ _ _ Hy). cbn [bindR].
  destruct (ci_is_term x && ci_is_term y) eqn:Htt; [done|].
  destruct (ci_is_term x && negb (ci_is_term y) && ci_is_bot x) eqn:Htb; [done|].
  cbv zeta. remember (N.min (i_idx x) (i_idx y)) as v eqn:Hv.
  destruct (and2_head tf tg x y v) as (Hvb&Hri&Hgf&Hgg); [done|done|done|done|done|].
  assert (lb <= v /\ v < n) as [Hlb Hvn].
  { destruct Hri as [Hr|Hr]; [destruct tf as [|w l h]|destruct tg as [|w l h]]; simpl in Hr; try done; subst; (split; [by apply Hof || by apply Hog|apply Hn; simpl; auto]). }
  assert (Hex : Exists (rootis v) [tf; tg]) by (destruct Hri; [by left|right; by left]).
  assert (Hstep : forall (b : bool) st0, bdd_and_impl2 d c (if v =? i_idx x then (if b then i_hi x else i_lo x) else fi) (if v =? i_idx y then (if b then i_hi y else i_lo y) else gi) limit st0 =
    bdd_and_impl2 fuel c (if v =? i_idx x then (if b then i_hi x else i_lo x) else fi) (if v =? i_idx y then (if b then i_hi y else i_lo y) else gi) limit st0).
  { intros b st0. pose proof (sumht_cof v b _ Hex) as Hs. cbn [map sumht foldr] in Hs.
    apply (IH fuel _ _ (cof v b tf) (cof v b tg) (v + 1)); [by apply crep_cof|by apply crep_cof|apply cof_ordt; by eapply rootge_ordt|apply cof_ordt; by eapply rootge_ordt| |lia|lia].
    intros u [Hu|Hu]; apply Hn; [left|right]; by eapply occurs_cof. }
  pose proof (Hstep false st) as Hs0. cbn iota in Hs0. rewrite Hs0. destruct (bdd_and_impl2 fuel c _ _ limit st) as [|[lo st1]]; [done|]. cbn [bindR].
  destruct (lo =? size_max); [done|]. pose proof (Hstep true st1) as Hs1. cbn iota in Hs1. by rewrite Hs1.
Qed.
(** the call made by bdd_and with room for [d] nested activations of bdd_and_impl *)
Definition and_depth_run (d : nat) (c : coll) (bs : list N) (L : N) : R (N * cst) :=
  match bs with
  | [i; j] => letR* a := del_at c i in letR* b := del_at c j in bdd_and_impl2 d c a b L st_init
  | _ => letR* l := dels c bs in bdd_and_implN d c l L st_init
  end.
(** for ordered BDDs over variables below n, n+1 nested activations are enough, however many entries there are *)
Theorem C77_and_depth c bs L n : obuilt c -> Forall (fun b => b < nr_bdds c) bs -> (2 <= length bs <= 49)%nat -> 2 < L ->
  (forall b v, b ∈ bs -> cvar c b v -> v < N.of_nat n) ->
  bdd_and_range c bs L = letR* r := and_depth_run (n + 1) c bs L in and_finish c r.
Proof.
  intros HB HF Hlen HL Hn. pose proof (oby_CInv HE _ _ HB) as HI. destruct (roots_ex _ _ HI HF) as [TS Hr]. rewrite and_range_run by done. 
  assert (HO : Forall (ordt 0) TS). { pose proof (obuilt_ordall HE _ HB) as Ho. clear -Ho Hr. induction Hr; constructor; eauto. }
  assert (HV : Forall (fun t => forall v, occurs v t -> v < N.of_nat n) TS).
  { clear -HI Hr Hn. induction Hr as [|b t bs TS Hb _ IH]; constructor.
    - intros v Hv. apply (Hn b); [by left|]. by eapply croot_occurs.
    - apply IH. intros b' v Hb'. apply Hn. by right. }
  assert (and_run c bs L = and_depth_run (n + 1) c bs L) as ->; [|done].
  assert (HN : (letR* l := dels c bs in bdd_and_implN (S (length bs * length (c_ins c))) c l L st_init) = (letR* l := dels c bs in bdd_and_implN (n + 1) c l L st_init)).
  { destruct (dels_eq _ _ _ Hr) as (l&->&Hl). cbn [bindR]. symmetry. apply (andN_depth c (N.of_nat n) _ _ _ TS 0); auto; [lia|].
    pose proof (sumht_le _ _ _ Hl). pose proof (Forall2_length _ _ _ Hr). pose proof (Forall2_length _ _ _ Hl). replace (length bs) with (length l) by lia. lia. }
  unfold and_run, and_depth_run. destruct bs as [|i [|j [|m bs]]]; try exact HN. clear HN.
  inversion Hr as [|? ti ? ts' (a&Ha&Ht) Hr']; subst. inversion Hr' as [|? tj ? ts'' (b&Hb&Ht') Hr'']; subst. inversion Hr''; subst.
  rewrite (del_at_eq _ _ _ Ha), (del_at_eq _ _ _ Hb). cbn [bindR].
  inversion HO as [|? ? Ho1 HO']; subst. inversion HO' as [|? ? Ho2 _]; subst. inversion HV as [|? ? Hv1 HV']; subst. inversion HV' as [|? ? Hv2 _]; subst.
  symmetry. apply (and2_depth c (N.of_nat n) _ _ _ _ ti tj 0); auto; [intros v [?|?]; auto|lia|]. apply crep_ht in Ht, Ht'. lia.
Qed.

(** ** lower bound *)
Lemma compl_count c limit : forall fuel fi gi tf tg st, crep (c_ins c) fi tf -> crep (c_ins c) gi tg -> compl tf tg -> (ht tf < fuel)%nat -> st_gen st = ∅ ->
  and2_count fuel c fi gi limit st = inr (0, st, tsz tf).
Proof.
  induction fuel as [|fuel IH]; intros fi gi tf tg st Hf Hg Hc Hfu Hst; [lia|]. cbn [and2_count]. rewrite Hst, lookup_empty.
  destruct (crep_root _ _ _ Hf) as (x&Hx&Hxr). destruct (crep_root _ _ _ Hg) as (y&Hy&Hyr).
  rewrite (vecR_eq _ _ _ Hx), (vecR_eq _ _ _ Hy). cbn [bindR].
  destruct tf as [bf|vf lf hf], tg as [bg|vg lg hg]; simpl in Hxr, Hyr; cbn [compl] in Hc; [|done|done|].
  - destruct Hxr as (->&->&_). destruct Hyr as (->&->&_). subst bg. by destruct bf.
  - destruct Hxr as (->&_&_&Hxi&Hvf). destruct Hyr as (->&_&_&Hyi&Hvg). destruct Hc as (<-&Hcl&Hch). cbn [andb negb]. cbv zeta. rewrite Hxi, Hyi, N.min_id, !N.eqb_refl.
    pose proof (crep_cof c vf false _ _ _ Hf Hx Hvf) as Hf0. pose proof (crep_cof c vf true _ _ _ Hf Hx Hvf) as Hf1.
    pose proof (crep_cof c vf false _ _ _ Hg Hy Hvf) as Hg0. pose proof (crep_cof c vf true _ _ _ Hg Hy Hvf) as Hg1.
    rewrite Hxi in Hf0, Hf1. rewrite Hyi in Hg0, Hg1. unfold cof in Hf0, Hf1, Hg0, Hg1. rewrite N.eqb_refl in Hf0, Hf1, Hg0, Hg1.
    cbn [ht] in Hfu. rewrite (IH _ _ _ _ st Hf0 Hg0 Hcl ltac:(lia) Hst). cbn [bindR]. change (0 =? size_max) with false. cbn iota.
    rewrite (IH _ _ _ _ st Hf1 Hg1 Hch ltac:(lia) Hst). cbn [bindR]. change (0 =? size_max) with false. cbn iota. cbn [tsz]. reflexivity.
Qed.
(** f = if x0 then 1 else t, g = if x0 then 1 else t' with complementary t, t' *)
Lemma top_count c limit fuel fi gi t t' : 2 < limit -> crep (c_ins c) fi (Br 0 t (Leaf true)) -> crep (c_ins c) gi (Br 0 t' (Leaf true)) -> compl t t' -> (S (ht t) < fuel)%nat ->
  and2_count fuel c fi gi limit st_init = inr (2, CSt [ci_botsink; ci_topsink; Instr 0 1 0] {[ [fi; gi] := 2 ]} {[ (0, 1, 0) := 2 ]}, 2 + tsz t).
Proof.
  intros HL Hf Hg Hc Hfu. destruct fuel as [|fuel]; [lia|]. cbn [and2_count]. cbn [st_gen st_init]. rewrite lookup_empty.
  destruct (crep_root _ _ _ Hf) as (x&Hx&Hxr). destruct (crep_root _ _ _ Hg) as (y&Hy&Hyr).
  rewrite (vecR_eq _ _ _ Hx), (vecR_eq _ _ _ Hy). cbn [bindR]. simpl in Hxr, Hyr.
  destruct Hxr as (->&_&_&Hxi&Hvf). destruct Hyr as (->&_&_&Hyi&Hvg). cbn [andb negb]. cbv zeta. rewrite Hxi, Hyi, N.min_id, !N.eqb_refl.
  pose proof (crep_cof c 0 false _ _ _ Hf Hx Hvf) as Hf0. pose proof (crep_cof c 0 true _ _ _ Hf Hx Hvf) as Hf1.
  pose proof (crep_cof c 0 false _ _ _ Hg Hy Hvf) as Hg0. pose proof (crep_cof c 0 true _ _ _ Hg Hy Hvf) as Hg1.
  rewrite Hxi in Hf0, Hf1. rewrite Hyi in Hg0, Hg1. unfold cof in Hf0, Hf1, Hg0, Hg1. rewrite N.eqb_refl in Hf0, Hf1, Hg0, Hg1.
  rewrite (compl_count c limit fuel _ _ t t' st_init Hf0 Hg0 Hc ltac:(lia) eq_refl). cbn [bindR]. change (0 =? size_max) with false. cbn iota.
  assert (Hhi : and2_count fuel c (i_hi x) (i_hi y) limit st_init = inr (1, st_init, 1)).
  { destruct fuel as [|fuel]; [lia|]. cbn [and2_count]. cbn [st_gen st_init]. rewrite lookup_empty.
    destruct (crep_root _ _ _ Hf1) as (x'&Hx'&Hxr'). destruct (crep_root _ _ _ Hg1) as (y'&Hy'&Hyr').
    rewrite (vecR_eq _ _ _ Hx'), (vecR_eq _ _ _ Hy'). cbn [bindR]. simpl in Hxr', Hyr'. destruct Hxr' as (->&->&_). destruct Hyr' as (->&->&_). done. }
  rewrite Hhi. cbn [bindR]. change (1 =? size_max) with false. cbn iota.
  unfold meld. change (0 =? 1) with false. cbn iota. cbn [st_red st_gen st_stack st_init]. rewrite !lookup_empty. cbv zeta. cbn [app length].
  rewrite (proj2 (N.ltb_ge limit _)) by lia. replace (1 + tsz t + 1) with (2 + tsz t) by lia. reflexivity.
Qed.
(** for every n below 2^16 - 1: two BDDs with at most 2n+6 entries whose conjunction has 3 entries, for which bdd_and makes more than 2^n calls, whatever its node limit *)
Theorem C77_and_exponential n : (0 < n)%nat -> N.of_nat n < 65535 -> exists c a b c', ofbuilt c /\ csmall c /\ nr_bdds c = 2 /\ csatisfiable c [0; 1] /\
  nr_bdd_nodes c 0 = inr a /\ nr_bdd_nodes c 1 = inr b /\ a <= 2 * N.of_nat n + 6 /\ b <= 2 * N.of_nat n + 6 /\
  forall L, 2 < L < 2 ^ 62 -> bdd_and2 c 0 1 L = inr (2, c') /\ nr_bdd_nodes c' 2 = inr 3 /\ exists k, and_calls c [0; 1] L k /\ 2 ^ N.of_nat n < k.
Proof.
  intros Hn Hn2. destruct (parity_pair HE (S n) n) as (w&i&j&p&q&ti&tj&HR&Hv&Hc&Hi&Hj&_&Hoi&Hoj&Hti&Htj&Hcm&_); [lia|lia|].
  assert (H2 : 2 <= 2 ^ N.of_nat n). { destruct n as [|n]; [lia|]. rewrite Nat2N.inj_succ, N.pow_succ_r'. pose proof (N.pow_nonzero 2 (N.of_nat n)). lia. }
  replace (N.of_nat (S n - n)) with (0 + 1) in Hoi, Hoj by lia.
  destruct (const_step HE w OTop (Leaf true) HR ltac:(auto)) as (r1&w1&p1&H1&HR1&Hp1&Hv1&Hc1).
  assert (Hi1 : hrep w1 i p ti) by (exact (hrep_keep HE MOrd w OTop r1 w1 _ _ _ HR I H1 (fun x => x) Hi)).
  assert (Hj1 : hrep w1 j q tj) by (exact (hrep_keep HE MOrd w OTop r1 w1 _ _ _ HR I H1 (fun x => x) Hj)).
  destruct (uniq_step HE w1 0 i (length (w_h w)) p p1 ti (Leaf true) HR1 Hi1 Hp1) as (w2&f&HR2&Hf&Hk2&Hv2&Hc2);
    [intros ->; cbn [tsz] in Hti; lia|done|done|lia|lia|].
  destruct (uniq_step HE w2 0 j (length (w_h w)) q p1 tj (Leaf true) HR2 (Hk2 _ _ _ Hj1) (Hk2 _ _ _ Hp1)) as (w3&g&HR3&Hg&Hk3&Hv3&Hc3);
    [intros ->; cbn [tsz] in Htj; lia|done|done|lia|lia|].
  apply Hk3 in Hf. pose proof (reach_inv HE _ _ HR3) as HW.
  assert (Hm : mgr_nr_nodes (w_s w3) <= 2 * N.of_nat n + 4) by lia. clear Hc Hc1 Hc2 Hc3 Hv Hv1 Hv2 Hv3 Hk2 Hk3 HR HR1 HR2 Hi Hj Hi1 Hj1 Hp1 H1.
  assert (Hnc : forall k a v l h, hrep w3 k a (Br v l h) -> ~ isconst w3 k).
  { intros k a v l h (Ha&_&Hr) [Hx|Hx]; rewrite Ha in Hx; injection Hx as ->; [apply repr_bot_inv in Hr|apply repr_top_inv in Hr]; done. }
  destruct (add_facts MOrd w3 coll_init _ _ _ HW CInv_init Hf (Hnc _ _ _ _ _ Hf)) as (po&l&Hpo&Hs1&HI1&Ha1&Ht1&Hl1&_&_&_); [lia|].
  set (c1 := Coll (c_ins coll_init ++ l) (c_del coll_init ++ [N.of_nat (length (c_ins coll_init ++ l))])) in *.
  destruct (add_facts MOrd w3 c1 _ _ _ HW HI1 Hg (Hnc _ _ _ _ _ Hg)) as (po'&l'&Hpo'&Hs2&HI2&Ha2&Ht2&Hl2&_&_&_); [lia|].
  set (c2 := Coll (c_ins c1 ++ l') (c_del c1 ++ [N.of_nat (length (c_ins c1 ++ l'))])) in *.
  apply (lists_reach_bound _ _ _ _ HW) in Hpo, Hpo'.
  assert (Hn1 : nr_bdds c1 = 1) by done. assert (Hn2' : nr_bdds c2 = 2) by done. rewrite Hn1 in *. change (nr_bdds coll_init) with 0 in *.
  assert (HB : ofbuilt c2).
  { eapply (obuilt_add MOrd w3 c1); [|done|exact HR3|eapply hrep_live; exact Hg|eapply Hnc; exact Hg|lia|exact Hs2].
    eapply (obuilt_add MOrd w3 coll_init); [apply obuilt_init|done|exact HR3|eapply hrep_live; exact Hf|eapply Hnc; exact Hf|lia|exact Hs1]. }
  assert (Hlen1 : N.of_nat (length (c_ins c1)) = N.of_nat (length l)) by done.
  assert (Hlen2 : N.of_nat (length (c_ins c2)) = N.of_nat (length l) + N.of_nat (length l')) by (unfold c2; cbn [c_ins]; rewrite app_length; lia).
  assert (Hsm : csmall c2) by (unfold csmall; lia).
  apply (cappends_croot _ _ _ _ _ HI1 Ha2) in Ht1.
  assert (Hseg0 : cseg c2 0 0 (N.of_nat (length l))) by (split; done).
  assert (Hseg1 : cseg c2 1 (N.of_nat (length l)) (N.of_nat (length l + length l'))).
  { split; [done|]. unfold c2. cbn. rewrite app_length. done. }
  assert (Hsat : csatisfiable c2 [0; 1]).
  { exists [true]. constructor; [|constructor; [|constructor]]; [rewrite (cval_croot _ _ _ _ HI2 Ht1)|rewrite (cval_croot _ _ _ _ HI2 Ht2)]; done. }
  assert (HF : Forall (fun b => b < nr_bdds c2) [0; 1]) by (rewrite Hn2'; repeat constructor).
  assert (Hr : roots c2 [0; 1] [Br 0 ti (Leaf true); Br 0 tj (Leaf true)]) by (constructor; [done|constructor; [done|constructor]]).
  assert (Hcnt : forall L, 2 < L -> exists st, and_calls_run c2 [0; 1] L = inr (2, st, 2 + tsz ti)).
  { intros L HL. destruct Ht1 as (a&Ha&Hta). destruct Ht2 as (b&Hb&Htb). unfold and_calls_run. rewrite (del_at_eq _ _ _ Ha), (del_at_eq _ _ _ Hb). cbn [bindR].
    eexists. apply (top_count c2 L _ a b ti tj HL Hta Htb Hcm). apply crep_ht in Hta. cbn [ht] in Hta. lia. }
  assert (Htwo : forall a : N, a < 2 ^ 63 -> a < two64) by (intros; assert (two64 = 2 ^ 63 * 2) by done; lia).
  destruct (cand_range_spec c2 [0; 1] _ 3 HI2 Hsm HF ltac:(simpl; lia) Hr ltac:(lia) (sat_conjf _ _ _ HI2 Hr Hsat)) as [Hbad|(l3&He&Ho&Hll&Hst')].
  { exfalso. rewrite (C77_and_counted c2 [0; 1] 3 (ofbuilt_built _ HB) HF) in Hbad by (simpl; lia). destruct (Hcnt 3 ltac:(lia)) as (st&Hx). rewrite Hx in Hbad. cbn [bindR fst] in Hbad.
    unfold and_finish in Hbad. change (2 =? size_max) with false in Hbad. cbn iota in Hbad.
    destruct (assertR _); [done|]. cbn [bindR] in Hbad. destruct (assertRR _); [done|]. cbn [bindR] in Hbad. injection Hbad as Hbad _. done. }
  rewrite Hn2' in He. exists c2. do 2 eexists. eexists. split; [exact HB|]. split; [exact Hsm|]. split; [exact Hn2'|]. split; [exact Hsat|].
  split; [apply (nr_bdd_nodes_eq _ _ _ _ HI2 Hseg0); apply Htwo; lia|]. split; [apply (nr_bdd_nodes_eq _ _ _ _ HI2 Hseg1); apply Htwo; lia|].
  split; [lia|]. split; [lia|]. intros L HL. split; [|split].
  - change (bdd_and2 c2 0 1 L) with (bdd_and_range c2 [0; 1] L). rewrite (Hst' L) by lia. exact He.
  - destruct Ho as [HI3 _]. assert (Hs3 : cseg (Coll (c_ins c2 ++ l3) (c_del c2 ++ [N.of_nat (length (c_ins c2 ++ l3))])) 2 (N.of_nat (length (c_ins c2))) (N.of_nat (length (c_ins c2) + length l3))).
    { pose proof (new_cseg c2 l3 (N.of_nat (length (c_ins c2))) (N.of_nat (length (c_ins c2) + length l3)) HI2) as Hx. rewrite Hn2' in Hx. by apply Hx. }
    pose proof (sg_ab _ _ _ (ci_seg _ HI3 _ _ _ Hs3)) as Hab. rewrite (nr_bdd_nodes_eq _ _ _ _ HI3 Hs3); [f_equal; lia|]. apply Htwo. lia.
  - destruct (Hcnt L ltac:(lia)) as (st&Hx). exists (2 + tsz ti). split; [by exists (2, st)|]. lia.
Qed.
End collcost.
