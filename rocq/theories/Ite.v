(** * Ite.v -- ite_rec *)
From Verif Require Export Ops.
Open Scope N_scope.

Section ite.
Context {E : Env} (HE : env_ok E).

Definition tvar (last : N) (t : bdd) : N := match t with Br w _ _ => w | Leaf _ => last end.

Lemma cof_step md H s p t last v b : Inv md H s -> repr (s_heap s) p t -> v < last ->
  exists q, (if tvar last t =? v then (if b : bool then high p else low p) else ret p) s = Ok q s /\
            repr (s_heap s) q (cof v b t).
Proof.
  intros HI Hp Hv. destruct t as [c|w tl th]; simpl.
  - assert (last =? v = false) as -> by (apply N.eqb_neq; lia). eexists. split; [done|done].
  - pose proof Hp as Hp'. apply repr_br_inv in Hp' as (Hs&n&Hn&Hi&Hl&Hh). rewrite (N.eqb_sym v w). destruct (w =? v).
    + destruct b.
      * exists (n_hi n). split; [by eapply high_eq|done].
      * exists (n_lo n). split; [by eapply low_eq|done].
    + eexists. split; [done|done].
Qed.

Lemma last_tree nv t : ordt (nv - 1) t -> redt t -> (forall u, occurs u t -> u < nv) ->
  match t with Leaf _ => True | Br w l h => w = nv - 1 /\ exists a, l = Leaf a /\ h = Leaf (negb a) end.
Proof.
  destruct t as [|w l h]; simpl; [done|]. intros (Hw&Hl&Hh) (Hne&Hrl&Hrh) Hoc.
  assert (w < nv) by auto. assert (w = nv - 1) as -> by lia. split; [done|].
  assert (Hleaf : forall t, ordt (nv - 1 + 1) t -> (forall u, occurs u t -> u < nv) -> exists a, t = Leaf a).
  { intros [a|x ??]; [eauto|]. simpl. intros (Hx&_) Ho. specialize (Ho x). lia. }
  destruct (Hleaf l) as [a ->]; auto. destruct (Hleaf h) as [b ->]; auto. exists a. split; [done|].
  destruct a, b; simpl; congruence.
Qed.

Lemma safe_cof last v b tf tg th : v < last -> ordt (v + 1) (cof v b tf) -> ordt (v + 1) (cof v b tg) -> ordt (v + 1) (cof v b th) ->
  ite_safe last (evalt tf) (evalt tg) (evalt th) ->
  ite_safe last (evalt (cof v b tf)) (evalt (cof v b tg)) (evalt (cof v b th)).
Proof.
  intros Hv Hf Hg Hh Hsafe r Hbad. apply (Hsafe (upd r v b)).
  assert (Heq : forall t c, ordt (v + 1) (cof v b t) ->
    evalt t (upd (upd r v b) last c) = evalt (cof v b t) (upd r last c)).
  { intros t c Ht. rewrite (evalt_cof v t). rewrite upd_other by lia. rewrite upd_same.
    transitivity (evalt (cof v b t) (upd (upd r v b) last c)); [by destruct b|].
    rewrite evalt_upd_comm by lia. apply (evalt_upd_lt _ (v + 1)); [done|lia]. }
  unfold ite_bad in *. rewrite !Heq by done. done.
Qed.

Definition ite_ok (md : mode) (nv : N) (tf tg th : bdd) : Prop :=
  (md_ord md = true /\ ite_safe (nv - 1) (evalt tf) (evalt tg) (evalt th)) \/ ~ occurs (nv - 1) tf.

Lemma ite_ok_safe md nv tf tg th : ite_ok md nv tf tg th -> ite_safe (nv - 1) (evalt tf) (evalt tg) (evalt th).
Proof.
  intros [[_ Hs]|Hno]; [done|]. intros r [Hne _]. apply Hne. apply evalt_ext. intros v Hv. unfold upd.
  destruct (N.eqb_spec v (nv - 1)) as [->|]; done.
Qed.
Lemma ext_nv_len s s' : ext s s' -> N.of_nat (length (s_vars s')) = nr_variables s.
Proof. intros [_ He]. unfold nr_variables. by rewrite He. Qed.

(** [fu3]: [n] nested activations are enough for if-then-else *)
Definition fu3 (md : mode) (s : mstate) (tf tg th : bdd) (n : nat) : Prop :=
  (ht tf + ht tg + ht th < n)%nat \/
  (md_ord md = true /\ exists lb, ordt lb tf /\ ordt lb tg /\ ordt lb th /\ (length (s_vars s) - N.to_nat lb < n)%nat).
Lemma fu3_0 md s tf tg th : ~ fu3 md s tf tg th 0.
Proof. intros [?|(_&lb&_&_&_&?)]; lia. Qed.
Lemma fu3_cof md s s0 tf tg th v b n : fu3 md s tf tg th (S n) -> length (s_vars s0) = length (s_vars s) ->
  (ht (cof v b tf) + ht (cof v b tg) + ht (cof v b th) < ht tf + ht tg + ht th)%nat -> (md_ord md = true -> ordt v tf /\ ordt v tg /\ ordt v th) ->
  v < N.of_nat (length (s_vars s)) -> (forall lb, ordt lb tf -> ordt lb tg -> ordt lb th -> lb <= v) ->
  fu3 md s0 (cof v b tf) (cof v b tg) (cof v b th) n.
Proof.
  intros Hfu Hl Hht Hoo Hv Hlb. destruct Hfu as [Hfu|(Ho&lb&H1&H2&H3&Hfu)]; [left; lia|].
  right. split; [done|]. exists (v + 1). destruct (Hoo Ho) as (?&?&?). pose proof (Hlb _ H1 H2 H3). split_and!; [by apply cof_ordt..|]. rewrite Hl. lia.
Qed.
Lemma ite_fuel_spec_g md H fuel : md_or md = true -> forall s f g h tf tg th,
  Inv md H s -> repr (s_heap s) f tf -> repr (s_heap s) g tg -> repr (s_heap s) h th ->
  ite_ok md (nr_variables s) tf tg th ->
  fu3 md s tf tg th fuel ->
  sat (ite_fuel fuel f g h) s (postp (md_xor md = false) md H s (fun r => if evalt tf r then evalt tg r else evalt th r)).
Proof.
  intros Hmd. induction fuel as [|fuel IH]; intros s f g h tf tg th HI Hf Hg Hh Hok Hfu; [by destruct (fu3_0 _ _ _ _ _ Hfu)|]. simpl.
  eapply sat_bind_ok; [by eapply is_topsink_eq|]. case_bool_decide as Hft.
  { subst. apply repr_top_inv in Hf as ->. apply sat_ret, postp_here; [done|]. by apply den_denp, den_repr. }
  eapply sat_bind_ok; [by eapply is_botsink_eq|]. case_bool_decide as Hfb.
  { subst. apply repr_bot_inv in Hf as ->. apply sat_ret, postp_here; [done|]. by apply den_denp, den_repr. }
  assert (Hsf : ~ sink f) by (unfold sink; tauto).
  assert (Hgt : (if g =? f then ret true else is_topsink g) s = Ok (bool_decide (g = f \/ g = topsink)) s).
  { destruct (N.eqb_spec g f) as [->|Hne]; [by rewrite bool_decide_eq_true_2 by auto|].
    rewrite (is_topsink_eq _ _ _ _ _ HI Hg). f_equal. apply bool_decide_ext. tauto. }
  eapply sat_bind_ok; [exact Hgt|]. clear Hgt. case_bool_decide as Hgc.
  { eapply sat_mono; [by apply (or_spec HE md H s f h tf th)|]. intros p s'. apply postp_proper. intros _ r.
    destruct Hgc as [-> | ->].
    - rewrite (repr_fun _ _ _ _ Hg Hf). by destruct (evalt tf r).
    - apply repr_top_inv in Hg as ->. by destruct (evalt tf r). }
  assert (Hht : (if h =? f then ret true else is_botsink h) s = Ok (bool_decide (h = f \/ h = botsink)) s).
  { destruct (N.eqb_spec h f) as [->|Hne]; [by rewrite bool_decide_eq_true_2 by auto|].
    rewrite (is_botsink_eq _ _ _ _ _ HI Hh). f_equal. apply bool_decide_ext. tauto. }
  eapply sat_bind_ok; [exact Hht|]. clear Hht. case_bool_decide as Hhc.
  { eapply sat_mono; [by apply (and_spec HE md H s f g tf tg)|]. intros p s' Hpp. apply post_postp. revert Hpp. apply post_proper. intros r.
    destruct Hhc as [-> | ->].
    - rewrite (repr_fun _ _ _ _ Hh Hf). by destruct (evalt tf r).
    - apply repr_bot_inv in Hh as ->. by destruct (evalt tf r). }
  destruct (N.eqb_spec g h) as [->|Hgh].
  { rewrite (repr_fun _ _ _ _ Hg Hh). apply sat_ret, postp_here; [done|]. apply den_denp. exists th. split; [done|]. intros r. by destruct (evalt tf r). }
  eapply sat_bind_ok; [by eapply is_botsink_eq|].
  assert (Hbt : (if bool_decide (g = botsink) then is_topsink h else ret false) s = Ok (bool_decide (g = botsink /\ h = topsink)) s).
  { case_bool_decide as Hgb.
    - rewrite (is_topsink_eq _ _ _ _ _ HI Hh). f_equal. apply bool_decide_ext. tauto.
    - rewrite bool_decide_eq_false_2; [done|tauto]. }
  eapply sat_bind_ok; [exact Hbt|]. clear Hbt. case_bool_decide as Hbtc.
  { destruct Hbtc as [-> ->]. apply repr_bot_inv in Hg as ->. apply repr_top_inv in Hh as ->.
    eapply sat_mono; [by apply (xor_top_spec HE md H s f tf)|]. intros p s' Hpp. apply post_postp. revert Hpp. apply post_proper. intros r. simpl.
    by destruct (evalt tf r). }
  destruct (cache_lookup_spec HE md H s f g h tf tg HI Hf Hg) as (m&Hm&Hcase).
  pose proof (repr_addr HE _ _ _ _ _ HI Hh) as Hha.
  eapply sat_bind_ok; [exact Hm|].
  destruct Hcase as [->|(Hm0&tf'&tg'&tr&Hf'&Hg'&Hr&_&_&Hsem)]; simpl.
  2:{ apply N.eqb_neq in Hm0. rewrite Hm0. simpl in *. rewrite (repr_fun _ _ _ _ Hf Hf'), (repr_fun _ _ _ _ Hg Hg').
      destruct Hsem as (th'&Hh'&Hsem&_). { unfold and_symb, node_size. lia. } { unfold or_symb, node_size. lia. }
      rewrite (repr_fun _ _ _ _ Hh Hh').
      eapply sat_ok; [by eapply touch_repr|]. apply postp_here; [done|]. by exists tr. }
  destruct (repr_nonsink _ _ _ Hf Hsf) as (nf&lf&hf&Hnf&->&Hlf&Hhf).
  pose proof (i_heap _ _ _ HI) as Hheap.
  destruct (ho_node _ _ _ Hheap _ _ Hnf Hsf) as [Hvf _].
  set (nv := nr_variables s) in *. unfold nr_variables in nv.
  assert (Hnv : 0 < nv) by (unfold nv; lia).
  set (last := nv - 1) in *.
  eapply sat_bind_ok; [reflexivity|]. eapply sat_bind_ok; [by eapply variable_eq|].
  assert (HgV : forall u, u < nv -> exists t, getV u s = Ok t s).
  { intros u Hu. destruct (lookup_lt_is_Some_2 (s_vars s) (N.to_nat u)) as [t Ht]; [unfold nv in Hu; lia|].
    exists t. by apply getV_eq. }
  destruct (HgV (n_idx nf)) as [? HVf]; [done|]. eapply sat_bind_ok; [exact HVf|].
  assert (Htv : forall p t, repr (s_heap s) p t -> tvar last t < nv).
  { intros p [c|w tl tr] Hp; simpl; [unfold last; lia|]. eapply repr_occurs; eauto. simpl. auto. }
  assert (Hvarp : forall p t, repr (s_heap s) p t ->
     exists b, is_terminal p s = Ok b s /\ (if b then ret last else variable p) s = Ok (tvar last t) s).
  { intros p t Hp. exists (bool_decide (sink p)). split; [by eapply is_terminal_eq|].
    case_bool_decide as Hsp.
    - destruct Hsp as [-> | ->]; [apply repr_bot_inv in Hp as ->|apply repr_top_inv in Hp as ->]; done.
    - destruct (repr_nonsink _ _ _ Hp Hsp) as (np&?&?&Hnp&->&_). by eapply variable_eq. }
  change (nr_variables s - 1) with last.
  destruct (Hvarp g tg Hg) as (bg&Hbg1&Hbg2). eapply sat_bind_ok; [exact Hbg1|]. eapply sat_bind_ok; [exact Hbg2|].
  destruct (HgV (tvar last tg)) as [? HVg]; [by eapply Htv|]. eapply sat_bind_ok; [exact HVg|].
  destruct (Hvarp h th Hh) as (bh&Hbh1&Hbh2). eapply sat_bind_ok; [exact Hbh1|]. eapply sat_bind_ok; [exact Hbh2|].
  destruct (HgV (tvar last th)) as [? HVh]; [by eapply Htv|]. eapply sat_bind_ok; [exact HVh|].
  cbv zeta. set (tf := Br (n_idx nf) lf hf) in *.
  set (v := N.min (N.min (n_idx nf) (tvar last tg)) (tvar last th)).
  change (n_idx nf) with (tvar last tf) in v |- *.
  assert (Hord : md_ord md = true -> ordt v tf /\ ordt v tg /\ ordt v th).
  { intros Ho.
    assert (Hg1 : forall p t, repr (s_heap s) p t -> v <= tvar last t -> ordt v t).
    { intros p t Hp Hle. pose proof (ho_ord _ _ _ Hheap Ho _ _ Hp) as Hot. destruct t as [|w ??]; simpl in *; [done|naive_solver]. }
    split_and!; [eapply (Hg1 f)|eapply (Hg1 g)|eapply (Hg1 h)]; eauto; unfold v; lia. }
  assert (Hvl : v < last).
  { assert (Hvle : v <= n_idx nf) by (unfold v; simpl; lia).
    destruct Hok as [[Ho Hsafe]|Hno].
    - destruct (N.lt_ge_cases v last) as [|Hge]; [done|]. exfalso.
      assert (v = last) as Hvl. { unfold nv, last in *. lia. }
      destruct (Hord Ho) as (Hof&Hog&Hoh). rewrite Hvl in Hof, Hog, Hoh. unfold last in Hof, Hog, Hoh.
      pose proof (last_tree nv tf Hof (repr_redt _ _ _ _ _ Hheap Hf) ltac:(intros u; by eapply repr_occurs)) as HTf.
      pose proof (last_tree nv tg Hog (repr_redt _ _ _ _ _ Hheap Hg) ltac:(intros u; by eapply repr_occurs)) as HTg.
      pose proof (last_tree nv th Hoh (repr_redt _ _ _ _ _ Hheap Hh) ltac:(intros u; by eapply repr_occurs)) as HTh.
      unfold tf in HTf. destruct HTf as (Hif&a&Hla&Hha'). 
      assert (Hgf : tg <> tf). { intros Heq. apply Hgc. left. eapply repr_inj; eauto. by rewrite Heq. }
      assert (Hgt' : tg <> Leaf true). { intros ->. apply Hgc. right. by apply repr_leaf_inv in Hg. }
      assert (Hhf' : th <> tf). { intros Heq. apply Hhc. left. eapply repr_inj; eauto. by rewrite Heq. }
      assert (Hhb' : th <> Leaf false). { intros ->. apply Hhc. right. by apply repr_leaf_inv in Hh. }
      assert (Hne : tg <> th). { intros Heq. apply Hgh. eapply repr_inj; eauto. by rewrite Heq. }
      assert (Hbt' : ~ (tg = Leaf false /\ th = Leaf true)).
      { intros [-> ->]. apply Hbtc. apply repr_leaf_inv in Hg, Hh. done. }
      apply (Hsafe (fun _ => false)). unfold ite_bad. fold last.
      assert (Hgs : tg = Leaf false \/ tg = Br last (Leaf (negb a)) (Leaf a)).
      { destruct tg as [[]|w l0 h0]; [done|by left|right]. destruct HTg as (->&c&->&->).
        destruct (decide (c = a)) as [->|]; [exfalso; apply Hgf; unfold tf; by rewrite Hif, Hla, Hha'|].
        unfold last. destruct a, c; done. }
      assert (Hhs : th = Leaf true \/ th = Br last (Leaf (negb a)) (Leaf a)).
      { destruct th as [[]|w l0 h0]; [by left|done|right]. destruct HTh as (->&c&->&->).
        destruct (decide (c = a)) as [->|]; [exfalso; apply Hhf'; unfold tf; by rewrite Hif, Hla, Hha'|].
        unfold last. destruct a, c; done. }
      unfold tf. rewrite Hif, Hla, Hha'. fold last. simpl. rewrite !upd_same. split; [by destruct a|].
      destruct Hgs as [->| ->], Hhs as [->| ->]; simpl; rewrite ?upd_same, ?negb_involutive; try tauto; try done.
    - assert (n_idx nf <> last) by (intros He; apply Hno; simpl; auto). unfold nv, last in *. lia. }
  assert (Hvn : v < nv) by (unfold last in *; lia).
  set (Fb := fun b r => if evalt (cof v b tf) r then evalt (cof v b tg) r else evalt (cof v b th) r).
  assert (Hmeas0 : forall b, (ht (cof v b tf) + ht (cof v b tg) + ht (cof v b th) < ht tf + ht tg + ht th)%nat).
  { intros b. pose proof (ht_cof v b tf). pose proof (ht_cof v b tg). pose proof (ht_cof v b th).
    assert (Hlt : forall t, tvar last t = v -> (ht (cof v b t) < ht t)%nat).
    { intros [c|w tl tr]; simpl; intros Hw; [lia|]. rewrite Hw. by apply ht_cof_lt. }
    assert (tvar last tf = v \/ tvar last tg = v \/ tvar last th = v) as [Hw|[Hw|Hw]].
    { unfold v. lia. }
    all: specialize (Hlt _ Hw); lia. }
  assert (Hmeas : forall s0 b, length (s_vars s0) = length (s_vars s) -> fu3 md s0 (cof v b tf) (cof v b tg) (cof v b th) fuel).
  { intros s0 b Hl. apply (fu3_cof md s); [exact Hfu|exact Hl|apply Hmeas0|exact Hord|unfold nv in Hvn; lia|].
    intros lb H1 H2 H3. assert (lb <= last). { destruct H1 as [H1 _]. unfold last, nv. lia. }
    unfold v. assert (forall t, ordt lb t -> lb <= tvar last t) as Hlb by (intros [|]; simpl; tauto).
    pose proof (Hlb _ H1). pose proof (Hlb _ H2). pose proof (Hlb _ H3). lia. }
  assert (Hokc : forall b, ite_ok md nv (cof v b tf) (cof v b tg) (cof v b th)).
  { intros b. destruct Hok as [[Ho Hsafe]|Hno].
    - left. split; [done|]. destruct (Hord Ho) as (?&?&?). apply safe_cof; auto using cof_ordt.
    - right. intros Hoc. by apply Hno, (occurs_cof _ v b). }
  destruct (cof_step md H s f tf last v false HI Hf Hvl) as (f0&Hf0&Hrf0).
  destruct (cof_step md H s g tg last v false HI Hg Hvl) as (g0&Hg0&Hrg0).
  destruct (cof_step md H s h th last v false HI Hh Hvl) as (h0&Hh0&Hrh0).
  eapply sat_bind_ok; [exact Hf0|]. eapply sat_bind_ok; [exact Hg0|]. eapply sat_bind_ok; [exact Hh0|].
  eapply sat_step; [apply (IH s f0 g0 h0 _ _ _ HI Hrf0 Hrg0 Hrh0 (Hokc false) (Hmeas s false eq_refl))|].
  intros r0 s1 (HI1&He1&t0&Hr0&Ht0).
  eapply sat_bind_ok; [apply assert_eq, negb_true_iff, N.eqb_neq; pose proof (repr_addr HE _ _ _ _ _ HI1 Hr0); lia|].
  destruct (cof_step md H s1 f tf last v true HI1 (repr_ext_s _ _ _ _ He1 Hf) Hvl) as (f1&Hf1&Hrf1).
  destruct (cof_step md H s1 g tg last v true HI1 (repr_ext_s _ _ _ _ He1 Hg) Hvl) as (g1&Hg1&Hrg1).
  destruct (cof_step md H s1 h th last v true HI1 (repr_ext_s _ _ _ _ He1 Hh) Hvl) as (h1&Hh1&Hrh1).
  eapply sat_bind_ok; [exact Hf1|]. eapply sat_bind_ok; [exact Hg1|]. eapply sat_bind_ok; [exact Hh1|].
  assert (Hnv1 : nr_variables s1 = nv) by (unfold nr_variables, nv; by rewrite (inv_nv_ext _ _ He1)).
  eapply sat_step; [apply (IH s1 f1 g1 h1 (cof v true tf) (cof v true tg) (cof v true th) HI1 Hrf1 Hrg1 Hrh1); [by rewrite Hnv1|apply Hmeas, (inv_nv_ext _ _ He1)]|].
  intros r1 s2 (HI2&He2&t1&Hr1&Ht1).
  eapply sat_bind_ok; [apply assert_eq, negb_true_iff, N.eqb_neq; pose proof (repr_addr HE _ _ _ _ _ HI2 Hr1); lia|].
  assert (He02 := ext_trans _ _ _ He1 He2).
  pose proof (repr_ext_s _ _ _ _ He2 Hr0) as Hr0'.
  assert (Hind : md_ord md = true -> forall b u r c, u < v + 1 -> Fb b (upd r u c) = Fb b r).
  { intros Ho b u r c Hu. destruct (Hord Ho) as (?&?&?). unfold Fb.
    rewrite !(evalt_upd_lt _ (v + 1)) by (auto using cof_ordt). done. }
  assert (HP : md_ord md = true -> md_xor md = false) by (by destruct md).
  eapply sat_step.
  { apply (unique_find_spec HE md H s2 v r0 r1 t0 t1); auto.
    - by rewrite (inv_nv_ext _ _ He02).
    - intros Ho. split.
      + apply (den_ordt md H s2 _ _ _ _ HI2 Ho Hr0' (Ht0 (HP Ho))). by apply (Hind Ho false).
      + apply (den_ordt md H s2 _ _ _ _ HI2 Ho Hr1 (Ht1 (HP Ho))). by apply (Hind Ho true). }
  intros r s3 Hu. apply uf_post_post in Hu. destruct Hu as (HI3&He3&t3&Hr3&Ht3).
  assert (He03 := ext_trans _ _ _ He02 He3).
  assert (Hsem : md_xor md = false -> forall x, evalt t3 x = if evalt tf x then evalt tg x else evalt th x).
  { intros HPp y. rewrite Ht3, (Ht0 HPp), (Ht1 HPp). rewrite (evalt_cof v tf y), (evalt_cof v tg y), (evalt_cof v th y). by destruct (y v). }
  eapply sat_bind_ok; [apply assert_eq, negb_true_iff, N.eqb_neq; pose proof (repr_addr HE _ _ _ _ _ HI3 Hr3); lia|].
  apply insert_retp; auto; [by exists t3|].
  exists tf, tg, t3. simpl. split_and!; eauto using repr_ext_s.
  - intros Heq. exfalso. unfold and_symb, node_size in Heq. lia.
  - intros Heq. exfalso. unfold or_symb, node_size in Heq. lia.
  - intros _ _. exists th. split_and!; eauto using repr_ext_s. intros Ho. rewrite (ext_nv_len _ _ He03). exact (ite_ok_safe _ _ _ _ _ Hok).
Qed.

Lemma ite_fuel_spec md H fuel : md_or md = true -> forall s f g h tf tg th,
  Inv md H s -> repr (s_heap s) f tf -> repr (s_heap s) g tg -> repr (s_heap s) h th ->
  ite_ok md (nr_variables s) tf tg th ->
  (ht tf + ht tg + ht th < fuel)%nat ->
  sat (ite_fuel fuel f g h) s (postp (md_xor md = false) md H s (fun r => if evalt tf r then evalt tg r else evalt th r)).
Proof. intros. apply ite_fuel_spec_g; auto. by left. Qed.

Lemma ite_spec md H s f g h tf tg th : md_or md = true ->
  Inv md H s -> repr (s_heap s) f tf -> repr (s_heap s) g tg -> repr (s_heap s) h th ->
  ite_ok md (nr_variables s) tf tg th ->
  sat (ite_rec f g h) s (postp (md_xor md = false) md H s (fun r => if evalt tf r then evalt tg r else evalt th r)).
Proof.
  intros Hmd HI Hf Hg Hh Hok. unfold ite_rec, with_fuel, sat. apply ite_fuel_spec; auto.
  pose proof (fuel_ht _ _ _ Hf). pose proof (fuel_ht _ _ _ Hg). pose proof (fuel_ht _ _ _ Hh). lia.
Qed.
End ite.
