(** * IteExact.v -- ite_rec without the safety precondition, in ordered managers:
      it returns only on safe inputs *)
From Verif Require Export Ite.
Open Scope N_scope.

(** returns with [Q], throws with a full table, or runs into undefined behaviour *)
Definition satu {E : Env} {A} (m : M A) (s : mstate) (Q : A -> mstate -> Prop) : Prop :=
  match m s with
  | Ok a s' => Q a s'
  | Fail EThrow s' => thrown s'
  | Fail EUB _ => True
  | Fail _ _ => False
  end.
Lemma sat_satu {E : Env} {A} (m : M A) s (Q Q' : A -> mstate -> Prop) : sat m s Q -> (forall a s', Q a s' -> Q' a s') -> satu m s Q'.
Proof. unfold sat, satu. destruct (m s) as [a s'|[] s']; auto; done. Qed.
Lemma satu_bind_ok {E : Env} {A B} (m : M A) (k : A -> M B) s a s' Q : m s = Ok a s' -> satu (k a) s' Q -> satu (bind m k) s Q.
Proof. intros H. unfold satu, bind. by rewrite H. Qed.
Lemma satu_step {E : Env} {A B} (m : M A) (k : A -> M B) s (Q : B -> mstate -> Prop) (Q' : A -> mstate -> Prop) :
  satu m s Q' -> (forall a s', Q' a s' -> satu (k a) s' Q) -> satu (bind m k) s Q.
Proof. unfold satu, bind. destruct (m s) as [a s'|[] s']; auto; try done. intros H1 H2. by apply H2. Qed.
Lemma satu_ub {E : Env} {A B} (m : M A) (k : A -> M B) s s' Q : m s = Fail EUB s' -> satu (bind m k) s Q.
Proof. intros H. unfold satu, bind. by rewrite H. Qed.

Section ite_exact.
Context {E : Env} (HE : env_ok E).

(** the children of a constant are the manager object, which is not a node *)
Lemma mgr_not_node md H s : Inv md H s -> s_heap s !! e_mgr = None.
Proof.
  intros HI. destruct (s_heap s !! e_mgr) as [n|] eqn:Hn; [|done]. exfalso.
  destruct (i_nc _ _ _ HI) as (H1&Hb&(k&Hk&Hp)&_&_&Ha). destruct (Ha e_mgr) as (i&j&He&Hij); [by apply elem_of_dom_2 in Hn|].
  destruct HE as (_&_&Hm&_). specialize (Hm i).
  unfold node_page_size, node_size in *. destruct Hij as [[? ?]|[Hi Hlt]]; [lia|].
  rewrite Hb in Hp. replace (nc_npages (s_nc s) - 1)%nat with i in Hp by lia. lia.
Qed.
Lemma low_sink md H s b : Inv md H s -> low (if b : bool then topsink else botsink) s = Fail EUB s.
Proof.
  intros HI. destruct (inv_sinks _ _ _ HI) as (x&y&Hx&Hy&_&_&Hlx&_&Hly&_).
  pose proof (mgr_not_node _ _ _ HI) as Hm. destruct HE as (_&_&_&Hm0&_). unfold low, touch, bind. 
  destruct b; [rewrite (getN_eq _ _ _ Hy), Hly|rewrite (getN_eq _ _ _ Hx), Hlx].
  all: apply N.eqb_neq in Hm0; rewrite Hm0; unfold getN; by rewrite Hm.
Qed.

Lemma safe_glue last v tf tg th : v < last -> ordt v tf -> ordt v tg -> ordt v th ->
  (forall b, ite_safe last (evalt (cof v b tf)) (evalt (cof v b tg)) (evalt (cof v b th))) ->
  ite_safe last (evalt tf) (evalt tg) (evalt th).
Proof.
  intros Hv Hf Hg Hh Hs r Hbad. apply (Hs (r v) r). unfold ite_bad in *. cbv zeta in *.
  assert (Heq : forall t c, evalt t (upd r last c) = evalt (cof v (r v) t) (upd r last c)).
  { intros t c. rewrite (evalt_cof v t). rewrite upd_other by lia. by destruct (r v). }
  rewrite !(Heq tf), !(Heq tg), !(Heq th) in Hbad. done.
Qed.

Lemma ite_fuel_exact_g md H fuel : md_ord md = true -> forall s f g h tf tg th,
  Inv md H s -> repr (s_heap s) f tf -> repr (s_heap s) g tg -> repr (s_heap s) h th ->
  fu3 md s tf tg th fuel ->
  satu (ite_fuel fuel f g h) s (fun p s' => post md H s (fun r => if evalt tf r then evalt tg r else evalt th r) p s' /\
    ite_safe (nr_variables s - 1) (evalt tf) (evalt tg) (evalt th)).
Proof.
  intros Hmd. assert (Hmx : md_xor md = false) by (by destruct md). assert (Hmo : md_or md = true) by (by destruct md).
  induction fuel as [|fuel IH]; intros s f g h tf tg th HI Hf Hg Hh Hfu; [by destruct (fu3_0 _ _ _ _ _ Hfu)|].
  (* a safe input: ite_fuel_spec *)
  assert (Hsafe_case : ite_safe (nr_variables s - 1) (evalt tf) (evalt tg) (evalt th) ->
    satu (ite_fuel (S fuel) f g h) s (fun p s' => post md H s (fun r => if evalt tf r then evalt tg r else evalt th r) p s' /\
    ite_safe (nr_variables s - 1) (evalt tf) (evalt tg) (evalt th))).
  { intros Hs. eapply sat_satu; [apply (ite_fuel_spec_g HE md H (S fuel)); eauto|].
    - by left.
    - intros p s' Hp. split; [|done]. destruct Hp as (?&?&t&?&Ht). split_and!; auto. exists t. auto. }
  destruct (decide (f = topsink)) as [->|Hft].
  { apply Hsafe_case. apply repr_top_inv in Hf as ->. intros r [Hne _]. done. }
  destruct (decide (f = botsink)) as [->|Hfb].
  { apply Hsafe_case. apply repr_bot_inv in Hf as ->. intros r [Hne _]. done. }
  assert (Hsf : ~ sink f) by (unfold sink; tauto).
  destruct (decide (g = f \/ g = topsink)) as [Hgc|Hgc].
  { apply Hsafe_case. intros r [Hne Hb]. cbv zeta in *. destruct Hgc as [-> | ->].
    - rewrite (repr_fun _ _ _ _ Hg Hf) in Hb.
      destruct (evalt tf (upd r _ false)), (evalt tf (upd r _ true)); naive_solver.
    - apply repr_top_inv in Hg as ->. simpl in Hb. destruct (evalt tf (upd r _ false)), (evalt tf (upd r _ true)); naive_solver. }
  destruct (decide (h = f \/ h = botsink)) as [Hhc|Hhc].
  { apply Hsafe_case. intros r [Hne Hb]. cbv zeta in *. destruct Hhc as [-> | ->].
    - rewrite (repr_fun _ _ _ _ Hh Hf) in Hb.
      destruct (evalt tf (upd r _ false)), (evalt tf (upd r _ true)); naive_solver.
    - apply repr_bot_inv in Hh as ->. simpl in Hb. destruct (evalt tf (upd r _ false)), (evalt tf (upd r _ true)); naive_solver. }
  destruct (N.eqb_spec g h) as [->|Hgh].
  { apply Hsafe_case. intros r [Hne Hb]. cbv zeta in *. rewrite (repr_fun _ _ _ _ Hg Hh) in Hb.
      destruct (evalt tf (upd r _ false)), (evalt tf (upd r _ true)), (evalt th (upd r _ false)), (evalt th (upd r _ true)); naive_solver. }
  destruct (decide (g = botsink /\ h = topsink)) as [[-> ->]|Hbtc].
  { apply Hsafe_case. intros r [Hne Hb]. cbv zeta in *. apply repr_bot_inv in Hg as ->. apply repr_top_inv in Hh as ->. simpl in Hb.
    destruct (evalt tf (upd r _ false)), (evalt tf (upd r _ true)); naive_solver. }
  (* past the shortcuts *)
  cbn [ite_fuel].
  eapply satu_bind_ok; [by eapply is_topsink_eq|]. rewrite bool_decide_eq_false_2 by done.
  eapply satu_bind_ok; [by eapply is_botsink_eq|]. rewrite bool_decide_eq_false_2 by done.
  assert (Hgt : (if g =? f then ret true else is_topsink g) s = Ok (bool_decide (g = f \/ g = topsink)) s).
  { destruct (N.eqb_spec g f) as [->|Hne]; [by rewrite bool_decide_eq_true_2 by auto|].
    rewrite (is_topsink_eq _ _ _ _ _ HI Hg). f_equal. apply bool_decide_ext. tauto. }
  eapply satu_bind_ok; [exact Hgt|]. clear Hgt. rewrite bool_decide_eq_false_2 by done.
  assert (Hht : (if h =? f then ret true else is_botsink h) s = Ok (bool_decide (h = f \/ h = botsink)) s).
  { destruct (N.eqb_spec h f) as [->|Hne]; [by rewrite bool_decide_eq_true_2 by auto|].
    rewrite (is_botsink_eq _ _ _ _ _ HI Hh). f_equal. apply bool_decide_ext. tauto. }
  eapply satu_bind_ok; [exact Hht|]. clear Hht. rewrite bool_decide_eq_false_2 by done.
  pose proof (proj2 (N.eqb_neq g h) Hgh) as Hgh'. rewrite Hgh'.
  eapply satu_bind_ok; [by eapply is_botsink_eq|].
  assert (Hbt : (if bool_decide (g = botsink) then is_topsink h else ret false) s = Ok (bool_decide (g = botsink /\ h = topsink)) s).
  { case_bool_decide as Hgb.
    - rewrite (is_topsink_eq _ _ _ _ _ HI Hh). f_equal. apply bool_decide_ext. tauto.
    - rewrite bool_decide_eq_false_2; [done|tauto]. }
  eapply satu_bind_ok; [exact Hbt|]. clear Hbt. rewrite bool_decide_eq_false_2 by done.
  destruct (cache_lookup_spec HE md H s f g h tf tg HI Hf Hg) as (m&Hm&Hcase).
  pose proof (repr_addr HE _ _ _ _ _ HI Hh) as Hha.
  eapply satu_bind_ok; [exact Hm|].
  destruct Hcase as [->|(Hm0&tf'&tg'&tr&Hf'&Hg'&Hr&_&_&Hsem)]; simpl.
  2:{ apply N.eqb_neq in Hm0. rewrite Hm0. simpl in *.
      destruct Hsem as (th'&Hh'&Hsem&Hsafe). { unfold and_symb, node_size. lia. } { unfold or_symb, node_size. lia. }
      rewrite (repr_fun _ _ _ _ Hf Hf'), (repr_fun _ _ _ _ Hg Hg'), (repr_fun _ _ _ _ Hh Hh').
      eapply sat_satu with (Q := fun p s' => post md H s (fun r => if evalt tf' r then evalt tg' r else evalt th' r) p s').
      - eapply sat_ok; [by eapply touch_repr|]. split_and!; [done|apply ext_refl|]. exists tr. split; [done|]. by apply Hsem.
      - intros p s' Hp. split; [done|]. by apply Hsafe. }
  clear Hsafe_case.
  destruct (repr_nonsink _ _ _ Hf Hsf) as (nf&lf&hf&Hnf&->&Hlf&Hhf).
  pose proof (i_heap _ _ _ HI) as Hheap.
  destruct (ho_node _ _ _ Hheap _ _ Hnf Hsf) as [Hvf _].
  set (nv := nr_variables s) in *. unfold nr_variables in nv.
  assert (Hnv : 0 < nv) by (unfold nv; lia).
  set (last := nv - 1) in *.
  eapply satu_bind_ok; [reflexivity|]. eapply satu_bind_ok; [by eapply variable_eq|].
  assert (HgV : forall u, u < nv -> exists t, getV u s = Ok t s).
  { intros u Hu. destruct (lookup_lt_is_Some_2 (s_vars s) (N.to_nat u)) as [t Ht]; [unfold nv in Hu; lia|].
    exists t. by apply getV_eq. }
  destruct (HgV (n_idx nf)) as [? HVf]; [done|]. eapply satu_bind_ok; [exact HVf|].
  assert (Htv : forall p t, repr (s_heap s) p t -> tvar last t < nv).
  { intros p [c|w tl tr] Hp; simpl; [unfold last; lia|]. eapply repr_occurs; eauto. simpl. auto. }
  assert (Hvarp : forall p t, repr (s_heap s) p t ->
     exists b, is_terminal p s = Ok b s /\ (if b then ret last else variable p) s = Ok (tvar last t) s).
  { intros p t Hp. exists (bool_decide (sink p)). split; [by eapply is_terminal_eq|].
    case_bool_decide as Hsp.
    - destruct Hsp as [-> | ->]; [apply repr_bot_inv in Hp as ->|apply repr_top_inv in Hp as ->]; done.
    - destruct (repr_nonsink _ _ _ Hp Hsp) as (np&?&?&Hnp&->&_). by eapply variable_eq. }
  change (nr_variables s - 1) with last.
  destruct (Hvarp g tg Hg) as (bg&Hbg1&Hbg2). eapply satu_bind_ok; [exact Hbg1|]. eapply satu_bind_ok; [exact Hbg2|].
  destruct (HgV (tvar last tg)) as [? HVg]; [by eapply Htv|]. eapply satu_bind_ok; [exact HVg|].
  destruct (Hvarp h th Hh) as (bh&Hbh1&Hbh2). eapply satu_bind_ok; [exact Hbh1|]. eapply satu_bind_ok; [exact Hbh2|].
  destruct (HgV (tvar last th)) as [? HVh]; [by eapply Htv|]. eapply satu_bind_ok; [exact HVh|].
  cbv zeta. set (tf := Br (n_idx nf) lf hf) in *.
  set (v := N.min (N.min (n_idx nf) (tvar last tg)) (tvar last th)).
  change (n_idx nf) with (tvar last tf) in v |- *.
  assert (Hord : ordt v tf /\ ordt v tg /\ ordt v th).
  { assert (Hg1 : forall p t, repr (s_heap s) p t -> v <= tvar last t -> ordt v t).
    { intros p t Hp Hle. pose proof (ho_ord _ _ _ Hheap Hmd _ _ Hp) as Hot. destruct t as [|w ??]; simpl in *; [done|naive_solver]. }
    split_and!; [eapply (Hg1 f)|eapply (Hg1 g)|eapply (Hg1 h)]; eauto; unfold v; lia. }
  destruct Hord as (Hof&Hog&Hoh).
  destruct (N.lt_ge_cases v last) as [Hvl|Hge].
  2:{ (* at the last variable: a constant branch is dereferenced *)
      assert (Hvle : v <= n_idx nf) by (unfold v; simpl; lia).
      assert (v = last) as Hvl. { unfold nv, last in *. lia. }
      rewrite Hvl in Hof, Hog, Hoh. unfold last in Hof, Hog, Hoh.
      pose proof (last_tree nv tf Hof (repr_redt _ _ _ _ _ Hheap Hf) ltac:(intros u; by eapply repr_occurs)) as HTf.
      pose proof (last_tree nv tg Hog (repr_redt _ _ _ _ _ Hheap Hg) ltac:(intros u; by eapply repr_occurs)) as HTg.
      pose proof (last_tree nv th Hoh (repr_redt _ _ _ _ _ Hheap Hh) ltac:(intros u; by eapply repr_occurs)) as HTh.
      unfold tf in HTf. destruct HTf as (Hif&a&Hla&Hha').
      assert (Hlow : forall p t, repr (s_heap s) p t ->
        match t with Leaf _ => True | Br w l h => w = nv - 1 /\ exists a, l = Leaf a /\ h = Leaf (negb a) end ->
        (if tvar last t =? v then low p else ret p) s = Fail EUB s \/
        (exists q c, (if tvar last t =? v then low p else ret p) s = Ok q s /\ t = Br last (Leaf c) (Leaf (negb c)))).
      { intros p t Hp HT. destruct t as [c|w l0 h0]; simpl.
        - left. rewrite Hvl, N.eqb_refl. apply repr_leaf_inv in Hp as ->. by apply (low_sink md H).
        - right. destruct HT as (->&c&->&->). fold last. rewrite Hvl, N.eqb_refl.
          apply repr_br_inv in Hp as (Hs&n&Hn&Hi&Hl&Hhh). exists (n_lo n), c. split; [by eapply low_eq|done]. }
      destruct (Hlow f tf Hf) as [Hub|(qf&cf&Hqf&Htf)].
      { unfold tf. eauto. } { by eapply satu_ub. }
      eapply satu_bind_ok; [exact Hqf|].
      destruct (Hlow g tg Hg HTg) as [Hub|(qg&cg&Hqg&Htg)]. { by eapply satu_ub. }
      eapply satu_bind_ok; [exact Hqg|].
      destruct (Hlow h th Hh HTh) as [Hub|(qh&ch&Hqh&Hth)]. { by eapply satu_ub. }
      exfalso.
      assert (Hgf : tg <> tf). { intros Heq. apply Hgc. left. eapply repr_inj; eauto. by rewrite Heq. }
      assert (Hhf' : th <> tf). { intros Heq. apply Hhc. left. eapply repr_inj; eauto. by rewrite Heq. }
      assert (Hne : tg <> th). { intros Heq. apply Hgh. eapply repr_inj; eauto. by rewrite Heq. }
      rewrite Htf, Htg, Hth in *. destruct cf, cg, ch; congruence. }
  assert (Hvn : v < nv) by (unfold last in *; lia).
  set (Fb := fun b r => if evalt (cof v b tf) r then evalt (cof v b tg) r else evalt (cof v b th) r).
  assert (Hmeas0 : forall b, (ht (cof v b tf) + ht (cof v b tg) + ht (cof v b th) < ht tf + ht tg + ht th)%nat).
  { intros b. pose proof (ht_cof v b tf). pose proof (ht_cof v b tg). pose proof (ht_cof v b th).
    assert (Hlt : forall t, tvar last t = v -> (ht (cof v b t) < ht t)%nat).
    { intros [c|w tl tr]; simpl; intros Hw; [lia|]. rewrite Hw. by apply ht_cof_lt. }
    assert (tvar last tf = v \/ tvar last tg = v \/ tvar last th = v) as [Hw|[Hw|Hw]].
    { unfold v. lia. }
    all: specialize (Hlt _ Hw); lia. }
  assert (Hmeas : forall s0 b, length (s_vars s0) = length (s_vars s) -> fu3 md s0 (cof v b tf) (cof v b tg) (cof v b th) fuel).
  { intros s0 b Hl. apply (fu3_cof md s); [exact Hfu|exact Hl|apply Hmeas0|by intros _|unfold nv in Hvn; lia|].
    intros lb H1 H2 H3. assert (lb <= last). { destruct H1 as [H1 _]. unfold last, nv. lia. }
    unfold v. assert (forall t, ordt lb t -> lb <= tvar last t) as Hlb by (intros [|]; simpl; tauto).
    pose proof (Hlb _ H1). pose proof (Hlb _ H2). pose proof (Hlb _ H3). lia. }
  destruct (cof_step md H s f tf last v false HI Hf Hvl) as (f0&Hf0&Hrf0).
  destruct (cof_step md H s g tg last v false HI Hg Hvl) as (g0&Hg0&Hrg0).
  destruct (cof_step md H s h th last v false HI Hh Hvl) as (h0&Hh0&Hrh0).
  eapply satu_bind_ok; [exact Hf0|]. eapply satu_bind_ok; [exact Hg0|]. eapply satu_bind_ok; [exact Hh0|].
  eapply satu_step; [apply (IH s f0 g0 h0 _ _ _ HI Hrf0 Hrg0 Hrh0 (Hmeas s false eq_refl))|].
  intros r0 s1 [(HI1&He1&t0&Hr0&Ht0) Hs0].
  eapply satu_bind_ok; [apply assert_eq, negb_true_iff, N.eqb_neq; pose proof (repr_addr HE _ _ _ _ _ HI1 Hr0); lia|].
  destruct (cof_step md H s1 f tf last v true HI1 (repr_ext_s _ _ _ _ He1 Hf) Hvl) as (f1&Hf1&Hrf1).
  destruct (cof_step md H s1 g tg last v true HI1 (repr_ext_s _ _ _ _ He1 Hg) Hvl) as (g1&Hg1&Hrg1).
  destruct (cof_step md H s1 h th last v true HI1 (repr_ext_s _ _ _ _ He1 Hh) Hvl) as (h1&Hh1&Hrh1).
  eapply satu_bind_ok; [exact Hf1|]. eapply satu_bind_ok; [exact Hg1|]. eapply satu_bind_ok; [exact Hh1|].
  assert (Hnv1 : nr_variables s1 = nv) by (unfold nr_variables, nv; by rewrite (inv_nv_ext _ _ He1)).
  eapply satu_step; [apply (IH s1 f1 g1 h1 (cof v true tf) (cof v true tg) (cof v true th) HI1 Hrf1 Hrg1 Hrh1); apply Hmeas, (inv_nv_ext _ _ He1)|].
  intros r1 s2 [(HI2&He2&t1&Hr1&Ht1) Hs1]. rewrite Hnv1 in Hs1.
  eapply satu_bind_ok; [apply assert_eq, negb_true_iff, N.eqb_neq; pose proof (repr_addr HE _ _ _ _ _ HI2 Hr1); lia|].
  assert (He02 := ext_trans _ _ _ He1 He2).
  pose proof (repr_ext_s _ _ _ _ He2 Hr0) as Hr0'.
  assert (Hsafe : ite_safe last (evalt tf) (evalt tg) (evalt th)).
  { apply (safe_glue last v); auto. by intros []. }
  assert (Hind : forall b u r c, u < v + 1 -> Fb b (upd r u c) = Fb b r).
  { intros b u r c Hu. unfold Fb. rewrite !(evalt_upd_lt _ (v + 1)) by (auto using cof_ordt). done. }
  eapply sat_satu; [|intros p s' Hp; split; [exact Hp|exact Hsafe]].
  eapply sat_step.
  { apply (unique_find_spec HE md H s2 v r0 r1 t0 t1); auto.
    - by rewrite (inv_nv_ext _ _ He02).
    - intros Ho. split.
      + apply (den_ordt md H s2 _ _ _ _ HI2 Ho Hr0' Ht0). by apply (Hind false).
      + apply (den_ordt md H s2 _ _ _ _ HI2 Ho Hr1 Ht1). by apply (Hind true). }
  intros r s3 Hu. apply uf_post_post in Hu. destruct Hu as (HI3&He3&t3&Hr3&Ht3).
  assert (He03 := ext_trans _ _ _ He02 He3).
  assert (Hsem : forall x, evalt t3 x = if evalt tf x then evalt tg x else evalt th x).
  { intros y. rewrite Ht3, Ht0, Ht1. rewrite (evalt_cof v tf y), (evalt_cof v tg y), (evalt_cof v th y). by destruct (y v). }
  eapply sat_bind_ok; [apply assert_eq, negb_true_iff, N.eqb_neq; pose proof (repr_addr HE _ _ _ _ _ HI3 Hr3); lia|].
  apply (insert_ret HE); auto; [by exists t3|].
  exists tf, tg, t3. simpl. split_and!; eauto using repr_ext_s.
  - intros Heq. exfalso. unfold and_symb, node_size in Heq. lia.
  - intros Heq. exfalso. unfold or_symb, node_size in Heq. lia.
  - intros _ _. exists th. split_and!; eauto using repr_ext_s. intros Ho. rewrite (ext_nv_len _ _ He03). exact Hsafe.
Qed.

Lemma ite_fuel_exact md H fuel : md_ord md = true -> forall s f g h tf tg th,
  Inv md H s -> repr (s_heap s) f tf -> repr (s_heap s) g tg -> repr (s_heap s) h th ->
  (ht tf + ht tg + ht th < fuel)%nat ->
  satu (ite_fuel fuel f g h) s (fun p s' => post md H s (fun r => if evalt tf r then evalt tg r else evalt th r) p s' /\
    ite_safe (nr_variables s - 1) (evalt tf) (evalt tg) (evalt th)).
Proof. intros. apply ite_fuel_exact_g; auto. by left. Qed.

Lemma ite_exact md H s f g h tf tg th : md_ord md = true ->
  Inv md H s -> repr (s_heap s) f tf -> repr (s_heap s) g tg -> repr (s_heap s) h th ->
  satu (ite_rec f g h) s (fun p s' => post md H s (fun r => if evalt tf r then evalt tg r else evalt th r) p s' /\
    ite_safe (nr_variables s - 1) (evalt tf) (evalt tg) (evalt th)).
Proof.
  intros Hmd HI Hf Hg Hh. unfold ite_rec, with_fuel, satu. apply ite_fuel_exact; auto.
  pose proof (fuel_ht _ _ _ Hf). pose proof (fuel_ht _ _ _ Hg). pose proof (fuel_ht _ _ _ Hh). lia.
Qed.
End ite_exact.
