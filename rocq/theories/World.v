(** * World.v -- lifting the operation specs to clients *)
From Verif Require Export IteExact Api Handle Rebase Limited Destroy CollExp.
Open Scope N_scope.

(** value along the path chosen by [x]; [None] when [x] is too short for it *)
Fixpoint evp (t : bdd) (x : list bool) : option bool :=
  match t with
  | Leaf b => Some b
  | Br v l h => match x !! N.to_nat v with Some true => evp h x | Some false => evp l x | None => None end
  end.
Lemma evp_covers t x : (forall v, occurs v t -> v < N.of_nat (length x)) -> evp t x = Some (evalt t (asg x)).
Proof.
  induction t as [b|v l IHl h IHh]; simpl; [done|]. intros Hx.
  destruct (lookup_lt_is_Some_2 x (N.to_nat v)) as [b Hb]; [specialize (Hx v); lia|].
  unfold asg at 1. rewrite Hb. simpl. destruct b; [apply IHh|apply IHl]; auto.
Qed.

Section world.
Context {E : Env}.

Lemma evaluate_path md H s p t x : Inv md H s -> repr (s_heap s) p t ->
  match evp t x with Some b => evaluate p x s = Ok b s | None => exists e, evaluate p x s = Fail e s end.
Proof.
  intros HI Hr. unfold evaluate, with_fuel. pose proof (fuel_ht _ _ _ Hr) as Hf.
  assert (Hf' : (ht t < fuel_of s)%nat) by lia. clear Hf. revert p t Hr Hf'.
  induction (fuel_of s) as [|fuel IH]; intros p t Hr Hf; [lia|]. simpl.
  rewrite (bind_eq _ _ _ _ _ (is_botsink_eq _ _ _ _ _ HI Hr)).
  case_bool_decide as Hb; [subst; by apply repr_bot_inv in Hr as ->|].
  rewrite (bind_eq _ _ _ _ _ (is_topsink_eq _ _ _ _ _ HI Hr)).
  case_bool_decide as Ht; [subst; by apply repr_top_inv in Hr as ->|].
  destruct (repr_nonsink _ _ _ Hr) as (n&tl&th&Hn&->&Hl&Hh); [intros [?|?]; done|].
  rewrite (bind_eq _ _ _ _ _ (getN_eq _ _ _ Hn)). simpl in Hf |- *.
  destruct (x !! N.to_nat (n_idx n)) as [b|] eqn:Hx.
  - assert (Hlt : n_idx n < N.of_nat (length x)) by (apply lookup_lt_Some in Hx; lia).
    rewrite (bind_eq _ _ _ _ _ (assert_eq _ _ (proj2 (N.ltb_lt _ _) Hlt))).
    destruct b; [apply (IH (n_hi n) th)|apply (IH (n_lo n) tl)]; auto; lia.
  - unfold assert_, assertR, bind, liftR. destruct (_ || _); simpl; eauto.
Qed.

(** ** handle counts *)
Lemma inv_H_ext md H H' s : Inv md H s -> (forall p, H p = H' p) -> Inv md H' s.
Proof.
  intros [] He. constructor; auto.
  - intros p n Hn. rewrite <- He. auto.
  - intros p. rewrite <- He. auto.
  - intros p. rewrite <- He. auto.
Qed.
Lemma hcount_nonneg l p : (0 <= hcount l p)%Z.
Proof. induction l as [|o l IH]; simpl; [lia|]. case_decide; lia. Qed.
Lemma hcount_app l k p : hcount (l ++ k) p = (hcount l p + hcount k p)%Z.
Proof. induction l as [|o l IH]; simpl; [lia|]. case_decide; lia. Qed.
Lemma hcount_pos l i p : l !! i = Some (Some p) -> p <> 0 -> (0 < hcount l p)%Z.
Proof.
  revert i; induction l as [|o l IH]; intros [|i]; simpl; try done.
  - intros [= ->] Hp. rewrite decide_True by done. pose proof (hcount_nonneg l p). lia.
  - intros Hi Hp. specialize (IH i Hi Hp). case_decide; lia.
Qed.
Lemma hcount_snoc l p q : hcount (l ++ [Some p]) q = hadd (hcount l) p 1 q.
Proof.
  rewrite hcount_app. simpl. unfold hadd, addH.
  destruct (decide (p = 0)) as [->|Hp].
  - rewrite decide_False; [lia|]. intros [[= <-] ?]. done.
  - destruct (decide (q = p)) as [->|Hq].
    + rewrite decide_True by done. lia.
    + rewrite decide_False; [lia|]. intros [[= ->] ?]. done.
Qed.
Lemma hcount_insert l i o o' q : l !! i = Some o ->
  hcount (<[i := o']> l) q = (hcount l q - hcount [o] q + hcount [o'] q)%Z.
Proof.
  revert i; induction l as [|a l IH]; intros [|i] Hi; simpl in Hi; simplify_eq; simpl.
  - simpl in *. lia.
  - rewrite (IH i Hi). simpl. lia.
Qed.
Lemma hcount_one p q : hcount [Some p] q = if decide (p = 0) then 0%Z else if decide (q = p) then 1%Z else 0%Z.
Proof.
  simpl. destruct (decide (p = 0)) as [->|Hp].
  - rewrite decide_False; [lia|]. intros [[= <-] ?]. done.
  - destruct (decide (q = p)) as [->|Hq].
    + rewrite decide_True by done. lia.
    + rewrite decide_False; [lia|]. intros [[= ->] ?]. done.
Qed.
Lemma hcount_none q : hcount [None] q = 0%Z.
Proof. done. Qed.

(** ** the invariant of a client world *)
Definition WInv (md : mode) (w : world) : Prop := Inv md (hcount (w_h w)) (w_s w).

Lemma winv_init md : WInv md w_init.
Proof. eapply inv_H_ext; [apply inv_init|]. done. Qed.

Lemma hnd_lookup w i p : hnd w i = Some p <-> w_h w !! i = Some (Some p).
Proof. unfold hnd. destruct (w_h w !! i) as [[q|]|]; simpl; naive_solver. Qed.
Lemma hnd_lt w i p : hnd w i = Some p -> (i < length (w_h w))%nat.
Proof. rewrite hnd_lookup. apply lookup_lt_Some. Qed.

Lemma winv_dom md w i p : WInv md w -> hnd w i = Some p -> p <> 0 -> p ∈ dom (s_heap (w_s w)).
Proof.
  intros HW Hi Hp. apply hnd_lookup in Hi. apply (i_Hdom _ _ _ HW).
  pose proof (hcount_pos _ _ _ Hi Hp). lia.
Qed.
Lemma inv_repr md H s p : Inv md H s -> p ∈ dom (s_heap s) -> exists t, repr (s_heap s) p t.
Proof.
  intros HI Hp. apply elem_of_dom in Hp as [n Hn]. destruct (decide (sink p)) as [[->| ->]|Hs].
  - eexists; constructor.
  - eexists; constructor.
  - by destruct (ho_node _ _ _ (i_heap _ _ _ HI) p n Hn Hs) as (_&_&_&?).
Qed.
Lemma winv_repr md w i p : WInv md w -> hnd w i = Some p -> p <> 0 -> exists t, repr (s_heap (w_s w)) p t.
Proof. intros HW Hi Hp. eapply inv_repr; [exact HW|]. by eapply winv_dom. Qed.

(** handle [i] holds address [p], root of tree [t] *)
Definition hrep (w : world) (i : nat) (p : ptr) (t : bdd) : Prop :=
  hnd w i = Some p /\ p <> 0 /\ repr (s_heap (w_s w)) p t.
Lemma live_hrep md w i : WInv md w -> live w i -> exists p t, hrep w i p t.
Proof. intros HW (p&Hp&H0). destruct (winv_repr _ _ _ _ HW Hp H0) as [t Ht]. exists p, t. done. Qed.
Lemma hrep_live w i p t : hrep w i p t -> live w i.
Proof. intros (?&?&?). by exists p. Qed.
Lemma hrep_fun w i p t p' t' : hrep w i p t -> hrep w i p' t' -> p = p' /\ t = t'.
Proof. intros (?&_&?) (?&_&?). assert (p = p') as <- by congruence. split; [done|]. by eapply repr_fun. Qed.

Lemma val_hrep md w i p t x : WInv md w -> hrep w i p t -> val w i x = evp t x.
Proof.
  intros HW (Hi&_&Hr). unfold val. simpl. unfold with1. rewrite Hi. unfold query.
  pose proof (evaluate_path _ _ _ _ _ x HW Hr) as He. destruct (evp t x).
  - by rewrite He.
  - destruct He as [e ->]. done.
Qed.
Lemma hrep_occurs md w i p t v : WInv md w -> hrep w i p t -> occurs v t -> v < nr_variables (w_s w).
Proof. intros HW (_&_&Hr) Ho. eapply repr_occurs; [apply HW|done|done]. Qed.
Lemma val_covers md w i p t x : WInv md w -> hrep w i p t -> covers w x -> val w i x = Some (evalt t (asg x)).
Proof.
  intros HW Hr Hc. rewrite (val_hrep _ _ _ _ _ _ HW Hr). apply evp_covers. intros v Hv.
  pose proof (hrep_occurs _ _ _ _ _ _ HW Hr Hv). unfold covers in Hc. lia.
Qed.
Definition nvx (w : world) : list bool := repeat false (length (s_vars (w_s w))).
Lemma nvx_covers w : covers w (nvx w).
Proof. unfold covers, nvx, nr_variables. rewrite repeat_length. lia. Qed.
Lemma evals_hrep (HE : env_ok E) md w i phi : WInv md w -> evals w i phi ->
  exists p t, hrep w i p t /\ forall x, covers w x -> phi x = evalt t (asg x).
Proof.
  intros HW He. pose proof (He _ (nvx_covers w)) as H0.
  assert (Hl : live w i).
  { unfold val in H0. simpl in H0. unfold with1 in H0. destruct (hnd w i) as [p|] eqn:Hp; [|done].
    exists p. split; [done|]. intros ->. unfold query, evaluate, with_fuel in H0.
    assert (Hn : s_heap (w_s w) !! 0 = None).
    { destruct (s_heap (w_s w) !! 0) as [n|] eqn:Hn; [|done]. exfalso.
      pose proof (inv_addr HE _ _ _ _ _ HW Hn). lia. }
    unfold fuel_of in H0. rewrite Nat.add_comm in H0. cbn [Nat.add evaluate_fuel] in H0.
    unfold bind, is_botsink, getN, bind in H0. by rewrite Hn in H0. }
  destruct (live_hrep _ _ _ HW Hl) as (p&t&Hr). exists p, t. split; [done|].
  intros x Hx. pose proof (He x Hx) as H1. rewrite (val_covers _ _ _ _ _ _ HW Hr Hx) in H1. congruence.
Qed.

(** ** supports *)
Lemma supp_hrep md w i p t v : WInv md w -> hrep w i p t -> supp w i v <-> occurs v t.
Proof.
  intros HW (Hi&_&Hr). destruct (variables_spec _ _ _ HW _ _ Hr) as (l&Hl&_&Hv).
  assert (Hs : step (QVars i) w = WOk (OutL l) w).
  { simpl. unfold with1. rewrite Hi. unfold query. rewrite Hl. by destruct w. }
  unfold supp. rewrite Hs. rewrite <- Hv. naive_solver.
Qed.
Lemma isconst_hrep w i p t : hrep w i p t -> isconst w i <-> sink p.
Proof. intros (Hi&_&_). unfold isconst, sink. rewrite Hi. naive_solver. Qed.

Definition hreps (w : world) (l : list nat) (ts : list bdd) : Prop :=
  Forall2 (fun i t => exists p, hrep w i p t) l ts.
Lemma alive_hreps md w l : WInv md w -> alive w l -> exists ts, hreps w l ts.
Proof.
  intros HW. induction 1 as [|i l Hi _ [ts IH]]; [exists []; constructor|].
  destruct (live_hrep _ _ _ HW Hi) as (p&t&Hr). exists (t :: ts). constructor; eauto.
Qed.
Lemma hreps_hnds (P : Prop) w l ts : hreps w l ts -> exists ps, hnds w l = Some ps /\ dens P (w_s w) ps (map evalt ts) /\ length ps = length l.
Proof.
  induction 1 as [|i t l ts (p&Hi&H0&Hr) _ (ps&Hps&Hd&Hl)].
  - exists []. split_and!; [done|constructor|done].
  - exists (p :: ps). simpl. rewrite Hi, Hps. split_and!; [done| |by rewrite Hl].
    constructor; [|done]. by apply den_denp, den_repr.
Qed.

(** ** operations that return one new handle *)
(** the or-family and the xor-family share memo tags ([or_symb()], [xor_symb()]): each is correct in
    histories that do not use the other *)
Definition orop (o : op) : bool :=
  match o with
  | OOrV _ _ | OOrR _ | OOr _ _ | OIte _ _ _ | OSimplex _ | OAtMostOne _ | OAtLeast _ _ | OAtMost _ _
  | OCard _ _ | OImport _ _ | OpOr _ _ => true
  | _ => false
  end.
Definition xorop (o : op) : bool :=
  match o with OXorV _ _ | OXorR _ | OXor _ _ | OpXor _ _ => true | _ => false end.
Definition sound (md : mode) (o : op) : Prop :=
  (orop o = true -> md_xor md = false) /\ (xorop o = true -> md_or md = false).

Definition NewPost (P : Prop) (md : mode) (w : world) (phi : bfun) (o : out) (w' : world) : Prop :=
  exists p t, o = OutP p /\ WInv md w' /\ lext (w_s w) (w_s w') /\ w_h w' = w_h w ++ [Some p] /\
    hrep w' (length (w_h w)) p t /\ (P -> forall r, evalt t r = phi r).

Lemma hnd_snoc w s' p : hnd (W s' (w_h w ++ [Some p])) (length (w_h w)) = Some p.
Proof. apply hnd_lookup. simpl. by rewrite lookup_app_r, Nat.sub_diag by lia. Qed.
Lemma hnd_keep w s' p k q : hnd w k = Some q -> hnd (W s' (w_h w ++ [Some p])) k = Some q.
Proof. rewrite !hnd_lookup. simpl. apply lookup_app_l_Some. Qed.

Context (HE : env_ok E).

Lemma newh_postp (P : Prop) md w m phi : sat m (w_s w) (postlp P md (hcount (w_h w)) (w_s w) phi) ->
  ensures (newh w m) (NewPost P md w phi).
Proof.
  intros Hm. unfold newh. unfold sat in Hm. destruct (m (w_s w)) as [p s|[] s]; try done.
  destruct Hm as (HI&Hl&(t&Hr&Ht)).
  assert (H0 : p <> 0) by (pose proof (inv_repr_addr HE _ _ _ _ _ HI Hr); lia).
  destruct (ref_acquire_spec _ _ s p HI) as (s'&Hs'&HI'&He&_).
  { intros _. destruct (repr_in _ _ _ _ _ (i_heap _ _ _ HI) Hr). by eapply elem_of_dom_2. }
  rewrite Hs'. simpl. exists p, t. split_and!; auto.
  - eapply inv_H_ext; [exact HI'|]. intros q. simpl. by rewrite hcount_snoc.
  - eapply lext_trans; [exact Hl|]. by apply ext_lext.
  - split_and!; [apply hnd_snoc|done|]. simpl. by eapply repr_ext_s.
Qed.
Lemma newh_post (P : Prop) md w m phi : sat m (w_s w) (postl md (hcount (w_h w)) (w_s w) phi) ->
  ensures (newh w m) (NewPost P md w phi).
Proof.
  intros Hm. apply newh_postp. eapply sat_mono; [exact Hm|]. intros p s'. apply postl_postlp.
Qed.
Lemma newh_post' (P : Prop) md w m phi psi : sat m (w_s w) (post md (hcount (w_h w)) (w_s w) phi) ->
  (forall r, phi r = psi r) ->
  ensures (newh w m) (NewPost P md w psi).
Proof.
  intros Hm He. apply newh_post. eapply sat_mono; [exact Hm|]. intros p s' Hp.
  apply post_postl. by eapply post_proper.
Qed.
(** [Q] is the condition of the operation's own spec *)
Lemma newh_postc (Q P : Prop) md w m phi psi : sat m (w_s w) (postp Q md (hcount (w_h w)) (w_s w) phi) ->
  (P -> Q) -> (forall r, phi r = psi r) ->
  ensures (newh w m) (NewPost P md w psi).
Proof.
  intros Hm HQ He. apply newh_postp. eapply sat_mono; [exact Hm|]. intros p s' Hp.
  apply postp_postlp. eapply postp_cond; [exact HQ| |exact Hp]. auto.
Qed.

Definition opsem (w : world) (o : op) (phi : bfun) : Prop :=
  let un i f := exists p t, hrep w i p t /\ forall r, phi r = f (evalt t r) in
  let bin i j f := exists p t q u, hrep w i p t /\ hrep w j q u /\ forall r, phi r = f (evalt t r) (evalt u r) in
  let nary l (f : list bool -> bool) := exists ts, hreps w l ts /\ forall r, phi r = f (map (fun t => evalt t r) ts) in
  let tcnt (bs : list bool) := length (filter (fun b : bool => b = true) bs) in
  match o with
  | OProj v => forall r, phi r = r v
  | ONegProj v => forall r, phi r = negb (r v)
  | OTop => forall r, phi r = true
  | OBot => forall r, phi r = false
  | OBotOf _ => forall r, phi r = false
  | OTopOf _ => forall r, phi r = true
  | OUnique v i j => exists p t q u, hrep w i p t /\ hrep w j q u /\ forall r, phi r = if r v then evalt u r else evalt t r
  | ONot i | OpNot i => un i negb
  | OAnd i j | OpAnd i j => bin i j andb
  | OOr i j | OpOr i j => bin i j orb
  | OXor i j | OpXor i j => bin i j xorb
  | OAndV i l => nary (i :: l) (forallb id)
  | OAndR l => nary l (forallb id)
  | OOrV i l => nary (i :: l) (existsb id)
  | OOrR l => nary l (existsb id)
  | OXorV i l => nary (i :: l) (fun bs => Nat.odd (tcnt bs))
  | OXorR l => nary l (fun bs => Nat.odd (tcnt bs))
  | OIte i j k => exists p t q u m v, hrep w i p t /\ hrep w j q u /\ hrep w k m v /\
      forall r, phi r = if evalt t r then evalt u r else evalt v r
  | ORebaseM i vm => exists p t, hrep w i p t /\ forall r, phi r = evalt t (rename (fun v => vm !! v) r)
  | ORebaseV i vm => exists p t, hrep w i p t /\ forall r, phi r = evalt t (rename (fun v => vm !! N.to_nat v) r)
  | OAllFalse l => nary l (fun bs => tcnt bs =? 0)%nat
  | OSimplex l => nary l (fun bs => tcnt bs =? 1)%nat
  | OAtMostOne l => nary l (fun bs => tcnt bs <=? 1)%nat
  | OAtLeastOne l => nary l (fun bs => 1 <=? tcnt bs)%nat
  | OAtLeast l b => nary l (fun bs => b <=? tcnt bs)%nat
  | OAtMost l b => nary l (fun bs => if (length l <? b)%nat then false else (tcnt bs <=? b)%nat)
  | OCard l b => nary l (fun bs => tcnt bs =? b)%nat
  | OCopy i => un i id
  | OLow i => exists p v l h, hrep w i p (Br v l h) /\ forall r, phi r = evalt l r
  | OHigh i => exists p v l h, hrep w i p (Br v l h) /\ forall r, phi r = evalt h r
  | OImport c nr | OExport c nr => exists a t, ix (c_del c) nr = Some a /\ crep (c_ins c) a t /\ forall r, phi r = evalt t r
  | _ => False
  end.

Lemma sat_eq {A} (m m' : M A) s Q : m s = m' s -> sat m' s Q -> sat m s Q.
Proof. unfold sat. by intros ->. Qed.
Lemma with1_hrep w i p t k : hrep w i p t -> with1 w i k = k p.
Proof. intros (Hi&_). unfold with1. by rewrite Hi. Qed.
Lemma with2_hrep w i p t j q u k : hrep w i p t -> hrep w j q u -> with2 w i j k = k p q.
Proof. intros Hi Hj. unfold with2. by rewrite (with1_hrep _ _ _ _ _ Hi), (with1_hrep _ _ _ _ _ Hj). Qed.

Lemma forallb_evalt ts r : forallb (fun phi : bfun => phi r) (map evalt ts) = forallb id (map (fun t => evalt t r) ts).
Proof. induction ts; simpl; [done|]. by rewrite IHts. Qed.
Lemma existsb_evalt ts r : existsb (fun phi : bfun => phi r) (map evalt ts) = existsb id (map (fun t => evalt t r) ts).
Proof. induction ts; simpl; [done|]. by rewrite IHts. Qed.
Lemma cnt_evalt ts r : cnt (map evalt ts) r = length (filter (fun b : bool => b = true) (map (fun t => evalt t r) ts)).
Proof. unfold cnt. by rewrite map_map. Qed.

(** ** the ite precondition *)
Definition tabx (w : world) (r : asgn) : list bool := map (fun k => r (N.of_nat k)) (seq 0 (length (s_vars (w_s w)))).
Lemma tabx_lookup w r v : v < nr_variables (w_s w) -> tabx w r !! N.to_nat v = Some (r v).
Proof.
  intros Hv. unfold tabx, nr_variables in *. rewrite list_lookup_fmap, lookup_seq_lt by lia. simpl. by rewrite N2Nat.id.
Qed.
Lemma tabx_covers w r : covers w (tabx w r).
Proof. unfold covers, tabx, nr_variables. rewrite map_length, seq_length. lia. Qed.
Lemma tabx_val md w i p t r : WInv md w -> hrep w i p t -> evalt t (asg (tabx w r)) = evalt t r.
Proof.
  intros HW Hr. apply evalt_ext. intros v Hv. unfold asg.
  rewrite tabx_lookup; [done|]. by eapply hrep_occurs.
Qed.
Lemma val_upd md w i p t x k b : WInv md w -> hrep w i p t -> covers w x -> (k < length x)%nat ->
  val w i (<[k := b]> x) = Some (evalt t (upd (asg x) (N.of_nat k) b)).
Proof.
  intros HW Hr Hx Hk. rewrite (val_covers _ _ _ _ _ _ HW Hr).
  2:{ unfold covers in *. by rewrite insert_length. }
  f_equal. apply evalt_ext. intros v Hv. unfold asg, upd.
  destruct (N.eqb_spec v (N.of_nat k)) as [->|Hne].
  - rewrite Nat2N.id, list_lookup_insert by done. done.
  - rewrite list_lookup_insert_ne by lia. done.
Qed.
Lemma clash_safe md w i j k p t q u m v : WInv md w -> hrep w i p t -> hrep w j q u -> hrep w k m v ->
  ~ ite_clash w i j k -> ite_safe (nr_variables (w_s w) - 1) (evalt t) (evalt u) (evalt v).
Proof.
  intros HW Hi Hj Hk Hn r Hb. apply Hn.
  destruct (decide (length (s_vars (w_s w)) = 0%nat)) as [H0|H0].
  { exfalso. destruct Hb as [Hne _]. apply Hne. apply evalt_ext. intros a Ha.
    pose proof (hrep_occurs _ _ _ _ _ _ HW Hi Ha) as Hlt. unfold nr_variables in Hlt. lia. }
  exists (tabx w r). split; [apply tabx_covers|].
  set (L := (length (s_vars (w_s w)) - 1)%nat).
  assert (HL : (L < length (tabx w r))%nat) by (unfold tabx; rewrite map_length, seq_length; lia).
  assert (HN : nr_variables (w_s w) - 1 = N.of_nat L) by (unfold nr_variables, L; lia).
  assert (Hval : forall n pn tn b, hrep w n pn tn -> val w n (<[L := b]> (tabx w r)) = Some (evalt tn (upd r (nr_variables (w_s w) - 1) b))).
  { intros n pn tn b Hr. rewrite (val_upd _ _ _ _ _ _ _ _ HW Hr (tabx_covers w r) HL). f_equal.
    rewrite HN. apply evalt_ext. intros a Ha. unfold upd. destruct (a =? N.of_nat L); [done|].
    unfold asg. rewrite tabx_lookup; [done|]. by eapply hrep_occurs. }
  cbv beta zeta. fold L. rewrite !(Hval _ _ _ _ Hi).
  destruct Hb as [Hne Hb]. split; [congruence|].
  destruct Hb as [(Hg0&Hg1&Hh0&Hh1)|(Hg0&Hg1&Hh0&Hh1)]; [left|right];
    intros b; rewrite (Hval _ _ _ _ Hi), (Hval _ _ _ _ Hj), (Hval _ _ _ _ Hk); simpl; destruct b; split; congruence.
Qed.

Lemma clash_bad md w i j k p t q u m v : WInv md w -> hrep w i p t -> hrep w j q u -> hrep w k m v ->
  ite_clash w i j k -> exists r, ite_bad (nr_variables (w_s w) - 1) (evalt t) (evalt u) (evalt v) r.
Proof.
  intros HW Hi Hj Hk (x&Hx&Hne&Hb). cbv zeta in *. exists (asg x).
  set (L := (length (s_vars (w_s w)) - 1)%nat) in *.
  destruct (decide (L < length x)%nat) as [HL|HL].
  2:{ exfalso. apply Hne. rewrite !list_insert_ge by lia. done. }
  assert (HN : nr_variables (w_s w) - 1 = N.of_nat L) by (unfold nr_variables, L; lia).
  assert (Hval : forall n pn tn b, hrep w n pn tn -> val w n (<[L := b]> x) = Some (evalt tn (upd (asg x) (N.of_nat L) b))).
  { intros n pn tn b Hr. by rewrite (val_upd _ _ _ _ _ _ _ _ HW Hr Hx HL). }
  rewrite !(Hval _ _ _ _ Hi) in Hne. unfold ite_bad. cbv zeta. rewrite HN. split; [congruence|].
  destruct Hb as [Hb|Hb]; [left|right];
    pose proof (Hb false) as [H1 H2]; pose proof (Hb true) as [H3 H4];
    rewrite ?(Hval _ _ _ _ Hi), ?(Hval _ _ _ _ Hj), ?(Hval _ _ _ _ Hk) in *; simpl in *; split_and!; congruence.
Qed.

Lemma step_sem md w o phi : WInv md w -> allowed md w o -> opsem w o phi ->
  ensures (step o w) (NewPost (sound md o) md w phi).
Proof.
  intros HW Ha Hs. destruct o; simpl in Ha, Hs; try done.
  - (* proj *) simpl. apply newh_post. eapply sat_mono; [by apply projection_spec|].
    intros p s' [(?&?&?) _]. split_and!; auto. eapply den_proper; [|done]. intros r. by rewrite Hs.
  - simpl. eapply newh_post'; [by apply neg_projection_spec|]. intros r. by rewrite Hs.
  - destruct Hs as (p&t&Hr&Hphi). simpl. rewrite (with1_hrep _ _ _ _ _ Hr).
    eapply newh_post'; [apply negate_spec; [done|exact HW|apply Hr]|]. intros r. by rewrite Hphi.
  - simpl. eapply newh_post'; [apply sat_ret, post_here; [exact HW|apply den_top]|]. intros r. by rewrite Hs.
  - simpl. eapply newh_post'; [apply sat_ret, post_here; [exact HW|apply den_bot]|]. intros r. by rewrite Hs.
  - (* unique *) destruct Hs as (p&t&q&u&Hp&Hq&Hphi). destruct Ha as (Hv&_&_&Ho). simpl.
    rewrite (with2_hrep _ _ _ _ _ _ _ _ Hp Hq).
    eapply newh_post'; [apply (mgr_unique_find_spec HE _ _ _ _ _ _ (evalt t) (evalt u) HW Hv)|].
    + apply den_repr, Hp.
    + apply den_repr, Hq.
    + intros Hm a x b Hab. assert (Hn : ~ occurs a t /\ ~ occurs a u).
      { split; intros Hoc; eapply (supp_hrep _ _ _ _ _ _ HW) in Hoc; eauto; specialize (Ho Hm a); naive_solver lia. }
      split; apply evalt_upd_notin; tauto.
    + intros r. by rewrite Hphi.
  - (* and variadic *) destruct Ha as (_&_&Hne). destruct Hs as (ts&Hts&Hphi).
    inversion Hts as [|i' t l' ts' (p&Hp) Hl]; subst. destruct (hreps_hnds True _ _ _ Hl) as (ps&Hps&Hd&Hlen).
    simpl. rewrite (with1_hrep _ _ _ _ _ Hp). unfold withl. rewrite Hps.
    eapply newh_postc; [apply (and_variadic_spec HE True _ _ _ _ _ (evalt t) (map evalt ts')); [|exact HW|apply den_denp, den_repr, Hp|done]|done|].
    + destruct ps; [|done]. destruct is_; [done|discriminate Hlen].
    + intros r. rewrite Hphi. apply (forallb_evalt (t :: ts')).
  - destruct Ha as (_&Hne). destruct Hs as (ts&Hts&Hphi). destruct (hreps_hnds True _ _ _ Hts) as (ps&Hps&Hd&Hlen).
    simpl. unfold withl. rewrite Hps.
    eapply newh_postc; [apply (and_range_spec HE True _ _ _ _ (map evalt ts)); [lia|exact HW|done]|done|].
    intros r. rewrite Hphi. apply forallb_evalt.
  - destruct Hs as (p&t&q&u&Hp&Hq&Hphi). simpl. rewrite (with2_hrep _ _ _ _ _ _ _ _ Hp Hq).
    eapply newh_post'; [apply and_spec; [done|exact HW|apply Hp|apply Hq]|]. intros r. by rewrite Hphi.
  - (* or *) destruct Ha as (_&_&Hne&Hm). destruct Hs as (ts&Hts&Hphi).
    inversion Hts as [|i' t l' ts' (p&Hp) Hl]; subst. destruct (hreps_hnds (md_xor md = false) _ _ _ Hl) as (ps&Hps&Hd&Hlen).
    simpl. rewrite (with1_hrep _ _ _ _ _ Hp). unfold withl. rewrite Hps.
    eapply newh_postc; [apply (or_variadic_spec HE (md_xor md = false) _ _ _ _ _ (evalt t) (map evalt ts')); [done|done| |exact HW|apply den_denp, den_repr, Hp|done]|intros Hsd; by apply Hsd|].
    + destruct ps; [|done]. destruct is_; [done|discriminate Hlen].
    + intros r. rewrite Hphi. apply (existsb_evalt (t :: ts')).
  - destruct Ha as (_&Hne&Hm). destruct Hs as (ts&Hts&Hphi). destruct (hreps_hnds (md_xor md = false) _ _ _ Hts) as (ps&Hps&Hd&Hlen).
    simpl. unfold withl. rewrite Hps.
    eapply newh_postc; [apply (or_range_spec HE (md_xor md = false) _ _ _ _ (map evalt ts)); [done|done|lia|exact HW|done]|intros Hsd; by apply Hsd|].
    intros r. rewrite Hphi. apply existsb_evalt.
  - destruct Ha as (_&_&Hm). destruct Hs as (p&t&q&u&Hp&Hq&Hphi). simpl. rewrite (with2_hrep _ _ _ _ _ _ _ _ Hp Hq).
    eapply newh_postc; [apply or_spec; [done|done|exact HW|apply Hp|apply Hq]|intros Hsd; by apply Hsd|]. intros r. by rewrite Hphi.
  - (* xor *) destruct Ha as (_&_&Hne&Hm). destruct Hs as (ts&Hts&Hphi).
    inversion Hts as [|i' t l' ts' (p&Hp) Hl]; subst. destruct (hreps_hnds (md_or md = false) _ _ _ Hl) as (ps&Hps&Hd&Hlen).
    simpl. rewrite (with1_hrep _ _ _ _ _ Hp). unfold withl. rewrite Hps.
    eapply newh_postc; [apply (xor_variadic_spec HE (md_or md = false) _ _ _ _ _ (evalt t) (map evalt ts')); [done|done| |exact HW|apply den_denp, den_repr, Hp|done]|intros Hsd; by apply Hsd|].
    + destruct ps; [|done]. destruct is_; [done|discriminate Hlen].
    + intros r. rewrite Hphi. f_equal. apply (cnt_evalt (t :: ts')).
  - destruct Ha as (_&Hne&Hm). destruct Hs as (ts&Hts&Hphi). destruct (hreps_hnds (md_or md = false) _ _ _ Hts) as (ps&Hps&Hd&Hlen).
    simpl. unfold withl. rewrite Hps.
    eapply newh_postc; [apply (xor_range_spec HE (md_or md = false) _ _ _ _ (map evalt ts)); [done|done|lia|exact HW|done]|intros Hsd; by apply Hsd|].
    intros r. rewrite Hphi. by rewrite cnt_evalt.
  - destruct Ha as (_&_&Hm). destruct Hs as (p&t&q&u&Hp&Hq&Hphi). simpl. rewrite (with2_hrep _ _ _ _ _ _ _ _ Hp Hq).
    eapply newh_postc; [apply xor_spec; [done|done|exact HW|apply Hp|apply Hq]|intros Hsd; by apply Hsd|]. intros r. by rewrite Hphi.
  - (* ite *) destruct Ha as (_&_&_&Hm&Hok). destruct Hs as (p&t&q&u&m&v&Hp&Hq&Hv&Hphi). simpl.
    rewrite (with1_hrep _ _ _ _ _ Hp), (with2_hrep _ _ _ _ _ _ _ _ Hq Hv).
    eapply newh_postc; [apply ite_spec; [done|done|exact HW|apply Hp|apply Hq|apply Hv|]|intros Hsd; by apply Hsd|].
    + destruct Hok as [[Ho Hc]|Hn].
      * left. split; [done|]. by eapply clash_safe.
      * right. intros Hoc. apply Hn. by eapply supp_hrep.
    + intros r. by rewrite Hphi.
  - (* rebase map *) destruct Ha as (_&Hc&Hsu&Hlt&Ho). destruct Hs as (p&t&Hp&Hphi). simpl.
    rewrite (with1_hrep _ _ _ _ _ Hp). apply newh_post. eapply sat_mono; [eapply (rebase_map_spec HE _ _ _ _ _ vm HW); [apply Hp|..]|].
    + intros Hk. apply Hc. by eapply isconst_hrep.
    + intros v Hv. apply Hsu. by eapply supp_hrep.
    + done.
    + intros Hm a b a' b' Hoa Hob. apply (Ho Hm); by eapply supp_hrep.
    + intros p' s' (?&?&?). split_and!; auto. eapply den_proper; [|done]. intros r. by rewrite Hphi.
  - (* rebase vec *) destruct Ha as (_&Hc&Hsu&Hlt&Ho). destruct Hs as (p&t&Hp&Hphi). simpl.
    rewrite (with1_hrep _ _ _ _ _ Hp). apply newh_post. eapply sat_mono; [eapply (rebase_vec_spec HE _ _ _ _ _ vm HW); [apply Hp|..]|].
    + intros Hk. apply Hc. by eapply isconst_hrep.
    + intros v Hv. apply Hsu. by eapply supp_hrep.
    + done.
    + intros Hm a b a' b' Hoa Hob. apply (Ho Hm); by eapply supp_hrep.
    + intros p' s' (?&?&?). split_and!; auto. eapply den_proper; [|done]. intros r. by rewrite Hphi.
  - (* all_false *) destruct Ha as (_&Hne). destruct Hs as (ts&Hts&Hphi). destruct (hreps_hnds True _ _ _ Hts) as (ps&Hps&Hd&Hlen).
    simpl. unfold withl. rewrite Hps.
    eapply newh_postc; [apply (all_false_spec HE True _ _ _ _ (map evalt ts)); [lia|exact HW|done]|done|].
    intros r. rewrite Hphi. by rewrite cnt_evalt.
  - destruct Ha as (_&Hne&Hm). destruct Hs as (ts&Hts&Hphi). destruct (hreps_hnds (md_xor md = false) _ _ _ Hts) as (ps&Hps&Hd&Hlen).
    simpl. unfold withl. rewrite Hps.
    eapply newh_postc; [apply (simplex_spec HE (md_xor md = false) _ _ Hm (fun x => x) _ _ (map evalt ts)); [lia|exact HW|done]|intros Hsd; by apply Hsd|].
    intros r. rewrite Hphi. by rewrite cnt_evalt.
  - destruct Ha as (_&Hne&Hm). destruct Hs as (ts&Hts&Hphi). destruct (hreps_hnds (md_xor md = false) _ _ _ Hts) as (ps&Hps&Hd&Hlen).
    simpl. unfold withl. rewrite Hps.
    eapply newh_postc; [apply (at_most_one_spec HE (md_xor md = false) _ _ Hm (fun x => x) _ _ (map evalt ts)); [lia|exact HW|done]|intros Hsd; by apply Hsd|].
    intros r. rewrite Hphi. by rewrite cnt_evalt.
  - destruct Ha as (_&Hne). destruct Hs as (ts&Hts&Hphi). destruct (hreps_hnds True _ _ _ Hts) as (ps&Hps&Hd&Hlen).
    simpl. unfold withl. rewrite Hps.
    eapply newh_postc; [apply (at_least_one_spec HE True _ _ _ _ (map evalt ts)); [lia|exact HW|done]|done|].
    intros r. rewrite Hphi. by rewrite cnt_evalt.
  - destruct Ha as (_&Hne&Hm). destruct Hs as (ts&Hts&Hphi). destruct (hreps_hnds (md_xor md = false) _ _ _ Hts) as (ps&Hps&Hd&Hlen).
    simpl. unfold withl. rewrite Hps.
    eapply newh_postc; [apply (at_least_spec HE (md_xor md = false) _ _ Hm (fun x => x) _ _ (map evalt ts)); [lia|exact HW|done]|intros Hsd; by apply Hsd|].
    intros r. rewrite Hphi. by rewrite cnt_evalt.
  - destruct Ha as (_&Hne&Hm). destruct Hs as (ts&Hts&Hphi). destruct (hreps_hnds (md_xor md = false) _ _ _ Hts) as (ps&Hps&Hd&Hlen).
    simpl. unfold withl. rewrite Hps.
    eapply newh_postc; [apply (at_most_spec HE (md_xor md = false) _ _ Hm (fun x => x) _ _ (map evalt ts)); [lia|exact HW|done]|intros Hsd; by apply Hsd|].
    intros r. rewrite Hphi. unfold at_most_val. rewrite cnt_evalt, map_length. by rewrite (Forall2_length _ _ _ Hts).
  - destruct Ha as (_&Hne&Hm). destruct Hs as (ts&Hts&Hphi). destruct (hreps_hnds (md_xor md = false) _ _ _ Hts) as (ps&Hps&Hd&Hlen).
    simpl. unfold withl. rewrite Hps.
    eapply newh_postc; [apply (cardinality_spec HE (md_xor md = false) _ _ Hm (fun x => x) _ _ (map evalt ts)); [lia|exact HW|done]|intros Hsd; by apply Hsd|].
    intros r. rewrite Hphi. by rewrite cnt_evalt.
  - (* import *) destruct Ha as (HC&Hnr&Hm&Hv&Hb&Ho). destruct Hs as (a&t&Ha&Ht&Hphi).
    destruct (cseg_ex _ _ HC Hnr) as (a'&b&Hcs). assert (a' = a) as -> by (destruct Hcs; congruence).
    simpl. apply newh_postp. eapply sat_mono.
    + eapply (import_spec HE md Hm _ c nr a b HC Hcs _ t HW); auto.
      * intros i x Hi Hx. apply Hv. by exists a, b, i.
      * unfold csize_upto in Hb. by rewrite (proj2 Hcs) in Hb.
      * destruct Ho as [[Hmo Ho]|Ho]; [left|right].
        -- split; [done|]. by eapply cordered_at.
        -- intros i x Hi Hx. apply Ho. by exists a, b, i.
    + intros p s' [(?&?&tt'&?&Htt) _]. split_and!; auto. exists tt'. split; [done|]. intros Hsd r. rewrite Htt, Hphi; [done|]. by apply Hsd.
  - (* operators *) destruct Hs as (p&t&q&u&Hp&Hq&Hphi). simpl. rewrite (with2_hrep _ _ _ _ _ _ _ _ Hp Hq).
    eapply newh_post'; [eapply sat_eq; [eapply via_mgr_spec; [exact HW|apply Hp]|];
      apply and_spec; [done|exact HW|apply Hp|apply Hq]|]. intros r. by rewrite Hphi.
  - destruct Ha as (_&_&Hm). destruct Hs as (p&t&q&u&Hp&Hq&Hphi). simpl. rewrite (with2_hrep _ _ _ _ _ _ _ _ Hp Hq).
    eapply newh_postc; [eapply sat_eq; [eapply via_mgr_spec; [exact HW|apply Hp]|];
      apply or_spec; [done|done|exact HW|apply Hp|apply Hq]|intros Hsd; by apply Hsd|]. intros r. by rewrite Hphi.
  - destruct Ha as (_&_&Hm). destruct Hs as (p&t&q&u&Hp&Hq&Hphi). simpl. rewrite (with2_hrep _ _ _ _ _ _ _ _ Hp Hq).
    eapply newh_postc; [eapply sat_eq; [eapply via_mgr_spec; [exact HW|apply Hp]|];
      apply xor_spec; [done|done|exact HW|apply Hp|apply Hq]|intros Hsd; by apply Hsd|]. intros r. by rewrite Hphi.
  - destruct Hs as (p&t&Hr&Hphi). simpl. rewrite (with1_hrep _ _ _ _ _ Hr).
    eapply newh_post'; [eapply sat_eq; [eapply via_mgr_spec; [exact HW|apply Hr]|];
      apply negate_spec; [done|exact HW|apply Hr]|]. intros r. by rewrite Hphi.
  - (* copy *) destruct Hs as (p&t&Hr&Hphi). simpl. rewrite (with1_hrep _ _ _ _ _ Hr).
    eapply newh_post'; [apply sat_ret, post_here; [exact HW|apply den_repr, Hr]|]. intros r. by rewrite Hphi.
  - (* low *) destruct Hs as (p&v&tl&th&Hp&Hphi). simpl. rewrite (with1_hrep _ _ _ _ _ Hp).
    destruct Hp as (_&_&Hr). apply repr_br_inv in Hr as (Hns&n&Hn&Hv&Hl&Hh).
    eapply newh_post'; [eapply sat_ok; [eapply low_eq; eauto; apply HW|]; apply post_here; [exact HW|by apply den_repr]|].
    intros r. by rewrite Hphi.
  - (* high *) destruct Hs as (p&v&tl&th&Hp&Hphi). simpl. rewrite (with1_hrep _ _ _ _ _ Hp).
    destruct Hp as (_&_&Hr). apply repr_br_inv in Hr as (Hns&n&Hn&Hv&Hl&Hh).
    eapply newh_post'; [eapply sat_ok; [eapply high_eq; eauto; apply HW|]; apply post_here; [exact HW|by apply den_repr]|].
    intros r. by rewrite Hphi.
  - (* botsink() *) destruct (live_hrep _ _ _ HW Ha) as (p&t&Hr). simpl. rewrite (with1_hrep _ _ _ _ _ Hr).
    eapply newh_post'; [eapply sat_eq; [eapply via_mgr_spec; [exact HW|apply Hr]|];
      apply sat_ret, post_here; [exact HW|apply den_bot]|]. intros r. by rewrite Hs.
  - destruct (live_hrep _ _ _ HW Ha) as (p&t&Hr). simpl. rewrite (with1_hrep _ _ _ _ _ Hr).
    eapply newh_post'; [eapply sat_eq; [eapply via_mgr_spec; [exact HW|apply Hr]|];
      apply sat_ret, post_here; [exact HW|apply den_top]|]. intros r. by rewrite Hs.
  - (* export *) destruct Ha as (HC&Hsm&Hnr&Hv&Ho). destruct Hs as (a&t&Ha&Ht&Hphi).
    destruct (cseg_ex _ _ HC Hnr) as (a'&b&Hcs). assert (a' = a) as -> by (destruct Hcs; congruence).
    simpl. apply newh_post. eapply sat_mono.
    + eapply (export_spec HE md _ c nr a b HC Hcs _ t HW); auto.
      * intros i x Hi Hx. apply Hv. by exists a, b, i.
      * intros Hmo. eapply cordered_at; eauto.
    + intros p s' (?&?&?). split_and!; auto using ext_lext. exists t. split; [done|]. intros r. by rewrite Hphi.
Qed.
End world.
