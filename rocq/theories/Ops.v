(** * Ops.v -- negate, and, or, xor *)
From Verif Require Export Memo.
Open Scope N_scope.

Section ops.
Context {E : Env} (HE : env_ok E).

(** the node at [p] denotes the function [phi] *)
Definition den (s : mstate) (p : ptr) (phi : bfun) : Prop :=
  exists t, repr (s_heap s) p t /\ forall r, evalt t r = phi r.

Definition post md H s (phi : bfun) : ptr -> mstate -> Prop :=
  fun p s' => Inv md H s' /\ ext s s' /\ den s' p phi.

Lemma den_ext s s' p phi : ext s s' -> den s p phi -> den s' p phi.
Proof. intros [He _] (t&?&?). exists t. eauto using repr_ext. Qed.
Lemma den_proper s p phi psi : (forall r, phi r = psi r) -> den s p phi -> den s p psi.
Proof. intros He (t&?&Ht). exists t. split; [done|]. intros r. by rewrite Ht, He. Qed.
Lemma post_proper md H s phi psi p s' : (forall r, phi r = psi r) -> post md H s phi p s' -> post md H s psi p s'.
Proof. intros He (?&?&?). split_and!; auto. by eapply den_proper. Qed.
Lemma post_trans md H s1 s2 s3 phi p : ext s1 s2 -> post md H s2 phi p s3 -> post md H s1 phi p s3.
Proof. intros He (?&?&?). split_and!; auto. by eapply ext_trans. Qed.
Lemma post_here md H s p phi : Inv md H s -> den s p phi -> post md H s phi p s.
Proof. intros. split_and!; auto. apply ext_refl. Qed.
Lemma repr_ext_s s s' p t : ext s s' -> repr (s_heap s) p t -> repr (s_heap s') p t.
Proof. intros [? _]. by apply repr_ext. Qed.
Lemma den_bot s : den s botsink (fun _ => false).
Proof. exists (Leaf false). split; [constructor|done]. Qed.
Lemma den_top s : den s topsink (fun _ => true).
Proof. exists (Leaf true). split; [constructor|done]. Qed.
Lemma den_repr s p t : repr (s_heap s) p t -> den s p (evalt t).
Proof. exists t. auto. Qed.

(** the same under a condition: [P] is when the memo table can be believed (World.v) *)
Definition denp (P : Prop) (s : mstate) (p : ptr) (phi : bfun) : Prop :=
  exists t, repr (s_heap s) p t /\ (P -> forall r, evalt t r = phi r).
Definition postp (P : Prop) md H s (phi : bfun) : ptr -> mstate -> Prop :=
  fun p s' => Inv md H s' /\ ext s s' /\ denp P s' p phi.
Lemma den_denp P s p phi : den s p phi -> denp P s p phi.
Proof. intros (t&?&?). exists t. auto. Qed.
Lemma denp_den (P : Prop) s p phi : P -> denp P s p phi -> den s p phi.
Proof. intros HP (t&?&?). exists t. auto. Qed.
Lemma post_postp P md H s phi p s' : post md H s phi p s' -> postp P md H s phi p s'.
Proof. intros (?&?&?). split_and!; auto using den_denp. Qed.
Lemma postp_post (P : Prop) md H s phi p s' : P -> postp P md H s phi p s' -> post md H s phi p s'.
Proof. intros HP (?&?&?). split_and!; eauto using denp_den. Qed.
Lemma denp_ext P s s' p phi : ext s s' -> denp P s p phi -> denp P s' p phi.
Proof. intros [He _] (t&?&?). exists t. eauto using repr_ext. Qed.
Lemma denp_proper (P : Prop) s p phi psi : (P -> forall r, phi r = psi r) -> denp P s p phi -> denp P s p psi.
Proof. intros He (t&?&Ht). exists t. split; [done|]. intros HP r. by rewrite Ht, He. Qed.
Lemma postp_proper (P : Prop) md H s phi psi p s' : (P -> forall r, phi r = psi r) -> postp P md H s phi p s' -> postp P md H s psi p s'.
Proof. intros He (?&?&?). split_and!; auto. by eapply denp_proper. Qed.
Lemma postp_trans P md H s1 s2 s3 phi p : ext s1 s2 -> postp P md H s2 phi p s3 -> postp P md H s1 phi p s3.
Proof. intros He (?&?&?). split_and!; auto. by eapply ext_trans. Qed.
Lemma postp_here P md H s p phi : Inv md H s -> denp P s p phi -> postp P md H s phi p s.
Proof. intros. split_and!; auto. apply ext_refl. Qed.

Lemma inv_nv_ext s s' : ext s s' -> length (s_vars s') = length (s_vars s).
Proof. by intros [_ ?]. Qed.

(** in ordered mode, semantic independence of small variables bounds the root *)
Lemma den_ordt md H s p t phi lb : Inv md H s -> md_ord md = true -> repr (s_heap s) p t ->
  (forall r, evalt t r = phi r) -> (forall u r b, u < lb -> phi (upd r u b) = phi r) -> ordt lb t.
Proof.
  intros HI Ho Hr Ht Hind. apply ordt_lb.
  - by eapply (ho_ord _ _ _ (i_heap _ _ _ HI)).
  - eapply repr_redt; [apply HI|done].
  - intros u r b Hu. rewrite !Ht. auto.
Qed.

Lemma repr_bot_addr md H s t : Inv md H s -> repr (s_heap s) botsink t -> t = Leaf false.
Proof. intros _. apply repr_bot_inv. Qed.

(** unique_find on denotations *)
Lemma uf_post_post md H s v tl th p s' : uf_post md H s v tl th p s' ->
  post md H s (fun r => if r v then evalt th r else evalt tl r) p s'.
Proof.
  intros (?&?&Hr). split_and!; auto. eexists. split; [exact Hr|]. intros r. by rewrite evalt_mkbr.
Qed.

Lemma repr_addr md H s p t : Inv md H s -> repr (s_heap s) p t -> 4096 <= p.
Proof. by apply inv_repr_addr. Qed.

(** ** one Shannon expansion step *)
Definition shannon (rec : ptr -> ptr -> M ptr) (v fv gv : N) (f g : ptr) (k : ptr -> M ptr) : M ptr :=
    let* f0 := (if v =? fv then low f else ret f) in
    let* g0 := (if v =? gv then low g else ret g) in
    let* r0 := rec f0 g0 in
    assert_ (negb (r0 =? 0)) ;;*
    let* f1 := (if v =? fv then high f else ret f) in
    let* g1 := (if v =? gv then high g else ret g) in
    let* r1 := rec f1 g1 in
    assert_ (negb (r1 =? 0)) ;;*
    let* r := unique_find_v v r0 r1 in k r.

(** cofactors as the code takes them *)
Lemma low_cof md H s p n tl th v : Inv md H s -> s_heap s !! p = Some n -> repr (s_heap s) (n_lo n) tl -> repr (s_heap s) (n_hi n) th ->
  (if v =? n_idx n then low p else ret p) s = Ok (if v =? n_idx n then n_lo n else p) s.
Proof. intros HI Hn Hl Hh. destruct (v =? n_idx n); [|done]. by eapply low_eq. Qed.
Lemma high_cof md H s p n tl th v : Inv md H s -> s_heap s !! p = Some n -> repr (s_heap s) (n_lo n) tl -> repr (s_heap s) (n_hi n) th ->
  (if v =? n_idx n then high p else ret p) s = Ok (if v =? n_idx n then n_hi n else p) s.
Proof. intros HI Hn Hl Hh. destruct (v =? n_idx n); [|done]. by eapply high_eq. Qed.

Definition cof (v : N) (b : bool) (t : bdd) : bdd :=
  match t with Br w l h => if v =? w then (if b then h else l) else t | Leaf _ => t end.

Lemma evalt_cof v t r : evalt t r = if r v then evalt (cof v true t) r else evalt (cof v false t) r.
Proof.
  destruct t as [b|w l h]; simpl; [by destruct (r v)|].
  destruct (N.eqb_spec v w) as [->|]; simpl; [done|]. by destruct (r v).
Qed.
Lemma ht_cof v b t : (ht (cof v b t) <= ht t)%nat.
Proof. destruct t as [|w l h]; simpl; [done|]. destruct (v =? w); destruct b; simpl; lia. Qed.
Lemma ht_cof_lt v b l h : (ht (cof v b (Br v l h)) < ht (Br v l h))%nat.
Proof. simpl. rewrite N.eqb_refl. destruct b; simpl; lia. Qed.
Lemma cof_ordt v b t : ordt v t -> ordt (v + 1) (cof v b t).
Proof.
  destruct t as [|w l h]; simpl; [done|]. intros (?&?&?). destruct (N.eqb_spec v w) as [->|].
  - by destruct b.
  - simpl. split_and!; auto. lia.
Qed.
Lemma occurs_cof u v b t : occurs u (cof v b t) -> occurs u t.
Proof. destruct t as [|w l h]; simpl; [done|]. destruct (v =? w); destruct b; simpl; auto. Qed.

Lemma shannon_spec (P : Prop) md H s (opb : bool -> bool -> bool) rec v f g nf ng lf hf lg hg k Q :
  (md_ord md = true -> P) -> Inv md H s -> ~ sink f -> ~ sink g ->
  s_heap s !! f = Some nf -> s_heap s !! g = Some ng ->
  repr (s_heap s) (n_lo nf) lf -> repr (s_heap s) (n_hi nf) hf ->
  repr (s_heap s) (n_lo ng) lg -> repr (s_heap s) (n_hi ng) hg ->
  let tf := Br (n_idx nf) lf hf in let tg := Br (n_idx ng) lg hg in
  (v = n_idx nf \/ v = n_idx ng) ->
  (md_ord md = true -> v <= n_idx nf /\ v <= n_idx ng) ->
  (forall s0 f' g' tf' tg', Inv md H s0 -> ext s s0 -> repr (s_heap s0) f' tf' -> repr (s_heap s0) g' tg' ->
     (ht tf' + ht tg' < ht tf + ht tg)%nat -> (md_ord md = true -> ordt (v + 1) tf' /\ ordt (v + 1) tg') ->
     sat (rec f' g') s0 (postp P md H s0 (fun r => opb (evalt tf' r) (evalt tg' r)))) ->
  (forall r s', postp P md H s (fun x => opb (evalt tf x) (evalt tg x)) r s' -> sat (k r) s' Q) ->
  sat (shannon rec v (n_idx nf) (n_idx ng) f g k) s Q.
Proof.
  intros HP HI Hsf Hsg Hnf Hng Hlf Hhf Hlg Hhg tf tg Hv Hord Hrec Hk.
  assert (Hrf : repr (s_heap s) f tf) by (by constructor).
  assert (Hrg : repr (s_heap s) g tg) by (by constructor).
  pose proof (i_heap _ _ _ HI) as Hh.
  assert (Hvn : v < N.of_nat (length (s_vars s))).
  { destruct (ho_node _ _ _ Hh _ _ Hnf Hsf) as [? _]. destruct (ho_node _ _ _ Hh _ _ Hng Hsg) as [? _].
    destruct Hv; subst; done. }
  set (cp := fun b (p : ptr) (n : node) => if v =? n_idx n then (if b : bool then n_hi n else n_lo n) else p).
  assert (Hcf : forall b, repr (s_heap s) (cp b f nf) (cof v b tf)).
  { intros b. unfold cp, tf; simpl. destruct (v =? n_idx nf); [by destruct b|done]. }
  assert (Hcg : forall b, repr (s_heap s) (cp b g ng) (cof v b tg)).
  { intros b. unfold cp, tg; simpl. destruct (v =? n_idx ng); [by destruct b|done]. }
  assert (Hht : forall b, (ht (cof v b tf) + ht (cof v b tg) < ht tf + ht tg)%nat).
  { intros b. pose proof (ht_cof v b tf). pose proof (ht_cof v b tg).
    destruct Hv as [Hv|Hv].
    - pose proof (ht_cof_lt v b lf hf) as Hlt. unfold tf in *. rewrite <- Hv in *. lia.
    - pose proof (ht_cof_lt v b lg hg) as Hlt. unfold tg in *. rewrite <- Hv in *. lia. }
  assert (Hoo : md_ord md = true -> forall b, ordt (v + 1) (cof v b tf) /\ ordt (v + 1) (cof v b tg)).
  { intros Ho b. destruct (Hord Ho). split; apply cof_ordt.
    - pose proof (ho_ord _ _ _ Hh Ho _ _ Hrf) as Hx. unfold tf in *. simpl in *. naive_solver.
    - pose proof (ho_ord _ _ _ Hh Ho _ _ Hrg) as Hx. unfold tg in *. simpl in *. naive_solver. }
  unfold shannon.
  eapply sat_bind_ok; [eapply low_cof; eauto|].
  eapply sat_bind_ok; [eapply low_cof; eauto|].
  eapply sat_step; [apply (Hrec s _ _ _ _ HI (ext_refl s) (Hcf false) (Hcg false) (Hht false) (fun Ho => Hoo Ho false))|].
  intros r0 s1 (HI1&He1&t0&Hr0&Ht0).
  eapply sat_bind_ok; [apply assert_eq, negb_true_iff, N.eqb_neq; pose proof (repr_addr _ _ _ _ _ HI1 Hr0); lia|].
  destruct (proj1 He1 _ _ Hnf) as (nf1&Hnf1&Hc1&Hc2&Hc3&_). destruct (proj1 He1 _ _ Hng) as (ng1&Hng1&Hd1&Hd2&Hd3&_).
  assert (Hhi : forall p n n1 tl th, s_heap s1 !! p = Some n1 -> n_idx n = n_idx n1 -> n_hi n = n_hi n1 -> n_lo n = n_lo n1 ->
      repr (s_heap s) (n_lo n) tl -> repr (s_heap s) (n_hi n) th ->
      (if v =? n_idx n then high p else ret p) s1 = Ok (cp true p n) s1).
  { intros p n n1 tl th Hp Hi Hhi Hlo Htl Hth. unfold cp. rewrite Hi, Hhi.
    eapply high_cof; [exact HI1|exact Hp|rewrite <- Hlo|rewrite <- Hhi]; eapply repr_ext_s; eauto. }
  eapply sat_bind_ok; [eapply (Hhi f nf nf1); eauto|].
  eapply sat_bind_ok; [eapply (Hhi g ng ng1); eauto|].
  eapply sat_step; [apply (Hrec s1 _ _ _ _ HI1 He1 (repr_ext_s _ _ _ _ He1 (Hcf true)) (repr_ext_s _ _ _ _ He1 (Hcg true)) (Hht true) (fun Ho => Hoo Ho true))|].
  intros r1 s2 (HI2&He2&t1&Hr1&Ht1).
  eapply sat_bind_ok; [apply assert_eq, negb_true_iff, N.eqb_neq; pose proof (repr_addr _ _ _ _ _ HI2 Hr1); lia|].
  assert (He02 := ext_trans _ _ _ He1 He2).
  pose proof (repr_ext_s _ _ _ _ He2 Hr0) as Hr0'.
  eapply sat_step.
  { apply (unique_find_spec HE md H s2 v r0 r1 t0 t1); auto.
    - by rewrite (inv_nv_ext _ _ He02).
    - intros Ho. split.
      + apply (den_ordt md H s2 _ _ _ _ HI2 Ho Hr0' (Ht0 (HP Ho))). intros u r b Hu. simpl. destruct (Hoo Ho false) as [Ha Hb].
        rewrite (evalt_upd_lt _ _ _ _ _ Ha), (evalt_upd_lt _ _ _ _ _ Hb) by done. done.
      + apply (den_ordt md H s2 _ _ _ _ HI2 Ho Hr1 (Ht1 (HP Ho))). intros u r b Hu. simpl. destruct (Hoo Ho true) as [Ha Hb].
        rewrite (evalt_upd_lt _ _ _ _ _ Ha), (evalt_upd_lt _ _ _ _ _ Hb) by done. done. }
  intros r s3 Hu. apply Hk. eapply postp_trans; [exact He02|]. eapply postp_proper; [|by apply post_postp, uf_post_post].
  intros HPp x. cbv beta. rewrite (Ht0 HPp), (Ht1 HPp), (evalt_cof v tf x), (evalt_cof v tg x). by destruct (x v).
Qed.

(** ** negate *)
Lemma args2_spec (P : Prop) md H s (a b : M ptr) phi psi :
  (forall s0, Inv md H s0 -> ext s s0 -> sat a s0 (postp P md H s0 phi)) ->
  (forall s0, Inv md H s0 -> ext s s0 -> sat b s0 (postp P md H s0 psi)) ->
  Inv md H s ->
  sat (args2 a b) s (fun xy s' => Inv md H s' /\ ext s s' /\ denp P s' xy.1 phi /\ denp P s' xy.2 psi).
Proof.
  intros Ha Hb HI. unfold args2. destruct e_rtl.
  - eapply sat_step; [apply Hb; auto using ext_refl|]. intros y s1 (HI1&He1&Hd1).
    eapply sat_step; [apply Ha; auto|]. intros x s2 (HI2&He2&Hd2). apply sat_ret. simpl.
    split_and!; auto; [by eapply ext_trans|by eapply denp_ext].
  - eapply sat_step; [apply Ha; auto using ext_refl|]. intros y s1 (HI1&He1&Hd1).
    eapply sat_step; [apply Hb; auto|]. intros x s2 (HI2&He2&Hd2). apply sat_ret. simpl.
    split_and!; auto; [by eapply ext_trans|by eapply denp_ext].
Qed.

Lemma negate_fuel_spec md H fuel : forall s p t, Inv md H s -> repr (s_heap s) p t -> (ht t < fuel)%nat ->
  sat (negate_fuel fuel p) s (post md H s (fun r => negb (evalt t r))).
Proof.
  induction fuel as [|fuel IH]; intros s p t HI Hp Hf; [lia|]. simpl.
  eapply sat_bind_ok; [eapply is_botsink_eq; eauto|]. case_bool_decide as Hb.
  { subst. apply repr_bot_inv in Hp as ->. apply sat_ret, post_here; [done|]. apply den_top. }
  eapply sat_bind_ok; [eapply is_topsink_eq; eauto|]. case_bool_decide as Ht.
  { subst. apply repr_top_inv in Hp as ->. apply sat_ret, post_here; [done|]. apply den_bot. }
  assert (Hs : ~ sink p) by (unfold sink; tauto).
  destruct (repr_nonsink _ _ _ Hp Hs) as (n&tl&th&Hn&->&Hl&Hr). simpl in Hf.
  eapply sat_bind_ok; [by eapply variable_eq|]. eapply sat_bind_ok; [reflexivity|].
  pose proof (i_heap _ _ _ HI) as Hh. destruct (ho_node _ _ _ Hh _ _ Hn Hs) as [Hv _].
  eapply sat_bind_ok; [apply assert_eq; by apply N.ltb_lt|].
  eapply sat_step.
  { apply (args2_spec True md H s _ _ (fun r => negb (evalt tl r)) (fun r => negb (evalt th r))); auto.
    - intros s0 HI0 He0. destruct (proj1 He0 _ _ Hn) as (n0&Hn0&Hlo&Hhi&_).
      eapply sat_bind_ok; [eapply (low_eq md H s0 p n0 tl); eauto; rewrite <- Hlo; by eapply repr_ext_s|].
      rewrite <- Hlo. eapply sat_mono; [apply IH; auto; [by eapply repr_ext_s|lia]|intros ? ?; apply post_postp].
    - intros s0 HI0 He0. destruct (proj1 He0 _ _ Hn) as (n0&Hn0&Hlo&Hhi&_).
      eapply sat_bind_ok; [eapply (high_eq md H s0 p n0 th); eauto; rewrite <- Hhi; by eapply repr_ext_s|].
      rewrite <- Hhi. eapply sat_mono; [apply IH; auto; [by eapply repr_ext_s|lia]|intros ? ?; apply post_postp]. }
  intros [l h] s1 (HI1&He1&(t0&Hr0&Ht0')&(t1&Hr1&Ht1')). pose proof (Ht0' I) as Ht0. pose proof (Ht1' I) as Ht1. clear Ht0' Ht1'. simpl in *.
  eapply sat_mono.
  { apply (unique_find_spec HE md H s1 (n_idx n) l h t0 t1); auto.
    - by rewrite (inv_nv_ext _ _ He1).
    - intros Ho. pose proof (ho_ord _ _ _ Hh Ho _ _ Hp) as (_&Hol&Hoh). split.
      + apply (den_ordt md H s1 _ _ _ _ HI1 Ho Hr0 Ht0). intros u r b Hu. simpl. by rewrite (evalt_upd_lt _ _ _ _ _ Hol).
      + apply (den_ordt md H s1 _ _ _ _ HI1 Ho Hr1 Ht1). intros u r b Hu. simpl. by rewrite (evalt_upd_lt _ _ _ _ _ Hoh). }
  intros r s2 Hu. eapply post_trans; [exact He1|]. eapply post_proper; [|by apply uf_post_post].
  intros x. simpl. rewrite Ht0, Ht1. by destruct (x (n_idx n)).
Qed.

Lemma fuel_ht s p t : repr (s_heap s) p t -> (6 * ht t + 12 <= fuel_of s)%nat.
Proof. intros Hr. apply repr_ht in Hr. unfold fuel_of. lia. Qed.

Lemma negate_spec md H s p t : Inv md H s -> repr (s_heap s) p t ->
  sat (negate p) s (post md H s (fun r => negb (evalt t r))).
Proof.
  intros HI Hp. unfold negate, with_fuel, sat. apply negate_fuel_spec; auto. pose proof (fuel_ht _ _ _ Hp). lia.
Qed.

(** ** binary operations: swap and memo plumbing *)
Definition swp (f g : ptr) : nat := if g <? f then 1 else 0.
Lemma swp_le f g : (swp f g <= 1)%nat.
Proof. unfold swp. case_match; lia. Qed.
Lemma swp_swap f g : g < f -> (swp f g = 1 /\ swp g f = 0)%nat.
Proof. intros H. unfold swp. destruct (N.ltb_spec g f), (N.ltb_spec f g); lia. Qed.
(** [fu2]: [n] nested activations are enough for a binary operation: by height, or, if the
    diagrams are ordered, by the number of variables from [lb] on *)
Definition fu2 (md : mode) (s : mstate) (f g : ptr) (tf tg : bdd) (n : nat) : Prop :=
  (2 * (ht tf + ht tg) + swp f g < n)%nat \/
  (md_ord md = true /\ exists lb, ordt lb tf /\ ordt lb tg /\ (2 * (length (s_vars s) - N.to_nat lb) + swp f g < n)%nat).
Lemma fu2_0 md s f g tf tg : ~ fu2 md s f g tf tg 0.
Proof. intros [?|(_&lb&_&_&?)]; lia. Qed.
Lemma fu2_swap md s f g tf tg n : g < f -> fu2 md s f g tf tg (S n) -> fu2 md s g f tg tf n.
Proof. intros Hlt [?|(Ho&lb&?&?&?)]; destruct (swp_swap _ _ Hlt); [left; lia|right; split; [done|]; exists lb; split_and!; [done|done|lia]]. Qed.
Lemma fu2_cof md s s0 f g f' g' tf tg tf' tg' v n : fu2 md s f g tf tg (S n) -> length (s_vars s0) = length (s_vars s) ->
  (ht tf' + ht tg' < ht tf + ht tg)%nat -> (md_ord md = true -> ordt (v + 1) tf' /\ ordt (v + 1) tg') ->
  v < N.of_nat (length (s_vars s)) -> (forall lb, ordt lb tf -> ordt lb tg -> lb <= v) -> fu2 md s0 f' g' tf' tg' n.
Proof.
  intros Hfu Hl Hht Hoo Hv Hlb. pose proof (swp_le f' g') as Hs. destruct Hfu as [Hfu|(Ho&lb&H1&H2&Hfu)]; [left; lia|].
  right. split; [done|]. exists (v + 1). destruct (Hoo Ho). pose proof (Hlb _ H1 H2). split_and!; [done|done|]. rewrite Hl. lia.
Qed.

Lemma ext_memo s mc : ext s (set_s_memo mc s).
Proof. split; [apply hext_refl|done]. Qed.
Lemma den_memo s mc p phi : den s p phi -> den (set_s_memo mc s) p phi.
Proof. done. Qed.

Lemma insert_retp P md H s0 s r f g hh phi : Inv md H s -> ext s0 s -> denp P s r phi ->
  entry_ok md (length (s_vars s)) (s_heap s) (Memo f g hh r) ->
  sat (cache_insert f g hh r ;;* ret r) s (postp P md H s0 phi).
Proof.
  intros HI He Hd Hen. destruct (cache_insert_spec HE md H s f g hh r HI Hen) as (mc&Heq&HI').
  eapply sat_bind_ok; [exact Heq|]. apply sat_ret. split_and!; auto.
Qed.

Lemma insert_ret md H s0 s r f g hh phi : Inv md H s -> ext s0 s -> den s r phi ->
  entry_ok md (length (s_vars s)) (s_heap s) (Memo f g hh r) ->
  sat (cache_insert f g hh r ;;* ret r) s (post md H s0 phi).
Proof.
  intros. eapply sat_mono; [apply (insert_retp True); eauto using den_denp|]. intros ? ?. by apply postp_post.
Qed.

Lemma tags_ne : and_symb <> or_symb.
Proof. done. Qed.

Lemma and_fuel_spec_g md H fuel : forall s f g tf tg, Inv md H s -> repr (s_heap s) f tf -> repr (s_heap s) g tg ->
  fu2 md s f g tf tg fuel ->
  sat (and_fuel fuel f g) s (post md H s (fun r => evalt tf r && evalt tg r)).
Proof.
  induction fuel as [|fuel IH]; intros s f g tf tg HI Hf Hg Hfu; [by destruct (fu2_0 _ _ _ _ _ _ Hfu)|]. simpl.
  destruct (N.eqb_spec f g) as [->|Hfg].
  { rewrite (repr_fun _ _ _ _ Hf Hg). apply sat_ret, post_here; [done|]. exists tg. split; [done|].
    intros r. by destruct (evalt tg r). }
  destruct (N.ltb_spec g f) as [Hlt|Hge].
  { eapply sat_mono; [apply (IH s g f tg tf); auto|].
    - by apply fu2_swap.
    - intros p s'. apply post_proper. intros r. apply andb_comm. }
  destruct (N.eqb_spec f topsink) as [->|Hft].
  { apply repr_top_inv in Hf as ->. apply sat_ret, post_here; [done|]. by apply den_repr. }
  destruct (N.eqb_spec f botsink) as [->|Hfb].
  { apply repr_bot_inv in Hf as ->. apply sat_ret, post_here; [done|]. apply den_bot. }
  destruct (N.eqb_spec g topsink) as [->|Hgt].
  { apply repr_top_inv in Hg as ->. apply sat_ret, post_here; [done|]. exists tf. split; [done|]. simpl. intros. by rewrite andb_true_r. }
  destruct (N.eqb_spec g botsink) as [->|Hgb].
  { apply repr_bot_inv in Hg as ->. apply sat_ret, post_here; [done|]. exists (Leaf false). split; [constructor|]. simpl. intros. by rewrite andb_false_r. }
  destruct (cache_lookup_spec HE md H s f g and_symb tf tg HI Hf Hg) as (m&Hm&Hcase).
  eapply sat_bind_ok; [exact Hm|].
  destruct Hcase as [->|(Hm0&tf'&tg'&tr&Hf'&Hg'&Hr&Hsem&_)]; simpl.
  2:{ apply N.eqb_neq in Hm0. rewrite Hm0. simpl in *. rewrite (repr_fun _ _ _ _ Hf Hf'), (repr_fun _ _ _ _ Hg Hg').
      eapply sat_ok; [by eapply touch_repr|]. apply post_here; [done|]. exists tr. split; [done|]. by apply Hsem. }
  assert (Hsf : ~ sink f) by (unfold sink; tauto). assert (Hsg : ~ sink g) by (unfold sink; tauto).
  destruct (repr_nonsink _ _ _ Hf Hsf) as (nf&lf&hf&Hnf&->&Hlf&Hhf).
  destruct (repr_nonsink _ _ _ Hg Hsg) as (ng&lg&hg&Hng&->&Hlg&Hhg).
  pose proof (i_heap _ _ _ HI) as Hh.
  destruct (ho_node _ _ _ Hh _ _ Hnf Hsf) as [Hvf _]. destruct (ho_node _ _ _ Hh _ _ Hng Hsg) as [Hvg _].
  eapply sat_bind_ok; [by eapply variable_eq|]. eapply sat_bind_ok; [by eapply variable_eq|].
  destruct (lookup_lt_is_Some_2 (s_vars s) (N.to_nat (n_idx nf))) as [vf Hvf']; [lia|].
  destruct (lookup_lt_is_Some_2 (s_vars s) (N.to_nat (n_idx ng))) as [vg Hvg']; [lia|].
  eapply sat_bind_ok; [by apply getV_eq|]. eapply sat_bind_ok; [by apply getV_eq|].
  eapply (shannon_spec True md H s andb (and_fuel fuel) _ f g nf ng lf hf lg hg
    (fun r => assert_ (negb (r =? 0)) ;;* cache_insert f g and_symb r ;;* ret r)); auto.
  - destruct (n_idx nf <? n_idx ng); auto.
  - intros _. destruct (N.ltb_spec (n_idx nf) (n_idx ng)); lia.
  - intros s0 f' g' tf' tg' HI0 He0 Hf0 Hg0 Hlt Hoo. eapply sat_mono; [apply (IH s0 f' g' tf' tg'); auto|intros ? ?; apply post_postp].
    eapply (fu2_cof md s); [exact Hfu|exact (inv_nv_ext _ _ He0)|exact Hlt|exact Hoo|destruct (n_idx nf <? n_idx ng); done|].
    intros lb [? _] [? _]. by destruct (n_idx nf <? n_idx ng).
  - intros r s' (HI'&He'&t&Hr&Ht'). pose proof (Ht' I) as Ht.
    eapply sat_bind_ok; [apply assert_eq, negb_true_iff, N.eqb_neq; pose proof (repr_addr _ _ _ _ _ HI' Hr); lia|].
    apply insert_ret; auto; [by exists t|].
    eexists _, _, _. split_and!; simpl; [eapply repr_ext_s; eauto|eapply repr_ext_s; eauto|eauto| | |]; done.
Qed.

Lemma and_fuel_spec md H fuel : forall s f g tf tg, Inv md H s -> repr (s_heap s) f tf -> repr (s_heap s) g tg ->
  (2 * (ht tf + ht tg) + swp f g < fuel)%nat ->
  sat (and_fuel fuel f g) s (post md H s (fun r => evalt tf r && evalt tg r)).
Proof. intros. apply and_fuel_spec_g; auto. by left. Qed.

Lemma and_spec md H s f g tf tg : Inv md H s -> repr (s_heap s) f tf -> repr (s_heap s) g tg ->
  sat (and_rec f g) s (post md H s (fun r => evalt tf r && evalt tg r)).
Proof.
  intros HI Hf Hg. unfold and_rec, with_fuel, sat. apply and_fuel_spec; auto.
  pose proof (fuel_ht _ _ _ Hf). pose proof (fuel_ht _ _ _ Hg). unfold swp. case_match; lia.
Qed.

Lemma or_fuel_spec_g md H fuel : md_or md = true -> forall s f g tf tg, Inv md H s -> repr (s_heap s) f tf -> repr (s_heap s) g tg ->
  fu2 md s f g tf tg fuel ->
  sat (or_fuel fuel f g) s (postp (md_xor md = false) md H s (fun r => evalt tf r || evalt tg r)).
Proof.
  intros Hmd. induction fuel as [|fuel IH]; intros s f g tf tg HI Hf Hg Hfu; [by destruct (fu2_0 _ _ _ _ _ _ Hfu)|]. simpl.
  destruct (N.eqb_spec f g) as [->|Hfg].
  { rewrite (repr_fun _ _ _ _ Hf Hg). apply sat_ret, postp_here; [done|]. apply den_denp. exists tg. split; [done|].
    intros r. by destruct (evalt tg r). }
  destruct (N.ltb_spec g f) as [Hlt|Hge].
  { eapply sat_mono; [apply (IH s g f tg tf); auto|].
    - by apply fu2_swap.
    - intros p s'. apply postp_proper. intros _ r. apply orb_comm. }
  destruct (N.eqb_spec f topsink) as [->|Hft].
  { apply repr_top_inv in Hf as ->. apply sat_ret, postp_here; [done|]. apply den_denp, den_top. }
  destruct (N.eqb_spec f botsink) as [->|Hfb].
  { apply repr_bot_inv in Hf as ->. apply sat_ret, postp_here; [done|]. by apply den_denp, den_repr. }
  destruct (N.eqb_spec g topsink) as [->|Hgt].
  { apply repr_top_inv in Hg as ->. apply sat_ret, postp_here; [done|]. apply den_denp. exists (Leaf true). split; [constructor|]. simpl. intros. by rewrite orb_true_r. }
  destruct (N.eqb_spec g botsink) as [->|Hgb].
  { apply repr_bot_inv in Hg as ->. apply sat_ret, postp_here; [done|]. apply den_denp. exists tf. split; [done|]. simpl. intros. by rewrite orb_false_r. }
  destruct (cache_lookup_spec HE md H s f g or_symb tf tg HI Hf Hg) as (m&Hm&Hcase).
  eapply sat_bind_ok; [exact Hm|].
  destruct Hcase as [->|(Hm0&tf'&tg'&tr&Hf'&Hg'&Hr&_&Hsem&_)]; simpl.
  2:{ apply N.eqb_neq in Hm0. rewrite Hm0. simpl in *. rewrite (repr_fun _ _ _ _ Hf Hf'), (repr_fun _ _ _ _ Hg Hg').
      eapply sat_ok; [by eapply touch_repr|]. apply postp_here; [done|]. exists tr. split; [done|].
      intros Hx r. by apply Hsem. }
  assert (Hsf : ~ sink f) by (unfold sink; tauto). assert (Hsg : ~ sink g) by (unfold sink; tauto).
  destruct (repr_nonsink _ _ _ Hf Hsf) as (nf&lf&hf&Hnf&->&Hlf&Hhf).
  destruct (repr_nonsink _ _ _ Hg Hsg) as (ng&lg&hg&Hng&->&Hlg&Hhg).
  pose proof (i_heap _ _ _ HI) as Hh.
  destruct (ho_node _ _ _ Hh _ _ Hnf Hsf) as [Hvf _]. destruct (ho_node _ _ _ Hh _ _ Hng Hsg) as [Hvg _].
  eapply sat_bind_ok; [by eapply variable_eq|]. eapply sat_bind_ok; [by eapply variable_eq|].
  destruct (lookup_lt_is_Some_2 (s_vars s) (N.to_nat (n_idx nf))) as [vf Hvf']; [lia|].
  destruct (lookup_lt_is_Some_2 (s_vars s) (N.to_nat (n_idx ng))) as [vg Hvg']; [lia|].
  eapply sat_bind_ok; [by apply getV_eq|]. eapply sat_bind_ok; [by apply getV_eq|].
  eapply (shannon_spec (md_xor md = false) md H s orb (or_fuel fuel) _ f g nf ng lf hf lg hg
    (fun r => (if negb (r =? 0) then cache_insert f g or_symb r else ret tt) ;;* ret r)); auto.
  - by destruct md.
  - destruct (n_idx nf <? n_idx ng); auto.
  - intros _. destruct (N.ltb_spec (n_idx nf) (n_idx ng)); lia.
  - intros s0 f' g' tf' tg' HI0 He0 Hf0 Hg0 Hlt Hoo. apply IH; auto. eapply (fu2_cof md s); [exact Hfu|exact (inv_nv_ext _ _ He0)|exact Hlt|exact Hoo|destruct (n_idx nf <? n_idx ng); done|].
    intros lb [? _] [? _]. by destruct (n_idx nf <? n_idx ng).
  - intros r s' (HI'&He'&t&Hr&Ht).
    assert (r =? 0 = false) as -> by (apply N.eqb_neq; pose proof (repr_addr _ _ _ _ _ HI' Hr); lia).
    simpl negb. cbv iota.
    apply insert_retp; auto; [by exists t|].
    eexists _, _, _. split_and!; simpl; [eapply repr_ext_s; eauto|eapply repr_ext_s; eauto|eauto| | |]; try done.
    intros _ x. split; [intros Hx; by apply Ht|]. by rewrite Hmd.
Qed.

Lemma or_fuel_spec md H fuel : md_or md = true -> forall s f g tf tg, Inv md H s -> repr (s_heap s) f tf -> repr (s_heap s) g tg ->
  (2 * (ht tf + ht tg) + swp f g < fuel)%nat ->
  sat (or_fuel fuel f g) s (postp (md_xor md = false) md H s (fun r => evalt tf r || evalt tg r)).
Proof. intros. apply or_fuel_spec_g; auto. by left. Qed.

Lemma or_spec md H s f g tf tg : md_or md = true -> Inv md H s -> repr (s_heap s) f tf -> repr (s_heap s) g tg ->
  sat (or_rec f g) s (postp (md_xor md = false) md H s (fun r => evalt tf r || evalt tg r)).
Proof.
  intros Hmd HI Hf Hg. unfold or_rec, with_fuel, sat. apply or_fuel_spec; auto.
  pose proof (fuel_ht _ _ _ Hf). pose proof (fuel_ht _ _ _ Hg). unfold swp. case_match; lia.
Qed.

(** xor with a constant does not touch the cache and keeps the order *)
Lemma xor_sink_spec md H fuel : forall s f g tf tg, Inv md H s -> repr (s_heap s) f tf -> repr (s_heap s) g tg ->
  sink f \/ sink g \/ f = g -> (swp f g < fuel)%nat ->
  sat (xor_fuel fuel f g) s (post md H s (fun r => xorb (evalt tf r) (evalt tg r))).
Proof.
  induction fuel as [|fuel IH]; intros s f g tf tg HI Hf Hg Hs Hfu; [lia|]. simpl. unfold swp in Hfu.
  destruct (N.eqb_spec f g) as [->|Hfg].
  { rewrite (repr_fun _ _ _ _ Hf Hg). apply sat_ret, post_here; [done|].
    eapply den_proper; [|apply den_bot]. intros r. by rewrite xorb_nilpotent. }
  destruct (N.ltb_spec g f) as [Hlt|Hge].
  { eapply sat_mono; [apply (IH s g f tg tf); auto|].
    - naive_solver.
    - unfold swp. destruct (N.ltb_spec f g); lia.
    - intros p s'. apply post_proper. intros r. apply xorb_comm. }
  destruct (N.eqb_spec f botsink) as [->|Hfb].
  { apply repr_bot_inv in Hf as ->. apply sat_ret, post_here; [done|]. exists tg. split; [done|]. intros r. simpl. by destruct (evalt tg r). }
  destruct (N.eqb_spec g botsink) as [->|Hgb].
  { apply repr_bot_inv in Hg as ->. apply sat_ret, post_here; [done|]. exists tf. split; [done|]. intros. simpl. by rewrite xorb_false_r. }
  destruct (N.eqb_spec f topsink) as [->|Hft].
  { apply repr_top_inv in Hf as ->. eapply sat_mono; [by apply negate_spec|]. intros p s'. apply post_proper. intros r. done. }
  destruct (N.eqb_spec g topsink) as [->|Hgt].
  { apply repr_top_inv in Hg as ->. eapply sat_mono; [by apply negate_spec|]. intros p s'. apply post_proper. intros r. simpl. by rewrite xorb_true_r. }
  exfalso. unfold sink in *. tauto.
Qed.

Lemma xor_fuel_spec md H fuel : md_xor md = true ->
  forall s f g tf tg, Inv md H s -> repr (s_heap s) f tf -> repr (s_heap s) g tg ->
  (2 * (ht tf + ht tg) + swp f g < fuel)%nat ->
  sat (xor_fuel fuel f g) s (postp (md_or md = false) md H s (fun r => xorb (evalt tf r) (evalt tg r))).
Proof.
  intros Hmd. induction fuel as [|fuel IH]; intros s f g tf tg HI Hf Hg Hfu; [lia|].
  destruct (decide (sink f \/ sink g \/ f = g)) as [Hc|Hc].
  { eapply sat_mono; [apply (xor_sink_spec md H (S fuel) s f g tf tg); auto; lia|]. intros ? ?. apply post_postp. }
  simpl. unfold swp in Hfu. unfold sink in Hc.
  destruct (N.eqb_spec f g) as [->|Hfg]; [tauto|].
  destruct (N.ltb_spec g f) as [Hlt|Hge].
  { eapply sat_mono; [apply (IH s g f tg tf); auto|].
    - unfold swp. destruct (N.ltb_spec f g); lia.
    - intros p s'. apply postp_proper. intros _ r. apply xorb_comm. }
  destruct (N.eqb_spec f botsink) as [->|Hfb]; [tauto|].
  destruct (N.eqb_spec g botsink) as [->|Hgb]; [tauto|].
  destruct (N.eqb_spec f topsink) as [->|Hft]; [tauto|].
  destruct (N.eqb_spec g topsink) as [->|Hgt]; [tauto|].
  destruct (cache_lookup_spec HE md H s f g xor_symb tf tg HI Hf Hg) as (m&Hm&Hcase).
  eapply sat_bind_ok; [exact Hm|].
  destruct Hcase as [->|(Hm0&tf'&tg'&tr&Hf'&Hg'&Hr&_&Hsem&_)]; simpl.
  2:{ apply N.eqb_neq in Hm0. rewrite Hm0. simpl in *. rewrite (repr_fun _ _ _ _ Hf Hf'), (repr_fun _ _ _ _ Hg Hg').
      eapply sat_ok; [by eapply touch_repr|]. apply postp_here; [done|]. exists tr. split; [done|].
      intros Hx r. by apply Hsem. }
  assert (Hsf : ~ sink f) by (unfold sink; tauto). assert (Hsg : ~ sink g) by (unfold sink; tauto).
  destruct (repr_nonsink _ _ _ Hf Hsf) as (nf&lf&hf&Hnf&->&Hlf&Hhf).
  destruct (repr_nonsink _ _ _ Hg Hsg) as (ng&lg&hg&Hng&->&Hlg&Hhg).
  pose proof (i_heap _ _ _ HI) as Hh.
  destruct (ho_node _ _ _ Hh _ _ Hnf Hsf) as [Hvf _]. destruct (ho_node _ _ _ Hh _ _ Hng Hsg) as [Hvg _].
  eapply sat_bind_ok; [reflexivity|].
  eapply sat_bind_ok; [by eapply variable_eq|].
  eapply sat_bind_ok; [apply assert_eq; by apply N.ltb_lt|].
  eapply sat_bind_ok; [by eapply variable_eq|].
  eapply sat_bind_ok; [apply assert_eq; by apply N.ltb_lt|].
  destruct (lookup_lt_is_Some_2 (s_vars s) (N.to_nat (n_idx nf))) as [vf Hvf']; [lia|].
  destruct (lookup_lt_is_Some_2 (s_vars s) (N.to_nat (n_idx ng))) as [vg Hvg']; [lia|].
  eapply sat_bind_ok; [by apply getV_eq|]. eapply sat_bind_ok; [by apply getV_eq|].
  eapply (shannon_spec (md_or md = false) md H s xorb (xor_fuel fuel) _ f g nf ng lf hf lg hg
    (fun r => (if negb (r =? 0) then cache_insert f g xor_symb r else ret tt) ;;* ret r)); auto.
  - by destruct md.
  - destruct (n_idx ng <? n_idx nf); auto.
  - by destruct md.
  - intros s0 f' g' tf' tg' HI0 He0 Hf0 Hg0 Hlt _. apply IH; auto. unfold swp. simpl in *. case_match; lia.
  - intros r s' (HI'&He'&t&Hr&Ht).
    assert (r =? 0 = false) as -> by (apply N.eqb_neq; pose proof (repr_addr _ _ _ _ _ HI' Hr); lia).
    simpl negb. cbv iota.
    apply insert_retp; auto; [by exists t|].
    eexists _, _, _. split_and!; simpl; [eapply repr_ext_s; eauto|eapply repr_ext_s; eauto|eauto| | |]; try done.
    intros _ x. split; [by rewrite Hmd|]. intros Hx. by apply Ht.
Qed.

Lemma xor_spec md H s f g tf tg : md_xor md = true -> Inv md H s ->
  repr (s_heap s) f tf -> repr (s_heap s) g tg ->
  sat (xor_rec f g) s (postp (md_or md = false) md H s (fun r => xorb (evalt tf r) (evalt tg r))).
Proof.
  intros Hmd HI Hf Hg. unfold xor_rec, with_fuel, sat. apply xor_fuel_spec; auto.
  pose proof (fuel_ht _ _ _ Hf). pose proof (fuel_ht _ _ _ Hg). unfold swp. case_match; lia.
Qed.
Lemma xor_top_spec md H s g tg : Inv md H s -> repr (s_heap s) g tg ->
  sat (xor_rec topsink g) s (post md H s (fun r => negb (evalt tg r))).
Proof.
  intros HI Hg. unfold xor_rec, with_fuel. unfold sat. 
  eapply (sat_mono (xor_fuel (fuel_of s) topsink g)).
  - eapply (xor_sink_spec md H (fuel_of s) s topsink g (Leaf true) tg); auto; [constructor|unfold sink; auto|].
    unfold swp, fuel_of. case_match; lia.
  - intros p s'. apply post_proper. done.
Qed.
End ops.
