(** * Inv.v -- the invariant of a manager state *)
From Verif Require Export Probe.
Open Scope N_scope.

#[global] Arguments N.mul : simpl never.
#[global] Arguments N.add : simpl never.
#[global] Arguments N.sub : simpl never.
#[global] Arguments N.div : simpl never.
#[global] Arguments N.modulo : simpl never.
#[global] Arguments N.pow : simpl never.
#[global] Arguments N.land : simpl never.
#[global] Arguments N.lxor : simpl never.
#[global] Arguments N.ones : simpl never.
#[global] Arguments N.of_nat : simpl never.
#[global] Arguments N.to_nat : simpl never.

Section inv.
Context {E : Env}.

Definition var_nodes (h : heap) (v : N) (p : ptr) : Prop :=
  ~ sink p /\ exists n, h !! p = Some n /\ n_idx n = v.

Definition tab_ok (h : heap) (v : N) (t : vtab) : Prop :=
  exists k, vt_shape k t /\ k <= 19 /\
    ptab h k (pg_slots (vt_page t)) (var_nodes h v) /\
    vt_free t = N.of_nat (zeros k (pg_slots (vt_page t))) /\
    (2 * (tsize k - zeros k (pg_slots (vt_page t))) <= tsize k + 2)%nat /\
    (2 ^ k <= pg_cap (vt_page t)) /\
    (6 < k -> (tsize k < 4 * (tsize k - zeros k (pg_slots (vt_page t))))%nat) /\
    N.of_nat (length (pg_slots (vt_page t))) <= 524288.

(** the meaning of the memo tag shared by or and xor; none when a history may use both *)
Definition tag_ok (md : mode) (a b c : bool) : Prop :=
  (md_xor md = false -> c = a || b) /\ (md_or md = false -> c = xorb a b).

(** the combinations on the last variable that ite_rec does not survive: f restricted to it is
    not constant, and the branches restrict to (false, not f) or (not f, true) *)
Definition ite_bad (last : N) (f g h : bfun) (r : asgn) : Prop :=
  let r0 := upd r last false in let r1 := upd r last true in
  f r0 <> f r1 /\
  ((g r0 = false /\ g r1 = false /\ h r0 = negb (f r0) /\ h r1 = negb (f r1)) \/
   (g r0 = negb (f r0) /\ g r1 = negb (f r1) /\ h r0 = true /\ h r1 = true)).
Definition ite_safe last f g h := forall r, ~ ite_bad last f g h r.

Definition entry_ok (md : mode) (nv : nat) (h : heap) (m : memo) : Prop :=
  exists tf tg tr, repr h (m_f m) tf /\ repr h (m_g m) tg /\ repr h (m_r m) tr /\
    (m_h m = and_symb -> forall r, evalt tr r = evalt tf r && evalt tg r) /\
    (m_h m = or_symb -> forall r, tag_ok md (evalt tf r) (evalt tg r) (evalt tr r)) /\
    (m_h m <> and_symb -> m_h m <> or_symb ->
       exists th, repr h (m_h m) th /\ (md_xor md = false -> forall r, evalt tr r = if evalt tf r then evalt tg r else evalt th r) /\
         (md_ord md = true -> ite_safe (N.of_nat nv - 1) (evalt tf) (evalt tg) (evalt th))).
Definition memo_ok (md : mode) (nv : nat) (h : heap) (mc : mcache) : Prop :=
  mc_mask mc + 1 = N.of_nat (length (mc_tab mc)) /\
  forall m, m ∈ mc_tab mc -> m_r m <> 0 -> entry_ok md nv h m.

(** addresses handed out so far *)
Definition allocd (nc : ncache) (p : ptr) : Prop :=
  exists i j, p = e_page i + node_size * j /\
   ((S i < nc_npages nc)%nat /\ j < node_page_size \/
    S i = nc_npages nc /\ e_page i + node_size * j < nc_ptr nc).
Definition nc_ok (h : heap) (nc : ncache) : Prop :=
  (1 <= nc_npages nc)%nat /\ nc_base nc = e_page (nc_npages nc - 1) /\
  (exists k, k <= node_page_size /\ nc_ptr nc = nc_base nc + node_size * k) /\
  nc_avail nc = 0 /\ nc_total nc = N.of_nat (size h) /\
  forall p, p ∈ dom h -> allocd nc p.

(** the pages of the tables and the available pages: pairwise disjoint, none lost *)
Definition pids (vs : list vtab) : list pgid := map (fun t => pg_id (vt_page t)) vs.
Record pg_ok (pcs : pcaches) (ids : list pgid) : Prop := {
  pg_tt : forall (i j : nat) (x y : pgid), ids !! i = Some x -> ids !! j = Some y -> i <> j -> pg_apart x y;
  pg_tf : forall x c y, x ∈ ids -> y ∈ avail c pcs -> pg_apart x y;
  pg_ff : forall c c' x y, x ∈ avail c pcs -> y ∈ avail c' pcs -> c = c' /\ x = y \/ pg_apart x y;
  pg_nd : forall c, NoDup (avail c pcs);
  pg_capok : forall c x, x ∈ avail c pcs -> c <= pi_cap x;
  pg_in : forall x, (x ∈ ids \/ exists c, x ∈ avail c pcs) -> 0 < pi_cap x /\ (pi_blk x < pc_blk pcs)%nat /\ pi_off x + pi_cap x <= 1048576;
  pg_all : forall b, (b < pc_blk pcs)%nat -> exists cls, 0 < cls <= 1048576 /\
     forall i, i < nr_simul cls -> PgId cls b (i * cls) ∈ ids \/ exists c, PgId cls b (i * cls) ∈ avail c pcs
}.

(** reference counts: [H p] handles, plus arcs, plus one for the constants *)
Definition xref_ok (H : ptr -> Z) (h : heap) : Prop :=
  forall p n, h !! p = Some n -> n_xref n = (H p + refs h p + if decide (sink p) then 1 else 0)%Z.

Definition sink_ok (h : heap) : Prop :=
  (exists x, h !! botsink = Some (Node e_mgr e_mgr botsink_index e_botkey e_botmark x)) /\
  (exists x, h !! topsink = Some (Node e_mgr e_mgr topsink_index e_topkey e_topmark x)).

Record heap_ok (md : mode) (nv : nat) (h : heap) : Prop := {
  ho_sink : sink_ok h;
  ho_node : forall p n, h !! p = Some n -> ~ sink p ->
     n_idx n < N.of_nat nv /\ n_lo n <> n_hi n /\ n_mark n = false /\ exists t, repr h p t;
  ho_uniq : forall p q n m, ~ sink p -> ~ sink q -> h !! p = Some n -> h !! q = Some m ->
     n_idx n = n_idx m -> n_lo n = n_lo m -> n_hi n = n_hi m -> p = q;
  ho_ord : md_ord md = true -> forall p t, repr h p t -> ordt 0 t
}.

Record Inv (md : mode) (H : ptr -> Z) (s : mstate) : Prop := {
  i_heap : heap_ok md (length (s_vars s)) (s_heap s);
  i_nv : N.of_nat (length (s_vars s)) <= topsink_index;
  i_tab : forall v t, s_vars s !! v = Some t -> tab_ok (s_heap s) (N.of_nat v) t;
  i_memo : memo_ok md (length (s_vars s)) (s_heap s) (s_memo s);
  i_nc : nc_ok (s_heap s) (s_nc s);
  i_pcs : pg_ok (s_pcs s) (pids (s_vars s));
  i_xref : xref_ok H (s_heap s);
  i_H : forall p, (0 <= H p)%Z;
  i_Hdom : forall p, H p <> 0%Z -> p ∈ dom (s_heap s)
}.

(** what operations may do to the state *)
Definition ext (s s' : mstate) : Prop :=
  hext (s_heap s) (s_heap s') /\ length (s_vars s) = length (s_vars s').
Lemma ext_refl s : ext s s.
Proof. split; [apply hext_refl|done]. Qed.
Lemma ext_trans a b c : ext a b -> ext b c -> ext a c.
Proof. intros [H1 H2] [H3 H4]. split; [by eapply hext_trans|lia]. Qed.

(** ** consequences *)
Lemma sink_not_node h md nv p n : heap_ok md nv h -> N.of_nat nv <= topsink_index ->
  h !! p = Some n -> (sink p <-> (n_idx n = botsink_index \/ n_idx n = topsink_index)).
Proof.
  intros Hh Hnv Hp. destruct (ho_sink _ _ _ Hh) as [[x Hb] [y Ht]]. split.
  - intros [->| ->]; simplify_eq; simpl; auto.
  - intros Hi. destruct (decide (sink p)) as [|Hns]; [done|].
    destruct (ho_node _ _ _ Hh p n Hp Hns) as (Hlt&_). unfold botsink_index, topsink_index in *. lia.
Qed.

Lemma repr_in h p t md nv : heap_ok md nv h -> repr h p t -> exists n, h !! p = Some n.
Proof.
  intros Hh Hr. destruct (ho_sink _ _ _ Hh) as [[x Hb] [y Ht]].
  inversion Hr; subst; eauto.
Qed.

Lemma repr_inj md nv h : heap_ok md nv h -> forall t p q, repr h p t -> repr h q t -> p = q.
Proof.
  intros Hh. induction t as [b|v tl IHl th IHh]; intros p q Hp Hq.
  - apply repr_leaf_inv in Hp, Hq. congruence.
  - apply repr_br_inv in Hp as (Hsp&n&Hn&Hv&Hnl&Hnh). apply repr_br_inv in Hq as (Hsq&m&Hm&Hv'&Hml&Hmh).
    eapply (ho_uniq _ _ _ Hh p q n m); eauto. congruence.
Qed.

Lemma repr_redt md nv h p t : heap_ok md nv h -> repr h p t -> redt t.
Proof.
  intros Hh. induction 1 as [| |p n tl th Hs Hp Hl IHl Hr IHr]; simpl; auto.
  split_and!; auto. intros ->. destruct (ho_node _ _ _ Hh p n Hp Hs) as (_&Hne&_). apply Hne.
  eapply repr_inj; eauto.
Qed.

Lemma repr_occurs md nv h p t u : heap_ok md nv h -> repr h p t -> occurs u t -> u < N.of_nat nv.
Proof.
  intros Hh. induction 1 as [| |p n tl th Hs Hp Hl IHl Hr IHr]; simpl; try done.
  intros [->|[?|?]]; auto. by destruct (ho_node _ _ _ Hh p n Hp Hs).
Qed.

(** functions decide equality of addresses when nodes are ordered *)
Lemma repr_canon md nv h p q t t' : heap_ok md nv h -> md_ord md = true ->
  repr h p t -> repr h q t' -> (forall r, evalt t r = evalt t' r) -> p = q.
Proof.
  intros Hh Ho Hp Hq He.
  assert (t = t') as <-.
  { apply canon; auto; [eapply ho_ord| |eapply repr_redt|eapply repr_redt]; eauto. eapply ho_ord; eauto. }
  eapply repr_inj; eauto.
Qed.

Lemma entry_ok_ext md nv h h' m : hext h h' -> entry_ok md nv h m -> entry_ok md nv h' m.
Proof.
  intros He (tf&tg&tr&?&?&?&Ha&Ho&Hi). exists tf, tg, tr. split_and!; eauto using repr_ext.
  intros G1 G2. destruct (Hi G1 G2) as (th&?&?&?). eauto 6 using repr_ext.
Qed.
Lemma memo_ok_ext md nv h h' mc : hext h h' -> memo_ok md nv h mc -> memo_ok md nv h' mc.
Proof. intros He [? Hm]. split; [done|]. eauto using entry_ok_ext. Qed.

(** addresses of nodes are never null and never memo tags *)
Lemma node_addr (HE : env_ok E) h nc p : nc_ok h nc -> p ∈ dom h -> 4096 <= p.
Proof.
  intros (_&_&_&_&_&Ha) Hp. destruct (Ha p Hp) as (i&j&->&_).
  destruct HE as (Hlo&_). specialize (Hlo i). lia.
Qed.
Lemma inv_addr (HE : env_ok E) md H s p n : Inv md H s -> s_heap s !! p = Some n -> 4096 <= p.
Proof. intros HI Hp. eapply node_addr; [done|apply HI|]. by apply elem_of_dom_2 in Hp. Qed.
Lemma inv_repr_addr (HE : env_ok E) md H s p t : Inv md H s -> repr (s_heap s) p t -> 4096 <= p.
Proof. intros HI Hr. destruct (repr_in _ _ _ _ _ (i_heap _ _ _ HI) Hr) as [n Hn]. by eapply inv_addr. Qed.

Lemma inv_xref_nonneg md H s p n : Inv md H s -> s_heap s !! p = Some n -> (0 <= n_xref n)%Z.
Proof.
  intros HI Hp. rewrite (i_xref _ _ _ HI p n Hp).
  pose proof (i_H _ _ _ HI p). pose proof (refs_nonneg (s_heap s) p). case_decide; lia.
Qed.

(** computation rules *)
Lemma getN_eq s p n : s_heap s !! p = Some n -> getN p s = Ok n s.
Proof. intros H. unfold getN. by rewrite H. Qed.
Lemma getV_eq s v t : s_vars s !! N.to_nat v = Some t -> getV v s = Ok t s.
Proof. intros H. unfold getV. by rewrite H. Qed.
Lemma liftR_eq {A} (r : R A) a s : r = inr a -> liftR r s = Ok a s.
Proof. intros ->. done. Qed.
Lemma assert_eq b s : b = true -> assert_ b s = Ok tt s.
Proof. intros ->. done. Qed.
Lemma bind_eq {A B} (m : M A) (k : A -> M B) s a s' : m s = Ok a s' -> bind m k s = k a s'.
Proof. unfold bind. by intros ->. Qed.
Lemma sat_bind_ok {A B} (m : M A) (k : A -> M B) s a s' Q : m s = Ok a s' -> sat (k a) s' Q -> sat (bind m k) s Q.
Proof. intros H. unfold sat, bind. by rewrite H. Qed.
Lemma sat_ok {A} (m : M A) s a s' (Q : A -> mstate -> Prop) : m s = Ok a s' -> Q a s' -> sat m s Q.
Proof. intros H. unfold sat. by rewrite H. Qed.

Lemma inv_sinks md H s : Inv md H s -> exists a b,
  s_heap s !! botsink = Some a /\ s_heap s !! topsink = Some b /\
  n_idx a = botsink_index /\ n_idx b = topsink_index /\ n_lo a = e_mgr /\ n_hi a = e_mgr /\
  n_lo b = e_mgr /\ n_hi b = e_mgr.
Proof.
  intros HI. destruct (ho_sink _ _ _ (i_heap _ _ _ HI)) as [[x Hb] [y Ht]]. eauto 20.
Qed.

(** is_botsink and friends, in a good state *)
Lemma is_botsink_eq md H s p t : Inv md H s -> repr (s_heap s) p t ->
  is_botsink p s = Ok (bool_decide (p = botsink)) s.
Proof.
  intros HI Hr. pose proof (i_heap _ _ _ HI) as Hh.
  destruct (repr_in _ _ _ _ _ Hh Hr) as [n Hn]. unfold is_botsink.
  rewrite (bind_eq _ _ _ _ _ (getN_eq _ _ _ Hn)).
  destruct (inv_sinks _ _ _ HI) as (a&b&Ha&Hb&Hia&Hib&Hla&Hha&Hlb&Hhb).
  destruct (decide (sink p)) as [[->| ->]|Hns].
  - simplify_eq. rewrite Hia, Hla, Hha. rewrite N.eqb_refl, orb_true_r, N.eqb_refl. simpl.
    by rewrite bool_decide_eq_true_2.
  - simplify_eq. rewrite Hib, Hlb, Hhb. rewrite !N.eqb_refl. simpl.
    rewrite bool_decide_eq_false_2; [done|]. intros Heq. by apply bot_neq_top.
  - destruct (ho_node _ _ _ Hh p n Hn Hns) as (Hlt&Hne&_). pose proof (i_nv _ _ _ HI) as Hnv.
    assert (n_idx n =? topsink_index = false) as -> by (apply N.eqb_neq; lia).
    assert (n_idx n =? botsink_index = false) as -> by (apply N.eqb_neq; unfold botsink_index, topsink_index in *; lia).
    apply N.eqb_neq in Hne. rewrite Hne. simpl. rewrite bool_decide_eq_false_2; [done|].
    intros ->. apply Hns. by left.
Qed.
Lemma is_topsink_eq md H s p t : Inv md H s -> repr (s_heap s) p t ->
  is_topsink p s = Ok (bool_decide (p = topsink)) s.
Proof.
  intros HI Hr. pose proof (i_heap _ _ _ HI) as Hh.
  destruct (repr_in _ _ _ _ _ Hh Hr) as [n Hn]. unfold is_topsink.
  rewrite (bind_eq _ _ _ _ _ (getN_eq _ _ _ Hn)).
  destruct (inv_sinks _ _ _ HI) as (a&b&Ha&Hb&Hia&Hib&Hla&Hha&Hlb&Hhb).
  destruct (decide (sink p)) as [[->| ->]|Hns].
  - simplify_eq. rewrite Hia, Hla, Hha. rewrite N.eqb_refl, orb_true_r, N.eqb_refl. simpl.
    rewrite bool_decide_eq_false_2; [done|]. intros Heq. by apply bot_neq_top.
  - simplify_eq. rewrite Hib, Hlb, Hhb. rewrite !N.eqb_refl. simpl.
    by rewrite bool_decide_eq_true_2.
  - destruct (ho_node _ _ _ Hh p n Hn Hns) as (Hlt&Hne&_). pose proof (i_nv _ _ _ HI) as Hnv.
    assert (n_idx n =? topsink_index = false) as -> by (apply N.eqb_neq; lia).
    assert (n_idx n =? botsink_index = false) as -> by (apply N.eqb_neq; unfold botsink_index, topsink_index in *; lia).
    apply N.eqb_neq in Hne. rewrite Hne. simpl. rewrite bool_decide_eq_false_2; [done|].
    intros ->. apply Hns. by right.
Qed.
Lemma is_terminal_eq md H s p t : Inv md H s -> repr (s_heap s) p t ->
  is_terminal p s = Ok (bool_decide (sink p)) s.
Proof.
  intros HI Hr. unfold is_terminal. rewrite (bind_eq _ _ _ _ _ (is_topsink_eq _ _ _ _ _ HI Hr)).
  case_bool_decide.
  - rewrite bool_decide_eq_true_2; [done|]. by right.
  - rewrite (is_botsink_eq _ _ _ _ _ HI Hr). f_equal. apply bool_decide_ext. unfold sink. tauto.
Qed.

Lemma touch_eq s p n : s_heap s !! p = Some n -> touch p s = Ok p s.
Proof.
  intros Hp. unfold touch. destruct (N.eqb_spec p 0) as [->|]; [done|].
  by rewrite (bind_eq _ _ _ _ _ (getN_eq _ _ _ Hp)).
Qed.
Lemma touch_repr md H s p t : Inv md H s -> repr (s_heap s) p t -> touch p s = Ok p s.
Proof. intros HI Hr. destruct (repr_in _ _ _ _ _ (i_heap _ _ _ HI) Hr). by eapply touch_eq. Qed.
Lemma low_eq md H s p n t : Inv md H s -> s_heap s !! p = Some n -> repr (s_heap s) (n_lo n) t ->
  low p s = Ok (n_lo n) s.
Proof. intros HI Hn Hr. unfold low. rewrite (bind_eq _ _ _ _ _ (getN_eq _ _ _ Hn)). by eapply touch_repr. Qed.
Lemma high_eq md H s p n t : Inv md H s -> s_heap s !! p = Some n -> repr (s_heap s) (n_hi n) t ->
  high p s = Ok (n_hi n) s.
Proof. intros HI Hn Hr. unfold high. rewrite (bind_eq _ _ _ _ _ (getN_eq _ _ _ Hn)). by eapply touch_repr. Qed.
Lemma variable_eq s p n : s_heap s !! p = Some n -> variable p s = Ok (n_idx n) s.
Proof. intros Hn. unfold variable. by rewrite (bind_eq _ _ _ _ _ (getN_eq _ _ _ Hn)). Qed.
End inv.
