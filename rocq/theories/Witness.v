(** * Witness.v -- every theorem applied to a concrete, non-trivial case

    Each definition [ex_...] applies one property theorem to a concrete history run in the
    environment [tenv] (TestEnv.v), which shows that the hypotheses of the theorem can be met.
    The hypotheses are discharged by computation. *)
From Verif Require Export Refute2 PropsCap PropsColl4 PropsMin PropsGc.
Open Scope N_scope.

#[export] Instance TE : Env := tenv false false false.
Definition HE0 : env_ok TE := tenv_ok false false false.

(** the address a handle holds *)
Definition addr (w : world) (i : nat) : ptr := default 0 (hnd w i).

(** ** Histories *)
(** handles: x0, x1, x2, x0&x1, x0&x1|x2, its negation, true, false *)
Definition wo : world := Refute.W MOrd [OProj 0; OProj 1; OProj 2; OAnd 0 1; OOr 3 2; ONot 4; OTop; OBot].
(** the same without order *)
Definition wu : world := Refute.W MOr [OProj 0; OProj 1; OProj 2; OAnd 0 1; OOr 3 2; ONot 4; OTop; OBot].
(** x0, x1, x2, x0^x1, (x0^x1)&x2, !x0, true *)
Definition wx : world := Refute.W MXor [OProj 0; OProj 1; OProj 2; OXor 0 1; OAnd 3 2; ONot 0; OTop].
(** x0, x1, x0|x1, x0^x1 (which returns x0|x1), x2, x0&x2 *)
Definition wm : world := Refute.W MMix [OProj 0; OProj 1; OOr 0 1; OXor 0 1; OProj 2; OAnd 0 4].
Lemma wo_r : reach MOrd wo. Proof. apply W_reach; comp. Qed.
Lemma wu_r : reach MOr wu. Proof. apply W_reach; comp. Qed.
Lemma wx_r : reach MXor wx. Proof. apply W_reach; comp. Qed.
Lemma wm_r : reach MMix wm. Proof. apply W_reach; comp. Qed.
#[local] Opaque wo wu wx wm.
Lemma evo i e : isb wo i e = true -> evals wo i (bev e). Proof. apply (isb_ok HE0 _ _ _ _ wo_r). Qed.
Lemma evu i e : isb wu i e = true -> evals wu i (bev e). Proof. apply (isb_ok HE0 _ _ _ _ wu_r). Qed.
Lemma evx i e : isb wx i e = true -> evals wx i (bev e). Proof. apply (isb_ok HE0 _ _ _ _ wx_r). Qed.
Lemma evm i e : isb wm i e = true -> evals wm i (bev e). Proof. apply (isb_ok HE0 _ _ _ _ wm_r). Qed.
Notation x0 := (BV 0). Notation x1 := (BV 1). Notation x2 := (BV 2).
Notation F4 := (BO (BA x0 x1) x2).
Ltac ev := lazymatch goal with
  | |- evals wo ?i (bev ?e) => apply (evo i e); comp
  | |- evals wu ?i (bev ?e) => apply (evu i e); comp
  | |- evals wx ?i (bev ?e) => apply (evx i e); comp
  | |- evals wm ?i (bev ?e) => apply (evm i e); comp
  end.
Ltac ok := lazymatch goal with
  | |- evals _ _ _ => ev
  | |- Forall2 (evals _) _ _ => repeat (apply Forall2_cons_2; [ev|]); apply Forall2_nil_2
  | |- live _ _ => apply liveb_ok; comp
  | |- ~ isconst _ _ => apply constb_ok; comp
  | |- allowed _ _ _ => apply allowedb_ok; comp
  | |- is_Some _ => apply someb_ok; comp
  | |- (_ <= _)%nat => apply Nat.leb_le; comp
  | |- (_ < _)%nat => apply Nat.ltb_lt; comp
  | |- (_ <= _ <= _)%nat => split; apply Nat.leb_le; comp
  | |- _ < _ => apply N.ltb_lt; comp
  | |- _ <= _ => apply N.leb_le; comp
  | |- _ <> 0 => apply N.eqb_neq; comp
  | |- _ :: _ <> [] => discriminate
  | |- _ = _ => comp
  | |- md_ord _ = true -> _ => intros HmdF; discriminate HmdF
  end.
Notation "'!!!'" := ltac:(ok) (only parsing).

(** an operation is computed once *)
Definition runsb (o : op) (w : world) : bool := match step o w with WOk _ _ => true | _ => false end.
Lemma runs o w : runsb o w = true -> step o w = WOk (oko (step o w)) (okw (step o w)).
Proof. unfold runsb. by destruct (step o w). Qed.
Definition nrb (w : world) (i : nat) : N := match step (QNrNodes i) w with WOk (OutN n) _ => n | _ => 0 end.
Lemma nr_eq md w i : reach md w -> liveb w i = true -> constb w i = false -> step (QNrNodes i) w = WOk (OutN (nrb w i)) w.
Proof.
  intros HR Hl%liveb_ok Hc%constb_ok. destruct Hl as (p&Hp&H0). destruct (C16_nr_nodes HE0 md w i p HR Hp H0) as (l&Hs&_); [done|].
  unfold nrb. by rewrite Hs.
Qed.
Lemma hnd_eq w i : someb w i = true -> hnd w i = Some (addr w i).
Proof. unfold someb, addr. by destruct (hnd w i). Qed.
(** ite(x0, false, !x0): a clash *)
Definition wc : world := Refute.W MOrd [OProj 0; OBot; ONot 0].
Lemma wc_r : reach MOrd wc. Proof. apply W_reach; comp. Qed.
Lemma wc_clash : ite_clash wc 0 1 2.
Proof. exists [false]. split; [vm_compute; discriminate|]. split; [vm_compute; discriminate|]. left. intros []; split; comp. Qed.
Lemma supp_not w i v : existsb (N.eqb v) (varsb w i) = false -> ~ supp w i v.
Proof.
  intros H Hs%supp_varsb. apply not_true_iff_false in H. apply H, existsb_exists. exists v. split; [by apply elem_of_list_In|apply N.eqb_refl].
Qed.
Lemma supp_all w i (P : N -> bool) : forallb P (varsb w i) = true -> forall v, supp w i v -> P v = true.
Proof. intros H v Hs%supp_varsb. by eapply forallb_in. Qed.
Lemma wu_supp : ~ supp wu 3 (nr_variables (w_s wu) - 1). Proof. apply supp_not; comp. Qed.
Lemma wm_supp5 v : supp wm 5 v -> v < N.of_nat (length [true; false; true]).
Proof. intros H. apply N.ltb_lt. revert v H. apply (supp_all wm 5). comp. Qed.
Lemma wm_const5 : isconst wm 5 -> sinks_unmarked. Proof. intros H. exfalso. revert H. apply constb_ok. comp. Qed.
(** x0 does not mention the last variable, so the call cannot clash *)
Lemma wo_no_clash : ~ ite_clash wo 0 4 5.
Proof.
  intros (x&Hx&Hne&_). apply Hne. pose proof (evo 0 x0 ltac:(comp)) as Hv. rewrite (Hv (<[_:=false]> x)), (Hv (<[_:=true]> x)).
  - simpl. f_equal. destruct x as [|a x]; [done|]. destruct x; done.
  - unfold covers in *. by rewrite insert_length.
  - unfold covers in *. by rewrite insert_length.
Qed.

(** ** Operations *)
Definition ex_C01_and_rec := C01_and_rec HE0 MMix wm 2 5 _ _ wm_r (evm 2 (BO x0 x1) !!!) (evm 5 (BA x0 x2) !!!).
Definition ex_C02_or_rec := C02_or_rec HE0 MOr wu 4 5 _ _ !!! wu_r (evu 4 F4 !!!) (evu 5 (BN F4) !!!).
Definition ex_C03_negate := C03_negate HE0 MMix wm 2 _ wm_r (evm 2 (BO x0 x1) !!!).
Definition ex_C04_ite_rec := C04_ite_rec HE0 MOrd wo 0 4 5 _ _ _ !!! !!! wo_r (evo 0 x0 !!!) (evo 4 F4 !!!) (evo 5 (BN F4) !!!) wo_no_clash.
Definition ex_C04_ite_rec_last := C04_ite_rec_last HE0 MOr wu 3 4 5 _ _ _ !!! wu_r (evu 3 (BA x0 x1) !!!) (evu 4 F4 !!!) (evu 5 (BN F4) !!!) wu_supp.
Definition ex_C04_ite_clash_never_returns := C04_ite_clash_never_returns HE0 MOrd wc 0 1 2 !!! wc_r !!! !!! !!! wc_clash.
Definition ex_C05_xor_rec := C05_xor_rec HE0 wx 3 2 _ _ wx_r (evx 3 (BX x0 x1) !!!) (evx 2 x2 !!!).
Definition ex_C05_xor_range := C05_xor_range HE0 wx [3; 2; 0]%nat [bev (BX x0 x1); bev x2; bev x0] wx_r !!! !!!.
Definition ex_C05_xor_variadic := C05_xor_variadic HE0 wx 3 [2; 0]%nat _ [bev x2; bev x0] wx_r (evx 3 (BX x0 x1) !!!) !!! !!!.
Definition ex_C06_projection := C06_projection HE0 MMix wm 7 wm_r !!!.
Definition ex_C06_projection_vars := C06_projection_vars HE0 MMix wm 7 _ _ wm_r !!! (runs (OProj 7) wm !!!).
Definition ex_C06_neg_projection := C06_neg_projection HE0 MMix wm 1 wm_r !!!.
Definition ex_C06_add_variable := C06_add_variable HE0 MMix wm wm_r !!!.
Definition ex_C06_constants := C06_constants HE0 MMix wm wm_r.
Definition ex_C06_unique_find := C06_unique_find HE0 MMix wm 0 2 5 _ _ wm_r !!! (evm 2 (BO x0 x1) !!!) (evm 5 (BA x0 x2) !!!) !!!.
Definition ex_C08_and_range := C08_and_range HE0 MMix wm [2; 5; 4]%nat [bev (BO x0 x1); bev (BA x0 x2); bev x2] wm_r !!! !!!.
Definition ex_C08_or_range := C08_or_range HE0 MOr wu [4; 5; 0]%nat [bev F4; bev (BN F4); bev x0] !!! wu_r !!! !!!.
Definition ex_C08_and_variadic := C08_and_variadic HE0 MMix wm 2 [5; 4]%nat _ [bev (BA x0 x2); bev x2] wm_r (evm 2 (BO x0 x1) !!!) !!! !!!.
Definition ex_C08_or_variadic := C08_or_variadic HE0 MOr wu 4 [5; 0]%nat _ [bev (BN F4); bev x0] !!! wu_r (evu 4 F4 !!!) !!! !!!.
Definition ex_C09_all_false := C09_all_false HE0 MMix wm [2; 5; 4]%nat [bev (BO x0 x1); bev (BA x0 x2); bev x2] wm_r !!! !!!.
Definition ex_C09_at_least_one := C09_at_least_one HE0 MMix wm [2; 5; 4]%nat [bev (BO x0 x1); bev (BA x0 x2); bev x2] wm_r !!! !!!.
Definition ex_C09_at_most_one := C09_at_most_one HE0 MOr wu [4; 5; 0]%nat [bev F4; bev (BN F4); bev x0] !!! wu_r !!! !!!.
Definition ex_C09_simplex := C09_simplex HE0 MOr wu [4; 5; 0]%nat [bev F4; bev (BN F4); bev x0] !!! wu_r !!! !!!.
Definition ex_C10_at_least := C10_at_least HE0 MOr wu [4; 5; 0]%nat [bev F4; bev (BN F4); bev x0] 2 !!! wu_r !!! !!!.
Definition ex_C11_at_most := C11_at_most HE0 MOr wu [4; 5; 0]%nat [bev F4; bev (BN F4); bev x0] 2 !!! wu_r !!! !!! !!!.
Definition ex_C11_at_most_large_refuted := C11_at_most_large_refuted HE0 MOr wu [4; 5; 0]%nat [bev F4; bev (BN F4); bev x0] 4 !!! wu_r !!! !!! !!!.
Definition ex_C12_cardinality := C12_cardinality HE0 MOr wu [4; 5; 0]%nat [bev F4; bev (BN F4); bev x0] 2 !!! wu_r !!! !!!.
Definition ex_C14_rebase_map := C14_rebase_map HE0 MOrd wo 4 {[0 := 1; 1 := 5; 2 := 6]} wo_r !!!.
Definition ex_C14_rebase_vector := C14_rebase_vector HE0 MOrd wo 4 [1; 5; 6] wo_r !!!.
Definition ex_C14_rebase_map_unordered := C14_rebase_map HE0 MMix wm 5 {[0 := 2; 2 := 1]} wm_r !!!.
Definition ex_C58_operators := C58_operators HE0 MMix wm 2 5 wm_r !!!.
(** ** Queries and canonicity *)
Definition ex_C03_negate_twice := C03_negate_twice HE0 MOrd wo 4 _ wo_r (hnd_eq wo 4 !!!) !!!.
Definition ex_C07_canonical := C07_canonical HE0 MOrd wo 4 5 !!! wo_r !!! !!!.
Definition ex_C07_constants := C07_constants HE0 MOrd wo 6 true !!! wo_r !!!.
Definition ex_C15_evaluate := C15_evaluate HE0 MMix wm 5 [true; false; true] wm_r !!! wm_supp5.
Definition ex_C16_nr_nodes := C16_nr_nodes HE0 MMix wm 5 _ wm_r (hnd_eq wm 5 !!!) !!! wm_const5.
Definition ex_C17_postorder := C17_postorder HE0 MMix wm 5 _ wm_r (hnd_eq wm 5 !!!) !!! !!!.
Definition ex_C18_bfs := C18_bfs HE0 MMix wm 5 _ wm_r (hnd_eq wm 5 !!!) !!! !!!.
Definition ex_C59_print := C59_print HE0 MMix wm 5 _ wm_r (hnd_eq wm 5 !!!) !!! !!!.
Definition ex_C19_variables := C19_variables HE0 MOrd wo 4 !!! wo_r !!!.
Definition ex_C19_variables_sup := C19_variables_sup HE0 MMix wm 5 wm_r !!!.
Definition ex_C20_exactly_one_solution := C20_exactly_one_solution HE0 MOrd wo 3 !!! wo_r !!!.
Definition ex_C35_minimal := C35_minimal HE0 MOrd wo 4 _ _ !!! wo_r (evo 4 F4 !!!) !!! (nr_eq MOrd wo 4 wo_r !!! !!!).
Definition ex_C36_cofactors := C36_cofactors HE0 MOrd wo 4 _ !!! wo_r (evo 4 F4 !!!) !!!.

(** ** The stored graph *)
Lemma wo_sink_unmarked : sinks_unmarked. Proof. right. done. Qed.
Definition ex_C13_and_rec_limited := C13_and_rec_limited HE0 MMix wm 2 5 _ _ 10 wm_r !!! (evm 2 (BO x0 x1) !!!) (evm 5 (BA x0 x2) !!!).
Definition ex_C13_same_as_and_rec := C13_same_as_and_rec HE0 MOrd wo 4 1 _ _ 10 !!! wo_r !!! (evo 4 F4 !!!) (evo 1 x1 !!!).
Lemma dep_lt w i v : reach MOrd w -> live w i -> dep w i v -> v < nr_variables (w_s w).
Proof.
  intros HR Hi Hd. pose proof (reach_inv HE0 _ _ HR) as HW. destruct (live_hrep _ _ _ HW Hi) as (p&t&Hp).
  apply (dep_depends _ _ _ _ _ _ HW Hp) in Hd. eapply hrep_occurs; [exact HW|exact Hp|].
  apply depends_occurs; [eapply ho_ord; [apply HW|done|apply Hp]|eapply repr_redt; [apply HW|apply Hp]|done].
Qed.
Lemma wo_deps v : dep wo 4 v \/ dep wo 1 v -> v ∈ [0; 1; 2].
Proof.
  intros Hd. assert (Hv : v < nr_variables (w_s wo)) by (destruct Hd as [Hd|Hd]; eapply dep_lt; [exact wo_r| |exact Hd|exact wo_r| |exact Hd]; ok).
  assert (Hn : nr_variables (w_s wo) = 3) by comp. rewrite Hn in Hv. clear Hd Hn.
  assert (v = 0 \/ v = 1 \/ v = 2) as [->|[->| ->]] by lia; rewrite !elem_of_cons; tauto.
Qed.
Definition ex_C13_number := C13_number HE0 MMix wm 2 5 10 wm_r !!!.
Definition ex_C13_large_limit := C13_large_limit HE0 MOrd wo 4 1 7 [0; 1; 2] !!! wo_r !!! wo_deps.
Definition limb (r : wres) : bool := match r with WOk (OutLim p _) _ => negb (p =? 0) | _ => false end.
Lemma limb_ok r : limb r = true -> exists p n w', r = WOk (OutLim p n) w' /\ p <> 0.
Proof. destruct r as [[] w'|]; try done. cbn. intros H. eexists _, _, _. split; [done|]. intros ->. done. Qed.
Lemma ex_C13_monotone : exists p n w', step (OAndLim 4 1 3) wo = WOk (OutLim p n) w' /\ step (OAndLim 4 1 20) wo = WOk (OutLim p n) w'.
Proof.
  destruct (limb_ok (step (OAndLim 4 1 3) wo)) as (p&n&w'&H1&H2); [comp|]. exists p, n, w'. split; [exact H1|].
  apply (C13_monotone HE0 MOrd wo 4 1 3 20 p n _ wo_r !!! !!! H1 H2).
Qed.
Definition ex_C21_refcount := C21_refcount HE0 MMix wm 2 _ wm_r (hnd_eq wm 2 !!!) !!!.
Definition nodeat (w : world) (p : ptr) : node := default (Node 0 0 0 0 false 0) (s_heap (w_s w) !! p).
Definition hasb (w : world) (p : ptr) : bool := match s_heap (w_s w) !! p with Some _ => true | None => false end.
Lemma node_at w p : hasb w p = true -> s_heap (w_s w) !! p = Some (nodeat w p).
Proof. unfold hasb, nodeat. by destruct (s_heap (w_s w) !! p). Qed.
Lemma node_is w p : hasb w p = true -> is_Some (s_heap (w_s w) !! p).
Proof. intros H. rewrite (node_at _ _ H). eauto. Qed.
Lemma inner_b p : (p =? botsink) || (p =? topsink) = false -> inner p.
Proof. intros [H1%N.eqb_neq H2%N.eqb_neq]%orb_false_iff. done. Qed.
Definition ex_C21_refcount_all := C21_refcount_all HE0 MMix wm (addr wm 5) _ wm_r (node_at wm (addr wm 5) !!!).
Definition ex_C22_total := C22_total HE0 MMix wm (OOr 3 5) wm_r !!!.
Definition ex_C22_persistent := C22_persistent HE0 MMix wm (OOr 3 5) _ _ 5 _ wm_r !!! (runs (OOr 3 5) wm !!!) (hnd_eq wm 5 !!!) (fun H => H).
Definition ex_C22_persistent_drop := C22_persistent HE0 MMix wm (ODrop 0) _ _ 5 _ wm_r !!! (runs (ODrop 0) wm !!!) (hnd_eq wm 5 !!!) ltac:(intros [=]).
Definition ex_C22_nodes := C22_nodes HE0 MMix wm (OOr 3 5) _ _ 5 _ wm_r !!! (runs (OOr 3 5) wm !!!) (hnd_eq wm 5 !!!) !!! (fun H => H).
Definition ex_C22_node_count := C22_node_count HE0 MMix wm (OOr 3 5) _ _ 5 _ _ wm_r !!! (runs (OOr 3 5) wm !!!) (hnd_eq wm 5 !!!) !!! !!! (fun H => H) (nr_eq MMix wm 5 wm_r !!! !!!).
Definition tabat (w : world) (v : nat) : vtab := default (VTab (Page (PgId 0 0 0) []) 0 0 0) (s_vars (w_s w) !! v).
Lemma tab_at w v : (v <? length (s_vars (w_s w)))%nat = true -> s_vars (w_s w) !! v = Some (tabat w v).
Proof. intros H%Nat.ltb_lt. unfold tabat. destruct (lookup_lt_is_Some_2 _ _ H) as [t ->]. done. Qed.
Lemma addr_ne a b : (a =? b) = false -> a <> b. Proof. apply N.eqb_neq. Qed.
(** present: x0 has the children false and true *)
Definition ex_C23_lookup := C23_lookup HE0 MMix wm 0 _ (@botsink TE) (@topsink TE) wm_r (tab_at wm 0 !!!) (addr_ne (@botsink TE) (@topsink TE) !!!) (node_is wm (@botsink TE) !!!) (node_is wm (@topsink TE) !!!).
Definition ex_C23_no_duplicates := C23_no_duplicates HE0 MMix wm (addr wm 2) (addr wm 3) _ _ wm_r (node_at wm (addr wm 2) !!!) (node_at wm (addr wm 3) !!!) (inner_b (addr wm 2) !!!) (inner_b (addr wm 3) !!!) !!! !!! !!!.
Definition ex_C23_no_redundant := C23_no_redundant HE0 MMix wm (addr wm 5) _ wm_r (node_at wm (addr wm 5) !!!) (inner_b (addr wm 5) !!!).
(** node x0 ? x2 : false, found again *)
Definition wb : world := Refute.W MMix [OProj 0; OProj 1; OProj 2; OAnd 0 2; OBot].
Lemma wb_r : reach MMix wb. Proof. apply W_reach; comp. Qed.
Definition ex_C23_unique_find_existing := C23_unique_find_existing HE0 MMix wb 0 4 2 _ _ (addr wb 3) _ wb_r (hnd_eq wb 4 !!!) (hnd_eq wb 2 !!!) !!! !!! (node_at wb (addr wb 3) !!!) (inner_b (addr wb 3) !!!) !!! !!! !!!.
(** 33 nodes in a table of 64 cells *)
Definition wd : world := Refute.W MOrd (projs 33 ++ ands 33).
Lemma wd_r : reach MOrd wd. Proof. apply W_reach; comp. Qed.
Definition ex_C23_doubling := C23_doubling HE0 MOrd wd 0 _ wd_r (tab_at wd 0 !!!) !!!.
Definition ex_C24_nodes_in_pages := C24_nodes_in_pages HE0 MMix wm (addr wm 5) wm_r (node_is wm (addr wm 5) !!!).
Definition ex_C24_manager_nr_nodes := C24_manager_nr_nodes HE0 MMix wm wm_r.
Definition ex_C24_reserve_fresh := C24_reserve_fresh HE0 MMix wm wm_r.
(** a table of 128 cells *)
Definition we : world := Refute.W MOrd (projs 40 ++ ands 40).
Lemma we_r : reach MOrd we. Proof. apply W_reach; comp. Qed.
Definition ex_C25_page_large_enough := C25_page_large_enough HE0 MOrd we 0 _ we_r (tab_at we 0 !!!).
Definition ex_C25_free_cell := C25_free_cell HE0 MOrd we 0 _ we_r (tab_at we 0 !!!).
Definition ex_C25_pages_private := C25_pages_private HE0 MOrd we we_r.
Definition ex_C25_no_page_lost := C25_no_page_lost HE0 MOrd we 1 we_r !!!.
Lemma memo_in m l : existsb (memo_eqb m) l = true -> m ∈ l.
Proof.
  intros [m' [Hin He]]%existsb_exists. unfold memo_eqb in He. rewrite !andb_true_iff, !N.eqb_eq in He. destruct He as [[[? ?] ?] ?].
  apply elem_of_list_In. destruct m, m'; simpl in *; congruence.
Qed.
Definition wo_memo : memo := Memo (addr wo 0) (addr wo 1) and_symb (addr wo 3).
Definition ex_C27_entries := C27_entries HE0 MOrd wo wo_memo 0 1 3 wo_r (memo_in wo_memo (mc_tab (s_memo (w_s wo))) !!!) !!! (hnd_eq wo 0 !!!) (hnd_eq wo 1 !!!) (hnd_eq wo 3 !!!).
Definition ex_C27_transparent := C27_transparent HE0 MOr wu (OAnd 0 1) ltac:(discriminate) wu_r !!! !!!.
Definition ex_C33_destruction := C33_destruction HE0 MOrd wo !!! wo_r.

(** ** Capacity *)
Definition ex_C26_capacity := C26_capacity HE0 MMix wm 0 wm_r !!!.
Lemma ex_C26_throws_only_full : exists e w', e = EThrow /\ exists v, 262144 < N.of_nat (size (nodes_of (s_heap (w_s w')) v)).
Proof.
  destruct (C26_throw_reachable HE0) as (w&o&w'&HR&Ha&Hs). exists EThrow, w'. by apply (C26_throws_only_full HE0 _ _ _ _ _ HR Ha Hs).
Qed.
Lemma ex_C26_after_throw_refuted : exists w', forall s, mgr_destroy (w_s w') <> Ok tt s.
Proof. destruct (C26_throw_reachable HE0) as (w&o&w'&HR&Ha&Hs). exists w'. by apply (C26_after_throw_refuted HE0 _ _ _ _ HR Ha Hs). Qed.
Definition ex_C56_below := C56_below HE0 MMix wm 100 wm_r !!!.

(** ** Garbage collection *)
(** handle 4 and 5 dropped: garbage *)
Definition wg : world := Refute.W MOrd [OProj 0; OProj 1; OProj 2; OAnd 0 1; OOr 3 2; ONot 4; ODrop 4; ODrop 5].
Lemma wg_r : reach MOrd wg. Proof. apply W_reach; comp. Qed.
Definition ex_C28_gc_keeps := C28_gc_keeps HE0 MOrd wg 100 !!! wg_r.
Lemma wg_runs : runsb (OGc 100) wg = true. Proof. comp. Qed.
Lemma wg_freed : mgr_nr_nodes (w_s (okw (step (OGc 100) wg))) < mgr_nr_nodes (w_s wg). Proof. apply N.ltb_lt. comp. Qed.
Definition ex_C28_gc_structure q n := C28_gc_structure HE0 MOrd wg 100 _ _ 3 _ q n !!! wg_r (runs _ _ wg_runs) (hnd_eq wg 3 !!!).
Definition garbageb (w : world) : bool := existsb (fun x : ptr * node => negb ((x.1 =? botsink) || (x.1 =? topsink)) &&
  (hcount (w_h w) x.1 + Z.of_nat (arcs_into (s_heap (w_s w)) x.1) <=? 0)%Z) (map_to_list (s_heap (w_s w))).
Lemma no_garbage w : garbageb w = false -> forall p n, inner p -> s_heap (w_s w) !! p = Some n -> (0 < hcount (w_h w) p + Z.of_nat (arcs_into (s_heap (w_s w)) p))%Z.
Proof.
  intros H p n [Hb Ht] Hp. apply Z.nle_gt. intros Hle. apply not_true_iff_false in H. apply H. apply existsb_exists. exists (p, n).
  split; [by apply elem_of_list_In, elem_of_map_to_list|]. apply andb_true_iff. split.
  - simpl. apply negb_true_iff, orb_false_iff. split; by apply N.eqb_neq.
  - simpl. by apply Z.leb_le.
Qed.
Definition wg2 : world := Refute.W MOrd [OProj 0; OProj 1; OAnd 0 1; ONot 2; ODrop 1].
Lemma wg2_r : reach MOrd wg2. Proof. apply W_reach; comp. Qed.
Definition ex_C28_no_garbage := C28_no_garbage HE0 MOrd wg2 wg2_r (no_garbage wg2 !!!).

(** ** Two environments *)
Definition ww : option (world * world) := go2 TE TE2 MOrd [OProj 0; OProj 1; OProj 2; OAnd 0 1; OOr 3 2; ONot 4; ODrop 0] (@w_init TE) (@w_init TE2).
Definition ww1 : world := match ww with Some (a, _) => a | None => @w_init TE end.
Definition ww2 : world := match ww with Some (_, a) => a | None => @w_init TE2 end.
Definition someww : bool := match ww with Some _ => true | None => false end.
Lemma ww_r : reach2 TE TE2 MOrd ww1 ww2.
Proof.
  assert (H : someww = true) by comp. unfold ww1, ww2. unfold someww in H. destruct ww as [[a b]|] eqn:Hw; [|discriminate H].
  eapply go2_reach; [constructor|exact Hw].
Qed.
Definition ex_C34_functions := C34_functions TE TE2 HE0 HE2 MOrd ww1 ww2 !!! ww_r.
Definition ex_C34_queries := C34_queries TE TE2 HE0 HE2 MOrd ww1 ww2 4 !!! ww_r !!!.
Definition osx : list op := [OProj 0; OProj 1; OProj 2; OXor 0 1; OAnd 3 2; ONot 4].
Lemma osx_r : reach2f TE TE2 MXor (W1 TE TE2 MXor osx) (W2 TE TE2 MXor osx). Proof. apply W12_reach. comp. Qed.
Lemma mxor_mix : MXor <> MMix. Proof. discriminate. Qed.
Definition ex_C34_functions_unordered := C34_functions_unordered TE TE2 HE0 HE2 MXor _ _ mxor_mix osx_r.

(** ** Collections *)
Definition addc (w : world) (i : nat) (c : coll) : coll := match step (QCollAdd c i) w with WOk (OutC _ c') _ => c' | _ => c end.
Definition addb (w : world) (i : nat) (c : coll) : bool :=
  liveb w i && negb (constb w i) && (mgr_nr_nodes (w_s w) <? 2 ^ 62) && match step (QCollAdd c i) w with WOk (OutC _ _) _ => true | _ => false end.
Lemma addc_built md w i c : reach md w -> addb w i c = true -> built c -> built (addc w i c).
Proof.
  intros HR [[[Hl%liveb_ok Hc%negb_true_iff%constb_ok]%andb_true_iff Hm%N.ltb_lt]%andb_true_iff Hs]%andb_true_iff HB.
  unfold addc. destruct (step (QCollAdd c i) w) as [[] ?|] eqn:He; try discriminate Hs. by eapply built_add.
Qed.
Lemma addc_obuilt ed w i c : reach MOrd w -> addb w i c = true -> obuilt_by ed c -> obuilt_by ed (addc w i c).
Proof.
  intros HR [[[Hl%liveb_ok Hc%negb_true_iff%constb_ok]%andb_true_iff Hm%N.ltb_lt]%andb_true_iff Hs]%andb_true_iff HB.
  unfold addc. destruct (step (QCollAdd c i) w) as [[] ?|] eqn:He; try discriminate Hs. by eapply (obuilt_add MOrd).
Qed.
(** x0&x1|x2, x0&x1, x0 *)
Definition c1 : coll := addc wo 0 (addc wo 3 (addc wo 4 coll_init)).
Lemma c1_b : built c1.
Proof. repeat (eapply addc_built; [apply wo_r|comp|]). constructor. Qed.
Lemma c1_o {ed} : obuilt_by ed c1.
Proof. repeat (eapply addc_obuilt; [apply wo_r|comp|]). constructor. Qed.
(** x0&x1|x2 and its negation *)
Definition c3 : coll := addc wo 5 (addc wo 4 coll_init).
Lemma c3_o {ed} : obuilt_by ed c3.
Proof. repeat (eapply addc_obuilt; [apply wo_r|comp|]). constructor. Qed.
Lemma c1_s : csmall c1. Proof. apply N.ltb_lt. comp. Qed.
Lemma c3_s : csmall c3. Proof. apply N.ltb_lt. comp. Qed.
Lemma forall_lt c l : forallb (fun b => b <? nr_bdds c) l = true -> Forall (fun b => b < nr_bdds c) l.
Proof. rewrite forallb_forall. intros H. apply Forall_forall. intros x Hx. apply N.ltb_lt, H. by apply elem_of_list_In. Qed.
Lemma c1_sat : csatisfiable c1 [0; 1; 2].
Proof. exists [true; true; false]. repeat constructor; comp. Qed.
Lemma c1_sat2 : csatisfiable c1 [0; 1].
Proof. exists [true; true; false]. repeat constructor; comp. Qed.
Lemma cvar_in c nr l v : built c -> csmall c -> nr < nr_bdds c -> c_variables c nr = inr l -> cvar c nr v -> v ∈ l.
Proof. intros HB Hs Hn Hl Hv. destruct (C52_queries HE0 c nr HB Hs Hn) as ((l'&Hl'&_&Hm)&_). rewrite Hl in Hl'. injection Hl' as <-. by apply Hm. Qed.
Lemma cvar_lt c nr (P : N -> bool) : built c -> csmall c -> (nr <? nr_bdds c) = true ->
  match c_variables c nr with inr l => forallb P l | inl _ => false end = true -> forall v, cvar c nr v -> P v = true.
Proof.
  intros HB Hs Hn%N.ltb_lt Hl v Hv. destruct (c_variables c nr) as [|l] eqn:He; [done|]. eapply forallb_in; [exact Hl|]. by eapply cvar_in.
Qed.
(** only the first three variables matter *)
Lemma cval_3 c nr a b d x : built c -> csmall c -> (nr <? nr_bdds c) = true ->
  match c_variables c nr with inr l => forallb (fun v => v <? 3) l | inl _ => false end = true ->
  cval c nr (a :: b :: d :: x) = cval c nr [a; b; d].
Proof.
  intros HB Hs Hn Hl. pose proof (cvar_lt c nr _ HB Hs Hn Hl) as Hv. apply N.ltb_lt in Hn.
  destruct (C55_evaluate HE0 c nr [a; b; d] HB Hn) as (r&Hr&Hy).
  - intros v Hc%Hv%N.ltb_lt. simpl. lia.
  - unfold cval. rewrite Hr, (Hy (a :: b :: d :: x)); [done|]. intros v Hc%Hv%N.ltb_lt.
    assert (exists n, N.to_nat v = n /\ (n < 3)%nat) as (n&->&Hlt) by (eexists; split; [done|lia]). by destruct n as [|[|[|n]]]; [..|lia].
Qed.
Lemma c3_b : built c3.
Proof. repeat (eapply addc_built; [apply wo_r|comp|]). constructor. Qed.
Lemma c3_unsat : ~ csatisfiable c3 [0; 1].
Proof.
  intros (x&Hx). inversion_clear Hx as [|? ? H0 H1']. inversion_clear H1' as [|? ? H1 _]. revert H0 H1.
  destruct x as [|p [|q [|r x]]]; [destruct_or?..|rewrite (cval_3 c3 0), (cval_3 c3 1) by first [apply c3_b|apply c3_s|comp]];
    repeat match goal with b : bool |- _ => destruct b end; vm_compute; intros; congruence.
Qed.
Definition ex_C40_add_bdd := C40_add_bdd HE0 MMix wm c1 5 wm_r c1_b !!! !!! !!!.
Definition ex_C40_constant_refuted := C40_constant_refuted HE0 MOrd wo c1 6 wo_r c1_b ltac:(right; comp) wo_sink_unmarked.
Definition ex_C41_and2 := C41_and2 HE0 c1 0 1 100 c1_b c1_s !!! !!! !!! c1_sat2.
Definition ex_C42_and_range := C42_and_range HE0 c1 [0; 1; 2] 100 c1_b c1_s (forall_lt c1 [0; 1; 2] !!!) !!! !!! c1_sat.
Definition ex_C42_other_sizes := C42_other_sizes c1 (repeat 0 50) 100 ltac:(right; rewrite repeat_length; lia).
Definition ex_C42_one_operand := C42_one_operand c1 2 100.
Definition andc (c : coll) (bs : list N) (L : N) : coll := match bdd_and_range c bs L with inr (_, c') => c' | inl _ => c end.
Definition andk (c : coll) (bs : list N) (L : N) : N := match bdd_and_range c bs L with inr (k, _) => k | inl _ => 0 end.
Definition andb_ (c : coll) (bs : list N) (L : N) : bool := match bdd_and_range c bs L with inr _ => true | inl _ => false end.
Lemma andc_eq c bs L : andb_ c bs L = true -> bdd_and_range c bs L = inr (andk c bs L, andc c bs L).
Proof. unfold andb_, andk, andc. by destruct (bdd_and_range c bs L) as [|[]]. Qed.
Definition c2 : coll := andc c1 [0; 1; 2] 100.
Lemma c2_s : csmall c2. Proof. apply N.ltb_lt. comp. Qed.
Lemma c2_b : built c2.
Proof. apply (built_and c1 [0; 1; 2] 100 (andk c1 [0; 1; 2] 100)); [apply c1_b|apply forall_lt; comp|lia|apply c1_sat|apply andc_eq; comp|apply c2_s]. Qed.
Lemma c2_eq : bdd_and_range c1 [0; 1; 2] 100 = inr (3, c2). Proof. exact (andc_eq c1 [0; 1; 2] 100 ltac:(comp)). Qed.
Lemma c2_nr : nr_bdd_nodes c2 3 = inr 4. Proof. comp. Qed.
Definition ex_C43_limit := C43_limit HE0 c1 [0; 1; 2] 100 3 c2 4 c1_b c2_s (forall_lt c1 [0; 1; 2] !!!) !!! !!! c1_sat c2_eq (addr_ne 3 size_max !!!) c2_nr.
Definition ex_C44_contradiction_refuted := C44_contradiction_refuted HE0 c3 [0; 1] 100 c3_o c3_s (forall_lt c3 [0; 1] !!!) !!! !!! c3_unsat.
Definition ex_C45_wellformed := C45_wellformed HE0 c2 3 c2_b !!!.
Lemma c2_f : fbuilt c2.
Proof. apply (built_and c1 [0; 1; 2] 100 (andk c1 [0; 1; 2] 100)); [apply (oby_built _ _ c1_o)|apply forall_lt; comp|lia|apply c1_sat|apply andc_eq; comp|apply c2_s]. Qed.
Lemma ex_C45_reachable : rtc (carc c2) 12 13.
Proof. apply (C45_reachable HE0 c2 3 12 16 13 c2_f); first [lia|comp]. Qed.
Definition ex_C45_ordered := C45_ordered HE0 c1 0 c1_o !!!.
Lemma c1_v0 v : cvar c1 0 v -> v < nr_variables (w_s wo).
Proof. intros H. apply N.ltb_lt. revert v H. apply (cvar_lt c1 0 (fun v => v <? nr_variables (w_s wo)) c1_b c1_s); comp. Qed.
Lemma c1_v0m v : cvar c1 0 v -> v < nr_variables (w_s wm).
Proof. intros H. apply N.ltb_lt. revert v H. apply (cvar_lt c1 0 (fun v => v <? nr_variables (w_s wm)) c1_b c1_s); comp. Qed.
Lemma c1_v0t v : cvar c1 0 v -> v < topsink_index.
Proof. intros H. apply N.ltb_lt. revert v H. apply (cvar_lt c1 0 (fun v => v <? topsink_index) c1_b c1_s); comp. Qed.
Definition ex_C46_export := C46_export HE0 MMix wm c1 0 wm_r c1_b c1_s !!! c1_v0m !!!.
Lemma wm_add : step (QCollAdd c1 5) wm = WOk (OutC 3 (addc wm 5 c1)) wm.
Proof. destruct ex_C40_add_bdd as (c'&n&Hs&_). unfold addc. assert (nr_bdds c1 = 3) as Hn by comp. rewrite Hn in Hs. rewrite Hs. reflexivity. Qed.
Lemma wm_add_s : csmall (addc wm 5 c1). Proof. apply N.ltb_lt. comp. Qed.
Definition ex_C46_roundtrip := C46_roundtrip HE0 MMix wm c1 5 _ _ _ _ wm_r c1_b (hnd_eq wm 5 !!!) !!! !!! !!! wm_add wm_add_s.
Lemma c1_val x : covers wo x -> cval c1 0 x = val wo 4 x.
Proof.
  intros Hx. rewrite (evo 4 F4 ltac:(comp) x Hx). assert (Hl : (3 <= length x)%nat).
  { unfold covers in Hx. assert (nr_variables (w_s wo) = 3) as Hn by comp. rewrite Hn in Hx. lia. }
  destruct x as [|p [|q [|r x]]]; simpl in Hl; try lia. rewrite (cval_3 c1) by first [apply c1_b|apply c1_s|comp]. destruct p, q, r; comp.
Qed.
Definition ex_C46_export_canonical := C46_export_canonical HE0 MOrd wo c1 0 4 _ !!! wo_r c1_b c1_s !!! ex_C45_ordered c1_v0 (hnd_eq wo 4 !!!) !!! c1_val.
Lemma c1_up : e_ndebug = true \/ csize_upto c1 0 <= 1002. Proof. right. apply N.leb_le. comp. Qed.
Definition ex_C47_import := C47_import HE0 MOrd wo c1 0 wo_r c1_b !!! !!! c1_v0t c1_up (or_introl (conj eq_refl ex_C45_ordered)).
