(** * Witness7.v -- every theorem applied to a concrete, non-trivial case, continued: the memory caches *)
From Verif Require Export PropsPage PropsAlloc Witness.
Open Scope N_scope.

(** ** pages *)
Definition TP : PEnv := {| pe_blk := fun k => 4096 + 8388608 * N.of_nat k; pe_junk := fun a => a + 77; pe_ndebug := false |}.
Lemma TP_ok : penv_ok TP.
Proof. split; cbn [pe_blk TP]; unfold word, blk_words; intros; lia. Qed.

Inductive pop := PTake (c : N) | PWrite (p : N) (i : nat) (v : N) | PGive (c p : N).
Definition pclassb (c : N) : bool := existsb (N.eqb c) (map (fun k => 2 ^ N.of_nat k) (seq 6 15)).
Lemma pclassb_ok c : pclassb c = true -> pclass c.
Proof.
  intros (x&Hx&Hc%N.eqb_eq)%existsb_exists. apply in_map_iff in Hx as (k&<-&Hk%in_seq). exists (N.of_nat k). split; [lia|done].
Qed.
Notation pconf := (pst * gmap N (list N) * nat)%type.
Definition pstep (kb : N -> bool) (o : pop) (x : pconf) : option pconf :=
  let '(s, H, m) := x in
  match o with
  | PTake c => if pclassb c && kb c then match @take_page TP c s with POk p s' => Some (s', <[p := replicate (N.to_nat c) 0]> H, (m `max` S (size H))%nat) | _ => None end else None
  | PWrite p i v => match H !! p with Some ct => if decide (i < length ct)%nat then Some (write_cell p (N.of_nat i) v s, <[p := <[i := v]> ct]> H, m) else None | None => None end
  | PGive c p => match H !! p with Some ct => if pclassb c && kb c && (c <=? N.of_nat (length ct)) then
        match @give_page TP c p s with POk _ s' => Some (s', delete p H, m) | _ => None end else None | None => None end
  end.
Fixpoint prun (kb : N -> bool) (l : list pop) (x : pconf) : option pconf :=
  match l with [] => Some x | o :: l => match pstep kb o x with Some y => prun kb l y | None => None end end.
Lemma pstep_hist (K : N -> Prop) kb o s H m s' H' m' : (forall c, kb c = true -> K c) -> @phist TP K s H m ->
  pstep kb o (s, H, m) = Some (s', H', m') -> @phist TP K s' H' m'.
Proof.
  intros HK Hh. destruct o as [c|p i v|c p]; cbn [pstep].
  - destruct (pclassb c && kb c) eqn:Hb; [|done]. apply andb_true_iff in Hb as [Hb1 Hb2]. destruct (take_page c s) as [p s1|] eqn:Ht; [|done].
    intros [= <- <- <-]. apply (ph_take K s H m c p s1); auto. by apply pclassb_ok.
  - destruct (H !! p) as [ct|] eqn:Hp; [|done]. destruct (decide _) as [Hi|]; [|done]. intros [= <- <- <-]. by apply ph_write.
  - destruct (H !! p) as [ct|] eqn:Hp; [|done]. destruct (pclassb c && kb c && _) eqn:Hb; [|done].
    apply andb_true_iff in Hb as [[Hb1 Hb2]%andb_true_iff Hb3%N.leb_le]. destruct (give_page c p s) as [[] s1|] eqn:Ht; [|done].
    intros [= <- <- <-]. apply (ph_give K s H m c p ct s1); auto. by apply pclassb_ok.
Qed.
Lemma prun_hist (K : N -> Prop) kb : (forall c, kb c = true -> K c) -> forall l s H m s' H' m', @phist TP K s H m ->
  prun kb l (s, H, m) = Some (s', H', m') -> @phist TP K s' H' m'.
Proof.
  intros HK. induction l as [|o l IH]; intros s H m s' H' m' Hh; cbn [prun]; [by intros [= <- <- <-]|].
  destruct (pstep kb o (s, H, m)) as [[[s1 H1] m1]|] eqn:Ho; [|done]. apply IH. by eapply pstep_hist.
Qed.
(** four pages are taken, written, given back and taken again; the third give and the following
    take mix the classes of 64 and 128 words as var_struct does *)
Definition pops : list pop :=
  [PTake 128; PTake 128; PWrite 4096 3 11; PWrite 5120 127 22; PTake 64; PTake 4096; PWrite 8392704 0 33; PWrite 8392704 63 44;
   PGive 128 4096; PTake 128; PWrite 4096 5 55; PGive 64 5120; PTake 64; PWrite 5120 1 66].
Definition pc0 : pconf := (p_init (P := TP), ∅, 0%nat).
Definition ps1 : pconf := default pc0 (prun (fun _ => true) pops pc0).
Definition pS : pst := ps1.1.1. Definition pH : gmap N (list N) := ps1.1.2.
Lemma pH_hist : @phist TP (fun _ => True) pS pH ps1.2.
Proof.
  apply (prun_hist (fun _ => True) (fun _ => true) ltac:(done) pops (p_init (P := TP)) ∅ 0 _ _ _ (ph_init _)).
  change (prun (fun _ => true) pops pc0 = Some (ps1.1.1, ps1.1.2, ps1.2)). unfold ps1.
  assert (Hs : is_true (match prun (fun _ => true) pops pc0 with Some _ => true | None => false end)) by (vm_compute; reflexivity).
  destruct (prun (fun _ => true) pops pc0) as [[[? ?] ?]|]; [reflexivity|done].
Qed.
(** length and nonzero words of the pages in use *)
Lemma pH_dom : map_to_list ((fun ct : list N => (length ct, filter (fun v => v <> 0) ct)) <$> pH) =
  [(4096, (128%nat, [55])); (8392704, (64%nat, [33; 44])); (16781312, (4096%nat, [])); (5120, (64%nat, [66]))].
Proof. vm_compute. reflexivity. Qed.
Lemma pcl k : 6 <= k <= 20 -> pclass (2 ^ k). Proof. intros H. by exists k. Qed.
Definition ex_C70_reserve := @C70_reserve TP TP_ok (fun _ => True) pS pH ps1.2 (2 ^ 7) pH_hist (pcl 7 ltac:(lia)) I.
Lemma ex_C70_contents : exists ct, pH !! 8392704 = Some ct /\ ct !! 63%nat = Some 44 /\ p_mem pS (8392704 + word * 63) = 44 /\ p_mem pS (8392704 + word * 62) = 0.
Proof.
  assert (Hp : exists ct, pH !! 8392704 = Some ct /\ ct !! 63%nat = Some 44 /\ ct !! 62%nat = Some 0).
  { eexists. split; [vm_compute; reflexivity|]. split; vm_compute; reflexivity. }
  destruct Hp as (ct&H1&H2&H3). exists ct. split; [exact H1|]. split; [exact H2|]. split.
  - apply (@C70_contents TP TP_ok (fun _ => True) pS pH ps1.2 _ ct 63 44 pH_hist H1 H2).
  - apply (@C70_contents TP TP_ok (fun _ => True) pS pH ps1.2 _ ct 62 0 pH_hist H1 H3).
Qed.
Lemma ex_C70_free : exists s', @give_page TP 4096 16781312 pS = POk tt s' /\ exists s'', @take_page TP 4096 s' = POk 16781312 s''.
Proof.
  destruct (pH !! 16781312) as [ct|] eqn:Hp; [|exfalso; revert Hp; vm_compute; done].
  apply (@C70_free TP TP_ok (fun _ => True) pS pH ps1.2 4096 16781312 ct pH_hist (pcl 12 ltac:(lia)) I Hp).
  assert (Hl : (length <$> pH !! 16781312) = Some 4096%nat) by (vm_compute; reflexivity). rewrite Hp in Hl. injection Hl as ->. lia.
Qed.
(** one class only: three pages, two given back, 16 to the batch *)
Definition pops2 : list pop := [PTake 65536; PTake 65536; PTake 65536; PGive 65536 4096; PGive 65536 528384; PTake 65536].
Definition ps2 : pconf := default pc0 (prun (N.eqb 65536) pops2 pc0).
Lemma ps2_hist : @phist TP (eq 65536) ps2.1.1 ps2.1.2 ps2.2.
Proof.
  apply (prun_hist (eq 65536) (N.eqb 65536) (fun c => proj1 (N.eqb_eq _ _)) pops2 (p_init (P := TP)) ∅ 0 _ _ _ (ph_init _)).
  change (prun (N.eqb 65536) pops2 pc0 = Some (ps2.1.1, ps2.1.2, ps2.2)). unfold ps2.
  assert (Hs : is_true (match prun (N.eqb 65536) pops2 pc0 with Some _ => true | None => false end)) by (vm_compute; reflexivity).
  destruct (prun (N.eqb 65536) pops2 pc0) as [[[? ?] ?]|]; [reflexivity|done].
Qed.
Lemma ps2_counts : size ps2.1.2 = 2%nat /\ ps2.2 = 3%nat /\ nr_pages 65536 ps2.1.1 = 16.
Proof. vm_compute. done. Qed.
Definition ex_C70_nr_pages := @C70_nr_pages TP TP_ok 65536 ps2.1.1 ps2.1.2 ps2.2 (pcl 16 ltac:(lia)) ps2_hist.

(** ** nodes *)
Inductive nop := NNew (v l r : N) | NFree (p : N).
Definition targetb (L : nodes) (p : N) : bool := (p =? @botsink TE) || (p =? @topsink TE) || match L !! p with Some _ => true | None => false end.
Lemma targetb_ok L p : targetb L p = true -> @target TE L p.
Proof.
  unfold targetb, target. intros [[H%N.eqb_eq|H%N.eqb_eq]%orb_true_iff|H]%orb_true_iff; [by left|by right; left|]. right; right. destruct (L !! p); [by eexists|done].
Qed.
Definition unusedb (L : nodes) (p : N) : bool := forallb (fun x : N * (N * (N * N)) => negb (x.2.2.1 =? p) && negb (x.2.2.2 =? p)) (map_to_list L).
Lemma unusedb_ok L p : unusedb L p = true -> unused L p.
Proof.
  unfold unusedb. rewrite forallb_forall. intros H q v l r Hq. specialize (H (q, (v, (l, r)))). cbn in H.
  assert (In (q, (v, (l, r))) (map_to_list L)) as Hi by (by apply elem_of_list_In, elem_of_map_to_list).
  specialize (H Hi). apply andb_true_iff in H as [H1%negb_true_iff%N.eqb_neq H2%negb_true_iff%N.eqb_neq]. done.
Qed.
Notation nconf := (mstate * nodes * nat)%type.
Definition nstep (o : nop) (x : nconf) : option nconf :=
  let '(s, L, m) := x in
  match o with
  | NNew v l r => if (v <? maxvarsize) && targetb L l && targetb L r then
      match @reserve_node TE s with Ok p s1 => match @init_new_node TE p v l r s1 with Ok _ s2 => Some (s2, <[p := (v, (l, r))]> L, (m `max` S (size L))%nat) | _ => None end | _ => None end else None
  | NFree p => match L !! p with Some _ => if unusedb L p then match @free_node TE p s with Ok _ s' => Some (s', delete p L, m) | _ => None end else None | None => None end
  end.
Fixpoint nrun (l : list nop) (x : nconf) : option nconf :=
  match l with [] => Some x | o :: l => match nstep o x with Some y => nrun l y | None => None end end.
Lemma nstep_hist o s L m s' L' m' : @nhist TE s L m -> nstep o (s, L, m) = Some (s', L', m') -> @nhist TE s' L' m'.
Proof.
  intros Hh. destruct o as [v l r|p]; cbn [nstep].
  - destruct (_ && _ && _) eqn:Hb; [|done]. apply andb_true_iff in Hb as [[Hb1%N.ltb_lt Hb2]%andb_true_iff Hb3].
    destruct (reserve_node s) as [p s1|] eqn:Hr; [|done]. destruct (init_new_node p v l r s1) as [[] s2|] eqn:Hi; [|done].
    intros [= <- <- <-]. eapply nh_reserve; eauto using targetb_ok.
  - destruct (L !! p) as [x|] eqn:Hp; [|done]. destruct (unusedb L p) eqn:Hu; [|done]. destruct (free_node p s) as [[] s1|] eqn:Hf; [|done].
    intros [= <- <- <-]. eapply nh_free; eauto using unusedb_ok.
Qed.
Lemma nrun_hist l : forall s L m s' L' m', @nhist TE s L m -> nrun l (s, L, m) = Some (s', L', m') -> @nhist TE s' L' m'.
Proof.
  induction l as [|o l IH]; intros s L m s' L' m' Hh; cbn [nrun]; [by intros [= <- <- <-]|].
  destruct (nstep o (s, L, m)) as [[[s1 L1] m1]|] eqn:Ho; [|done]. apply IH. by eapply nstep_hist.
Qed.
Notation nb := (@botsink TE). Notation nt := (@topsink TE).
Definition na (k : N) : N := nt + node_size * (k + 1).
(** five nodes; two freed, one of them taken again *)
Definition nops : list nop := [NNew 2 nb nt; NNew 1 nb (na 0); NNew 1 (na 0) (na 0); NNew 0 (na 1) (na 2); NFree (na 3); NFree (na 1); NNew 7 nt (na 2); NNew 9 (na 1) nb].
Definition nc0 : nconf := (@mgr_init TE, ∅, 0%nat).
Definition ns1 : nconf := default nc0 (nrun nops nc0).
Definition nS : mstate := ns1.1.1. Definition nL : nodes := ns1.1.2.
Lemma nL_hist : @nhist TE nS nL ns1.2.
Proof.
  apply (nrun_hist nops (@mgr_init TE) ∅ 0 _ _ _ nh_init). change (nrun nops nc0 = Some (ns1.1.1, ns1.1.2, ns1.2)). unfold ns1.
  assert (Hs : is_true (match nrun nops nc0 with Some _ => true | None => false end)) by (vm_compute; reflexivity).
  destruct (nrun nops nc0) as [[[? ?] ?]|]; [reflexivity|done].
Qed.
Lemma nL_nodes : map_to_list nL = [(na 2, (1, (na 0, na 0))); (na 0, (2, (nb, nt))); (na 3, (9, (na 1, nb))); (na 1, (7, (nt, na 2)))].
Proof. vm_compute. reflexivity. Qed.
Lemma tgt0 : @target TE nL (na 0). Proof. apply targetb_ok. vm_compute. reflexivity. Qed.
Lemma nL1 : nL !! na 1 = Some (7, (nt, na 2)). Proof. vm_compute. reflexivity. Qed.
Lemma nL3 : is_Some (nL !! na 3). Proof. exists (9, (na 1, nb)). vm_compute. reflexivity. Qed.
Lemma nL3u : unused nL (na 3). Proof. apply unusedb_ok. vm_compute. reflexivity. Qed.
Definition ex_C71_reserve := C71_reserve HE0 nS nL ns1.2 5 (na 0) (na 0) nL_hist ltac:(done) tgt0 tgt0.
Definition ex_C71_free := C71_free HE0 nS nL ns1.2 (na 3) nL_hist nL3 nL3u.
Definition ex_C71_contents := C71_contents HE0 nS nL ns1.2 (na 1) 7 nt (na 2) nL_hist nL1.
Definition ex_C71_nr_nodes := C71_nr_nodes HE0 nS nL ns1.2 nL_hist.
Lemma ex_C71_references : exists n, s_heap nS !! na 0 = Some n /\ n_xref n = 2%Z.
Proof.
  assert (Hn : is_Some (s_heap nS !! na 0)) by (vm_compute; eauto). destruct Hn as [n Hn]. exists n. split; [done|].
  rewrite (C71_references HE0 nS nL ns1.2 (na 0) n nL_hist tgt0 Hn). vm_compute. reflexivity.
Qed.
Lemma ns1_peak : ns1.2 = 4%nat. Proof. vm_compute. reflexivity. Qed.
Definition ex_C71_pages := C71_pages HE0 nS nL ns1.2 nL_hist.
