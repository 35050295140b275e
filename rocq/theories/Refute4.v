(** * Refute4.v -- limits of bdd_or_var / reduce (C50) *)
From Verif Require Export Refute3 PropsColl7.
Open Scope N_scope.

Definition R4 (nd : bool) : Env := tenv nd false false.
(** one BDD, from a history of calls *)
Definition chk4 (nd : bool) (os : list op) (i : nat) (c : coll) : bool :=
  let w := @Refute.W (R4 nd) MOrd os in
  bool_decide (is_Some (@go (R4 nd) MOrd os (@w_init (R4 nd)))) && liveb w i && negb (@constb (R4 nd) w i) && (mgr_nr_nodes (w_s w) <? 2 ^ 62) &&
  match @step (R4 nd) (QCollAdd coll_init i) w with
  | WOk (OutC _ c') _ => bool_decide (c_del c' = c_del c) && forallb (fun p => ci_eqb (fst p) (snd p)) (zip (c_ins c') (c_ins c)) && (length (c_ins c') =? length (c_ins c))%nat
  | _ => false
  end.
Lemma chk4_obuilt ed nd os i c : chk4 nd os i c = true -> @obuilt_by (R4 nd) ed c.
Proof.
  unfold chk4. intros [[[[HR Hl%liveb_ok]%andb_true_iff Hc%negb_true_iff%constb_ok]%andb_true_iff Hm%N.ltb_lt]%andb_true_iff Hs]%andb_true_iff.
  assert (HR' : @reach (R4 nd) MOrd (@Refute.W (R4 nd) MOrd os)) by (by apply W_reach).
  destruct (@step (R4 nd) (QCollAdd coll_init i) (@Refute.W (R4 nd) MOrd os)) as [[| | | | | | | | k c'] w'|] eqn:He; try discriminate Hs.
  apply andb_true_iff in Hs as [[Hd%bool_decide_eq_true Hi]%andb_true_iff Hn%Nat.eqb_eq].
  assert (Hcc : c' = c).
  { destruct c' as [ins' del'], c as [ins del]. cbn [c_ins c_del] in *. subst del'. f_equal. clear -Hi Hn. revert ins Hi Hn. induction ins' as [|x ins' IH]; intros [|y ins]; try done.
    cbn [zip forallb zip_with fst snd]. intros [->%ci_eqb_eq Hi]%andb_true_iff Hn. f_equal. apply IH; [done|]. simpl in Hn. lia. }
  subst c'. eapply (@obuilt_add (R4 nd) ed MOrd); [apply (@obuilt_init (R4 nd) ed)|exact eq_refl|exact HR'|exact Hl|exact Hc|exact Hm|exact He].
Qed.
Lemma chk4_built nd os i c : chk4 nd os i c = true -> @built (R4 nd) c.
Proof. intros H. apply obuilt_built. by eapply chk4_obuilt. Qed.

(** ** 128 removed entries *)
(** C50_or_var_drops without its bound on the number of redundant entries *)
Definition or_tidy_any (c : coll) (nr : N) (pos neg : N -> bool) (T : N) : Prop := exists (a b : N), cseg c nr a b /\ ctop_at c nr T /\
  (forall y z, centry c nr y -> centry c nr z -> ~ made_redundant pos neg T y -> redirected pos neg T y = redirected pos neg T z -> y = z) /\
  (forall (y z : instr) (j : N), centry c nr y -> ~ made_redundant pos neg T y -> i_lo (redirected pos neg T y) = j \/ i_hi (redirected pos neg T y) = j -> j < b - 2 ->
     ix (c_ins c) j = Some z -> ~ made_redundant pos neg T z) /\
  (exists y, centry c nr y /\ ~ made_redundant pos neg T y).
Definition C50_any_number_claim (nd : bool) : Prop := forall E, env_ok E -> e_ndebug = nd -> forall c nr pos neg T r,
  @built E c -> csmall c -> nr < nr_bdds c -> or_tidy_any c nr pos neg T -> croot_entry c nr r -> ~ made_redundant pos neg T r ->
  exists c', @bdd_or_var E c nr pos neg = inr (nr_bdds c, c') /\ forall x, ccovers c nr x -> exists d, @cval E c' (nr_bdds c) x = Some d.
(** !x0 & x1 & ... & x130 *)
Definition ops4 : list op := map (fun i => OProj (N.of_nat i)) (seq 0 131) ++ OAnd 129 130 :: map (fun k => OAnd (128 - k) (131 + k))%nat (seq 0 128) ++ [ONot 0; OAnd 259 260].
Definition chain4 (i : nat) : instr := Instr 131 (if (i =? 130)%nat then 132 else N.of_nat i + 1) (N.of_nat i).
Definition c4_ : coll := Coll (Instr 1 131 0 :: map chain4 (seq 1 130) ++ [Instr cbot cbot cbot; Instr ctop ctop ctop]) [0; 133].
Lemma c4_built nd : @built (R4 nd) c4_.
Proof. apply (chk4_built nd ops4 261). destruct nd; comp. Qed.
Definition pos4 (v : N) : bool := (1 <=? v) && (v <=? 130).
Definition neg4 (v : N) : bool := v <=? 130.
Lemma c4_entry y : centry c4_ 0 y -> y ∈ take 131 (c_ins c4_).
Proof. intros (a&b&i&[Ha Hb]&Hi&Hy). injection Ha as <-. injection Hb as <-. apply (elem_of_list_lookup_2 _ (N.to_nat i)). rewrite lookup_take by lia. exact Hy. Qed.
Lemma c4_red y : centry c4_ 0 y -> y = Instr 1 131 0 \/ made_redundant pos4 neg4 132 y.
Proof.
  intros Hy%c4_entry. assert (Hall : forallb (fun y => ci_eqb y (Instr 1 131 0) || (i_lo (redirected pos4 neg4 132 y) =? i_hi (redirected pos4 neg4 132 y))) (take 131 (c_ins c4_)) = true) by comp.
  rewrite forallb_forall in Hall. apply elem_of_list_In in Hy. specialize (Hall y Hy). apply orb_true_iff in Hall as [->%ci_eqb_eq|He%N.eqb_eq]; [by left|by right].
Qed.
Theorem C50_any_number_refuted nd : ~ C50_any_number_claim nd.
Proof.
  intros H. assert (Hnd : @e_ndebug (R4 nd) = nd) by done. assert (Hsm : csmall c4_) by (apply N.ltb_lt; comp).
  assert (Hroot : centry c4_ 0 (Instr 1 131 0)) by (exists 0, 133, 0; split_and!; try done; comp).
  assert (Hnr : ~ made_redundant pos4 neg4 132 (Instr 1 131 0)) by (intros He; vm_compute in He; discriminate He).
  assert (Ht : or_tidy_any c4_ 0 pos4 neg4 132).
  { exists 0, 133. split; [done|]. split; [exists 0, 133, (Instr ctop ctop ctop); split_and!; try done; comp|]. split; [|split; [|by exists (Instr 1 131 0)]].
    - intros y z Hy Hz Hny He. destruct (c4_red y Hy) as [->|?]; [|done]. destruct (c4_red z Hz) as [->|Hm]; [done|]. exfalso. apply Hny. unfold made_redundant in *. by rewrite He.
    - intros y z j Hy Hny Harc Hj _. destruct (c4_red y Hy) as [->|?]; [|done]. exfalso. clear -Harc Hj. cbn in Harc. destruct Harc as [<-|<-]; cbn in Hj; lia. }
  destruct (H (R4 nd) (tenv_ok _ _ _) Hnd c4_ 0 pos4 neg4 132 (Instr 1 131 0) (c4_built nd) Hsm eq_refl Ht) as (c'&Hr&Hx); [by exists 0|done|].
  destruct nd.
  - assert (Hcov : ccovers c4_ 0 (repeat false 131)).
    { intros v (y&Hy%c4_entry&<-). assert (Hall : forallb (fun y => i_idx y <? 131) (take 131 (c_ins c4_)) = true) by comp.
      rewrite forallb_forall in Hall. apply elem_of_list_In in Hy. specialize (Hall y Hy). apply N.ltb_lt in Hall. by rewrite repeat_length. }
    destruct (Hx _ Hcov) as [d Hd].
    assert (Hv : match @bdd_or_var (R4 true) c4_ 0 pos4 neg4 with inr (r, c'') => @cval (R4 true) c'' (nr_bdds c4_) (repeat false 131) = None | inl _ => False end) by comp.
    rewrite Hr in Hv. rewrite Hv in Hd. discriminate Hd.
  - assert (Hv : match @bdd_or_var (R4 false) c4_ 0 pos4 neg4 with inr _ => False | inl _ => True end) by (vm_compute; exact I). by rewrite Hr in Hv.
Qed.

(** ** duplicates below the children of the root *)
(** when redirecting makes no entry redundant, and the root stays different from the others, bdd_or_var returns *)
Definition C50_merge_claim (nd : bool) : Prop := forall E, env_ok E -> e_ndebug = nd -> forall c nr pos neg T,
  @built E c -> csmall c -> nr < nr_bdds c -> ctop_at c nr T -> root_kept c nr pos neg -> (forall y, centry c nr y -> ~ made_redundant pos neg T y) ->
  exists k c', @bdd_or_var E c nr pos neg = inr (k, c').
(** x0 & (x1 ? !x2 & x3 : !x2), or !x2 *)
Definition ops5 : list op := [OProj 0; OProj 1; OProj 2; OProj 3; ONot 2; OAnd 4 3; OIte 1 5 4; OAnd 0 6].
Definition c5_ : coll := Coll [Instr 5 1 0; Instr 4 2 1; Instr 3 5 2; Instr 5 6 3; Instr 6 5 2; Instr cbot cbot cbot; Instr ctop ctop ctop] [0; 7].
Lemma c5_built nd : @built (R4 nd) c5_.
Proof. apply (chk4_built nd ops5 7). destruct nd; comp. Qed.

Definition neg5 (v : N) : bool := v =? 2.
Lemma c5_entry y : centry c5_ 0 y -> y ∈ take 5 (c_ins c5_).
Proof. intros (a&b&i&[Ha Hb]&Hi&Hy). injection Ha as <-. injection Hb as <-. apply (elem_of_list_lookup_2 _ (N.to_nat i)). rewrite lookup_take by lia. exact Hy. Qed.
Theorem C50_merge_refuted nd : ~ C50_merge_claim nd.
Proof.
  intros H. assert (Hnd : @e_ndebug (R4 nd) = nd) by done. assert (Hsm : csmall c5_) by (apply N.ltb_lt; comp).
  assert (Htop : ctop_at c5_ 0 6) by (exists 0, 7, (Instr ctop ctop ctop); split_and!; try done; comp).
  assert (Hnr : forall y, centry c5_ 0 y -> ~ made_redundant (fun _ => false) neg5 6 y).
  { intros y Hy%c5_entry. cbn in Hy. unfold made_redundant, redirected. repeat (apply elem_of_cons in Hy as [->|Hy]; [cbn; lia|]). by apply elem_of_nil in Hy. }
  assert (Hk : root_kept c5_ 0 (fun _ => false) neg5).
  { exists 6, (Instr 5 1 0). split; [done|]. split; [by exists 0|]. split; [cbn; lia|]. intros y Hy%c5_entry. cbn in Hy. unfold redirected.
    repeat (apply elem_of_cons in Hy as [->|Hy]; [cbn; intros [=]; done|]). by apply elem_of_nil in Hy. }
  destruct (H (R4 nd) (tenv_ok _ _ _) Hnd c5_ 0 _ _ 6 (c5_built nd) Hsm eq_refl Htop Hk Hnr) as (k&c'&Hr). clear -Hr.
  assert (Hv : match @bdd_or_var (R4 nd) c5_ 0 (fun _ => false) neg5 with inr _ => False | inl _ => True end) by (destruct nd; vm_compute; exact I). by rewrite Hr in Hv.
Qed.
