(** * Nary.v -- n-ary operations and counting constraints *)
From Verif Require Export Ite.
Open Scope N_scope.
#[global] Arguments Nat.div : simpl never.

(** number of functions true under [r] *)
Definition cnt (phis : list bfun) (r : asgn) : nat := length (filter (fun b : bool => b = true) (map (fun phi : bfun => phi r) phis)).

Lemma cnt_nil r : cnt [] r = 0%nat.
Proof. done. Qed.
Lemma cnt_cons phi phis r : cnt (phi :: phis) r = ((if phi r then 1 else 0) + cnt phis r)%nat.
Proof. unfold cnt. simpl. rewrite filter_cons. destruct (phi r); case_decide; try done. Qed.
Lemma cnt_app a b r : cnt (a ++ b) r = (cnt a r + cnt b r)%nat.
Proof. unfold cnt. by rewrite map_app, filter_app, app_length. Qed.
Lemma cnt_le phis r : (cnt phis r <= length phis)%nat.
Proof. unfold cnt. etrans; [apply filter_length|]. by rewrite map_length. Qed.
Lemma cnt_split n phis r : cnt phis r = (cnt (take n phis) r + cnt (drop n phis) r)%nat.
Proof. by rewrite <- cnt_app, take_drop. Qed.

Section nary.
Context {E : Env} (HE : env_ok E) (P : Prop).
Local Notation den := (denp P).
Local Notation post := (postp P).

Definition dens (s : mstate) (l : list ptr) (phis : list bfun) : Prop := Forall2 (den s) l phis.
Lemma dens_ext s s' l phis : ext s s' -> dens s l phis -> dens s' l phis.
Proof. intros He Hd. eapply Forall2_impl; [exact Hd|]. intros. by eapply denp_ext. Qed.
Lemma dens_take s l phis n : dens s l phis -> dens s (take n l) (take n phis).
Proof. apply Forall2_take. Qed.
Lemma dens_drop s l phis n : dens s l phis -> dens s (drop n l) (drop n phis).
Proof. apply Forall2_drop. Qed.
Lemma dens_length s l phis : dens s l phis -> length l = length phis.
Proof. apply Forall2_length. Qed.

(** denotation-level specifications *)
Definition spec1 md H (m : ptr -> M ptr) (opb : bool -> bool) := forall s f phi,
  Inv md H s -> den s f phi -> sat (m f) s (post md H s (fun r => opb (phi r))).
Definition spec2 md H (m : ptr -> ptr -> M ptr) (opb : bool -> bool -> bool) := forall s f g phi psi,
  Inv md H s -> den s f phi -> den s g psi -> sat (m f g) s (post md H s (fun r => opb (phi r) (psi r))).

Lemma negate_den md H : spec1 md H negate negb.
Proof.
  intros s f phi HI (t&Hr&Ht). eapply sat_mono; [by apply (negate_spec HE md H s f t)|].
  intros p s' Hp. eapply postp_proper; [|by apply post_postp]. intros HP r. cbv beta. by rewrite (Ht HP).
Qed.
Lemma and_den md H : spec2 md H and_rec andb.
Proof.
  intros s f g phi psi HI (t&Hr&Ht) (u&Hr'&Hu). eapply sat_mono; [by apply (and_spec HE md H s f g t u)|].
  intros p s' Hp. eapply postp_proper; [|by apply post_postp]. intros HP r. cbv beta. by rewrite (Ht HP), (Hu HP).
Qed.
Lemma postp_cond (P1 : Prop) md H s phi psi p s' : (P -> P1) -> (P -> forall r, phi r = psi r) -> postp P1 md H s phi p s' -> post md H s psi p s'.
Proof. intros H1 He (?&?&t&?&Ht). split_and!; auto. exists t. split; [done|]. intros HP r. by rewrite <- He, Ht by auto. Qed.
Lemma or_den md H : md_or md = true -> (P -> md_xor md = false) -> spec2 md H or_rec orb.
Proof.
  intros Hmd HP s f g phi psi HI (t&Hr&Ht) (u&Hr'&Hu). eapply sat_mono; [by apply (or_spec HE md H s f g t u)|].
  intros p s'. apply postp_cond; [done|]. intros HP' r. cbv beta. by rewrite (Ht HP'), (Hu HP').
Qed.
Lemma xor_den md H : md_xor md = true -> (P -> md_or md = false) -> spec2 md H xor_rec xorb.
Proof.
  intros Hmd HP s f g phi psi HI (t&Hr&Ht) (u&Hr'&Hu). eapply sat_mono; [by apply (xor_spec HE md H s f g t u)|].
  intros p s'. apply postp_cond; [done|]. intros HP' r. cbv beta. by rewrite (Ht HP'), (Hu HP').
Qed.

(** sequencing of two denotation-producing computations *)
Lemma step_den md H s (m : M ptr) (k : ptr -> M ptr) phi psi :
  sat m s (post md H s phi) ->
  (forall p s', Inv md H s' -> ext s s' -> den s' p phi -> sat (k p) s' (post md H s' psi)) ->
  sat (bind m k) s (post md H s psi).
Proof.
  intros Hm Hk. eapply sat_step; [exact Hm|]. intros p s' (HI&He&Hd).
  eapply sat_mono; [by apply Hk|]. intros q s''. by apply postp_trans.
Qed.

Lemma sat_post_proper md H (m : M ptr) s phi psi :
  sat m s (post md H s phi) -> (forall r, phi r = psi r) -> sat m s (post md H s psi).
Proof. intros Hm He. eapply sat_mono; [exact Hm|]. intros p s'. by apply postp_proper. Qed.

Lemma args2_op md H s (a b : M ptr) (m : ptr -> ptr -> M ptr) opb phi psi : spec2 md H m opb ->
  (forall s0, Inv md H s0 -> ext s s0 -> sat a s0 (post md H s0 phi)) ->
  (forall s0, Inv md H s0 -> ext s s0 -> sat b s0 (post md H s0 psi)) ->
  Inv md H s ->
  sat (let* (x, y) := args2 a b in m x y) s (post md H s (fun r => opb (phi r) (psi r))).
Proof.
  intros Hm Ha Hb HI. eapply sat_step; [by apply (args2_spec P md H s a b phi psi)|].
  intros [x y] s1 (HI1&He1&Hx&Hy). eapply sat_mono; [by apply (Hm s1 x y phi psi)|].
  intros p s'. by apply postp_trans.
Qed.

(** ** n-ary *)
Section monoid.
Context (md : mode) (H : ptr -> Z) (m : ptr -> ptr -> M ptr) (opb : bool -> bool -> bool) (e : bool).
Context (Hspec : spec2 md H m opb).
Context (Hassoc : forall a b c, opb a (opb b c) = opb (opb a b) c) (Hl : forall a, opb e a = a) (Hr : forall a, opb a e = a).

Definition fold_op (phis : list bfun) (r : asgn) : bool := foldr opb e (map (fun phi : bfun => phi r) phis).
Lemma fold_op_app a b r : fold_op (a ++ b) r = opb (fold_op a r) (fold_op b r).
Proof.
  unfold fold_op. induction a as [|x a IH]; simpl; [by rewrite Hl|]. by rewrite IH, Hassoc.
Qed.

Lemma nary_variadic_spec tail : forall s p phi psis, tail <> [] -> Inv md H s -> den s p phi -> dens s tail psis ->
  sat (nary_variadic m p tail) s (post md H s (fold_op (phi :: psis))).
Proof.
  induction tail as [|q tail IH]; intros s p phi psis Hne HI Hp Ht; [done|].
  inversion Ht as [|? psi ? psis' Hq Ht']; subst. destruct tail as [|q' tail].
  - inversion Ht'; subst. eapply sat_post_proper; [by apply (Hspec s p q phi psi)|].
    intros r. unfold fold_op. simpl. by rewrite Hr.
  - eapply step_den; [by apply (IH s q psi psis')|]. intros t s' HI' He' Hd'.
    eapply sat_post_proper; [eapply (Hspec s' p t phi _ HI'); [by eapply denp_ext|exact Hd']|]. done.
Qed.

Lemma nary_range_spec fuel : forall s l phis, (2 <= length l)%nat -> (length l < fuel)%nat -> Inv md H s -> dens s l phis ->
  sat (nary_range m fuel l) s (post md H s (fold_op phis)).
Proof.
  induction fuel as [|fuel IH]; intros s l phis Hlen Hf HI Hd; [lia|]. simpl.
  eapply sat_bind_ok; [apply assert_eq, N.leb_le; lia|].
  destruct l as [|a [|b [|c [|d l]]]]; simpl in Hlen; try lia.
  - inversion Hd as [|? pa ? ? Ha Hd1]; subst. inversion Hd1 as [|? pb ? ? Hb Hd2]; subst. inversion Hd2; subst.
    eapply sat_post_proper; [by apply (Hspec s a b pa pb)|]. intros r. unfold fold_op. simpl. by rewrite Hr.
  - inversion Hd as [|? pa ? ? Ha Hd1]; subst. inversion Hd1 as [|? pb ? ? Hb Hd2]; subst.
    inversion Hd2 as [|? pc ? ? Hc Hd3]; subst. inversion Hd3; subst.
    eapply step_den; [by apply (Hspec s b c pb pc)|]. intros t s' HI' He' Hd'.
    eapply sat_post_proper; [eapply (Hspec s' a t pa _ HI'); [by eapply denp_ext|exact Hd']|].
    intros r. unfold fold_op. simpl. by rewrite Hr.
  - set (ll := a :: b :: c :: d :: l) in *. set (n := (length ll / 2)%nat).
    assert (Hn : (2 <= n /\ n + 2 <= length ll)%nat).
    { unfold n, ll. simpl length. pose proof (Nat.div_mod (S (S (S (S (length l))))) 2 ltac:(lia)).
      pose proof (Nat.mod_upper_bound (S (S (S (S (length l))))) 2 ltac:(lia)). lia. }
    eapply step_den.
    { apply (IH s (take n ll) (take n phis)); auto using dens_take; rewrite take_length; lia. }
    intros a1 s1 HI1 He1 Hd1. eapply step_den.
    { apply (IH s1 (drop n ll) (drop n phis)); auto; [rewrite drop_length; lia..|]. apply dens_drop. by eapply dens_ext. }
    intros a2 s2 HI2 He2 Hd2. eapply sat_post_proper; [eapply (Hspec s2 a1 a2 _ _ HI2); [by eapply denp_ext|exact Hd2]|].
    intros r. cbv beta. by rewrite <- fold_op_app, take_drop.
Qed.
End monoid.

Lemma fold_and phis r : fold_op andb true phis r = forallb (fun phi : bfun => phi r) phis.
Proof. unfold fold_op. induction phis as [|x l IH]; simpl; [done|]. by rewrite IH. Qed.
Lemma and_range_spec md H s l phis : (2 <= length l)%nat -> Inv md H s -> dens s l phis ->
  sat (and_range l) s (post md H s (fun r => forallb (fun phi : bfun => phi r) phis)).
Proof.
  intros. eapply sat_post_proper.
  - apply (nary_range_spec md H and_rec andb true) with (phis := phis); auto using and_den, andb_assoc, andb_true_r.
  - intros r. apply fold_and.
Qed.
Lemma fold_or phis r : fold_op orb false phis r = existsb (fun phi : bfun => phi r) phis.
Proof. unfold fold_op. induction phis as [|x l IH]; simpl; [done|]. by rewrite IH. Qed.
Lemma fold_xor phis r : fold_op xorb false phis r = Nat.odd (cnt phis r).
Proof.
  unfold fold_op. induction phis as [|x l IH]; [done|]. rewrite cnt_cons. simpl. rewrite IH.
  destruct (x r); simpl; [rewrite Nat.odd_succ, <- Nat.negb_odd; by destruct (Nat.odd _)|by destruct (Nat.odd _)].
Qed.
Lemma or_range_spec md H s l phis : md_or md = true -> (P -> md_xor md = false) -> (2 <= length l)%nat -> Inv md H s -> dens s l phis ->
  sat (or_range l) s (post md H s (fun r => existsb (fun phi : bfun => phi r) phis)).
Proof.
  intros. eapply sat_post_proper.
  - apply (nary_range_spec md H or_rec orb false) with (phis := phis); auto using or_den, orb_assoc, orb_false_r.
  - intros r. apply fold_or.
Qed.
Lemma xor_range_spec md H s l phis : md_xor md = true -> (P -> md_or md = false) -> (2 <= length l)%nat -> Inv md H s -> dens s l phis ->
  sat (xor_range l) s (post md H s (fun r => Nat.odd (cnt phis r))).
Proof.
  intros. eapply sat_post_proper.
  - apply (nary_range_spec md H xor_rec xorb false) with (phis := phis); auto using xor_den, xorb_false_r, xorb_false_l.
    intros. by rewrite xorb_assoc.
  - intros r. apply fold_xor.
Qed.
Lemma and_variadic_spec md H s p tail phi psis : tail <> [] -> Inv md H s -> den s p phi -> dens s tail psis ->
  sat (and_variadic p tail) s (post md H s (fun r => forallb (fun f : bfun => f r) (phi :: psis))).
Proof.
  intros. eapply sat_post_proper.
  - apply (nary_variadic_spec md H and_rec andb true) with (phi := phi) (psis := psis); auto using and_den, andb_true_r.
  - intros r. apply fold_and.
Qed.
Lemma or_variadic_spec md H s p tail phi psis : md_or md = true -> (P -> md_xor md = false) -> tail <> [] -> Inv md H s -> den s p phi -> dens s tail psis ->
  sat (or_variadic p tail) s (post md H s (fun r => existsb (fun f : bfun => f r) (phi :: psis))).
Proof.
  intros. eapply sat_post_proper.
  - apply (nary_variadic_spec md H or_rec orb false) with (phi := phi) (psis := psis); auto using or_den, orb_false_r.
  - intros r. apply fold_or.
Qed.
Lemma xor_variadic_spec md H s p tail phi psis : md_xor md = true -> (P -> md_or md = false) -> tail <> [] -> Inv md H s -> den s p phi -> dens s tail psis ->
  sat (xor_variadic p tail) s (post md H s (fun r => Nat.odd (cnt (phi :: psis) r))).
Proof.
  intros. eapply sat_post_proper.
  - apply (nary_variadic_spec md H xor_rec xorb false) with (phi := phi) (psis := psis); auto using xor_den, xorb_false_r.
  - intros r. apply fold_xor.
Qed.

(** ** all_false *)
Lemma half_bounds (n : nat) : (2 <= n)%nat -> (1 <= n / 2 /\ n / 2 < n)%nat.
Proof.
  intros Hn. pose proof (Nat.div_mod n 2 ltac:(lia)). pose proof (Nat.mod_upper_bound n 2 ltac:(lia)). lia.
Qed.

Lemma all_false_fuel_spec md H fuel : forall s l phis, (1 <= length l)%nat -> (length l < fuel)%nat -> Inv md H s -> dens s l phis ->
  sat (all_false_fuel fuel l) s (post md H s (fun r => cnt phis r =? 0)%nat).
Proof.
  induction fuel as [|fuel IH]; intros s l phis Hlen Hf HI Hd; [lia|]. simpl.
  eapply sat_bind_ok; [apply assert_eq, N.ltb_lt; lia|].
  destruct l as [|a [|b [|c l]]]; simpl in Hlen; try lia.
  - inversion Hd as [|? pa ? ? Ha Hd1]; subst. inversion Hd1; subst.
    eapply sat_post_proper; [by apply (negate_den md H s a pa)|]. intros r. rewrite cnt_cons. by destruct (pa r).
  - inversion Hd as [|? pa ? ? Ha Hd1]; subst. inversion Hd1 as [|? pb ? ? Hb Hd2]; subst. inversion Hd2; subst.
    eapply sat_post_proper.
    + apply (args2_op md H s _ _ and_rec andb (fun r => negb (pa r)) (fun r => negb (pb r))); auto using and_den.
      * intros s0 HI0 He0. apply negate_den; [done|]. by eapply denp_ext.
      * intros s0 HI0 He0. apply negate_den; [done|]. by eapply denp_ext.
    + intros r. rewrite !cnt_cons. by destruct (pa r), (pb r).
  - set (ll := a :: b :: c :: l) in *. set (n := (length ll / 2)%nat).
    pose proof (half_bounds (length ll) ltac:(unfold ll; simpl; lia)) as [Hn1 Hn2]. fold n in Hn1, Hn2.
    eapply sat_post_proper.
    + apply (args2_op md H s _ _ and_rec andb (fun r => cnt (take n phis) r =? 0)%nat (fun r => cnt (drop n phis) r =? 0)%nat); auto using and_den.
      * intros s0 HI0 He0. apply IH; auto; [rewrite take_length; lia..|]. apply dens_take. by eapply dens_ext.
      * intros s0 HI0 He0. apply IH; auto; [rewrite drop_length; lia..|]. apply dens_drop. by eapply dens_ext.
    + intros r. cbv beta. rewrite (cnt_split n phis r).
      destruct (cnt (take n phis) r), (cnt (drop n phis) r); done.
Qed.
Lemma all_false_spec md H s l phis : (1 <= length l)%nat -> Inv md H s -> dens s l phis ->
  sat (all_false l) s (post md H s (fun r => cnt phis r =? 0)%nat).
Proof. intros. apply all_false_fuel_spec; auto. Qed.

Lemma at_least_one_spec md H s l phis : (1 <= length l)%nat -> Inv md H s -> dens s l phis ->
  sat (at_least_one l) s (post md H s (fun r => 1 <=? cnt phis r)%nat).
Proof.
  intros Hl HI Hd. eapply step_den; [by apply all_false_spec|]. intros p s' HI' He' Hp.
  eapply sat_post_proper; [by apply negate_den|]. intros r. cbv beta. by destruct (cnt phis r).
Qed.

(** ** at_most_one, simplex *)
Section with_or.
Context (md : mode) (H : ptr -> Z) (Hmd : md_or md = true) (HPo : P -> md_xor md = false).

Lemma not_both_spec s a b pa pb : Inv md H s -> den s a pa -> den s b pb ->
  sat (not_both a b) s (post md H s (fun r => negb (pa r && pb r))).
Proof.
  intros HI Ha Hb. unfold not_both. eapply sat_post_proper.
  - apply (args2_op md H s _ _ or_rec orb (fun r => negb (pa r)) (fun r => negb (pb r))); auto using or_den.
    + intros s0 HI0 He0. apply negate_den; [done|]. by eapply denp_ext.
    + intros s0 HI0 He0. apply negate_den; [done|]. by eapply denp_ext.
  - intros r. cbv beta. by destruct (pa r), (pb r).
Qed.

Lemma args3_spec s (a b c : M ptr) phi psi chi :
  (forall s0, Inv md H s0 -> ext s s0 -> sat a s0 (post md H s0 phi)) ->
  (forall s0, Inv md H s0 -> ext s s0 -> sat b s0 (post md H s0 psi)) ->
  (forall s0, Inv md H s0 -> ext s s0 -> sat c s0 (post md H s0 chi)) ->
  Inv md H s ->
  sat (args3 a b c) s (fun xyz s' => Inv md H s' /\ ext s s' /\ den s' xyz.1.1 phi /\ den s' xyz.1.2 psi /\ den s' xyz.2 chi).
Proof.
  intros Ha Hb Hc HI. unfold args3. destruct e_rtl.
  - eapply sat_step; [apply Hc; auto using ext_refl|]. intros z s1 (HI1&He1&Hd1).
    eapply sat_step; [apply Hb; auto|]. intros y s2 (HI2&He2&Hd2).
    pose proof (ext_trans _ _ _ He1 He2).
    eapply sat_step; [apply Ha; auto|]. intros x s3 (HI3&He3&Hd3). apply sat_ret. simpl.
    split_and!; auto; eauto using ext_trans, denp_ext.
  - eapply sat_step; [apply Ha; auto using ext_refl|]. intros z s1 (HI1&He1&Hd1).
    eapply sat_step; [apply Hb; auto|]. intros y s2 (HI2&He2&Hd2).
    pose proof (ext_trans _ _ _ He1 He2).
    eapply sat_step; [apply Hc; auto|]. intros x s3 (HI3&He3&Hd3). apply sat_ret. simpl.
    split_and!; auto; eauto using ext_trans, denp_ext.
Qed.

Lemma at_most_one_fuel_spec fuel : forall s l phis, (1 <= length l)%nat -> (length l < fuel)%nat -> Inv md H s -> dens s l phis ->
  sat (at_most_one_fuel fuel l) s (post md H s (fun r => cnt phis r <=? 1)%nat).
Proof.
  induction fuel as [|fuel IH]; intros s l phis Hlen Hf HI Hd; [lia|]. simpl.
  eapply sat_bind_ok; [apply assert_eq, N.ltb_lt; lia|].
  destruct l as [|a [|b [|c [|d l]]]]; simpl in Hlen; try lia.
  - inversion Hd as [|? pa ? ? Ha Hd1]; subst. inversion Hd1; subst.
    apply sat_ret, postp_here; [done|]. eapply denp_proper; [|apply den_denp, den_top]. intros _ r. rewrite cnt_cons. by destruct (pa r).
  - inversion Hd as [|? pa ? ? Ha Hd1]; subst. inversion Hd1 as [|? pb ? ? Hb Hd2]; subst. inversion Hd2; subst.
    eapply sat_post_proper; [by apply (not_both_spec s a b pa pb)|].
    intros r. rewrite !cnt_cons. by destruct (pa r), (pb r).
  - inversion Hd as [|? pa ? ? Ha Hd1]; subst. inversion Hd1 as [|? pb ? ? Hb Hd2]; subst.
    inversion Hd2 as [|? pc ? ? Hc Hd3]; subst. inversion Hd3; subst.
    eapply sat_step.
    { apply (args3_spec s _ _ _ (fun r => negb (pa r && pb r)) (fun r => negb (pa r && pc r)) (fun r => negb (pb r && pc r))); auto;
        intros s0 HI0 He0; apply not_both_spec; auto; by eapply denp_ext. }
    intros [[x y] z] s1 (HI1&He1&Hx&Hy&Hz). simpl in *.
    eapply sat_mono; [eapply (and_variadic_spec md H s1 x [y; z] _ [_; _]); [done|done|exact Hx|by repeat constructor]|].
    intros p s' Hp. eapply postp_trans; [exact He1|]. eapply postp_proper; [|exact Hp].
    intros _ r. cbv beta. rewrite !cnt_cons. simpl. by destruct (pa r), (pb r), (pc r).
  - set (ll := a :: b :: c :: d :: l) in *. set (n := (length ll / 2)%nat).
    pose proof (half_bounds (length ll) ltac:(unfold ll; simpl; lia)) as [Hn1 Hn2]. fold n in Hn1, Hn2.
    eapply step_den.
    { apply (IH s (take n ll) (take n phis)); auto using dens_take; rewrite take_length; lia. }
    intros amo1 s1 HI1 He1 Hd1. eapply step_den.
    { apply (all_false_spec md H s1 (take n ll) (take n phis)); auto; [rewrite take_length; lia|].
      apply dens_take. by eapply dens_ext. }
    intros af1 s2 HI2 He2 Hd2. pose proof (ext_trans _ _ _ He1 He2) as He02. eapply step_den.
    { apply (IH s2 (drop n ll) (drop n phis)); auto; [rewrite drop_length; lia..|]. apply dens_drop. by eapply dens_ext. }
    intros amo2 s3 HI3 He3 Hd3. pose proof (ext_trans _ _ _ He02 He3) as He03. eapply step_den.
    { apply (all_false_spec md H s3 (drop n ll) (drop n phis)); auto; [rewrite drop_length; lia|].
      apply dens_drop. by eapply dens_ext. }
    intros af2 s4 HI4 He4 Hd4. pose proof (ext_trans _ _ _ He03 He4) as He04.
    eapply sat_post_proper.
    { apply (args2_op md H s4 _ _ or_rec orb
        (fun r => (cnt (take n phis) r <=? 1)%nat && (cnt (drop n phis) r =? 0)%nat)
        (fun r => (cnt (drop n phis) r <=? 1)%nat && (cnt (take n phis) r =? 0)%nat)); auto using or_den.
      - intros s0 HI0 He0. apply and_den; eauto 10 using denp_ext, ext_trans.
      - intros s0 HI0 He0. apply and_den; eauto 10 using denp_ext, ext_trans. }
    intros r. cbv beta. rewrite (cnt_split n phis r).
    destruct (cnt (take n phis) r) as [|[|]], (cnt (drop n phis) r) as [|[|]]; done.
Qed.
Lemma at_most_one_spec s l phis : (1 <= length l)%nat -> Inv md H s -> dens s l phis ->
  sat (at_most_one l) s (post md H s (fun r => cnt phis r <=? 1)%nat).
Proof. intros. apply at_most_one_fuel_spec; auto. Qed.

Lemma existsb_cnt phis r : existsb (fun phi : bfun => phi r) phis = (1 <=? cnt phis r)%nat.
Proof. induction phis as [|x l IH]; [done|]. rewrite cnt_cons. simpl. rewrite IH. destruct (x r); [|done]. simpl. done. Qed.

Lemma simplex_spec s l phis : (1 <= length l)%nat -> Inv md H s -> dens s l phis ->
  sat (simplex l) s (post md H s (fun r => cnt phis r =? 1)%nat).
Proof.
  intros Hl HI Hd. unfold simplex. eapply sat_bind_ok; [apply assert_eq, N.ltb_lt; lia|].
  destruct l as [|a [|b l]]; simpl in Hl; [lia| |].
  - inversion Hd as [|? pa ? ? Ha Hd1]; subst. inversion Hd1; subst. apply sat_ret, postp_here; [done|].
    eapply denp_proper; [|exact Ha]. intros _ r. rewrite cnt_cons. by destruct (pa r).
  - eapply step_den; [apply (or_range_spec md H s (a :: b :: l) phis); auto; simpl; lia|].
    intros p s1 HI1 He1 Hp. eapply step_den; [apply (at_most_one_spec s1 (a :: b :: l) phis); auto; by eapply dens_ext|].
    intros q s2 HI2 He2 Hq. eapply sat_post_proper; [eapply (and_den md H s2 p q _ _ HI2); [by eapply denp_ext|exact Hq]|].
    intros r. cbv beta. rewrite existsb_cnt. destruct (cnt phis r) as [|[|]]; done.
Qed.

(** ** at_least, at_most, cardinality *)
Lemma tabulateM_spec (f : nat -> M ptr) (F : nat -> bfun) is_ : forall s,
  Inv md H s ->
  (forall i s0, i ∈ is_ -> Inv md H s0 -> ext s s0 -> sat (f i) s0 (post md H s0 (F i))) ->
  sat (tabulateM f is_) s (fun l s' => Inv md H s' /\ ext s s' /\ dens s' l (map F is_)).
Proof.
  induction is_ as [|i is_ IH]; intros s HI Hf; simpl.
  { apply sat_ret. split_and!; [done|apply ext_refl|constructor]. }
  eapply sat_step; [apply (Hf i s); auto using ext_refl; by left|]. intros x s1 (HI1&He1&Hx).
  eapply sat_step.
  { apply (IH s1 HI1). intros j s0 Hj HI0 He0. apply Hf; auto; [by right|by eapply ext_trans]. }
  intros xs s2 (HI2&He2&Hxs). apply sat_ret. split_and!; auto; [by eapply ext_trans|].
  constructor; [by eapply denp_ext|done].
Qed.

Lemma dens_lookup s l phis i phi : dens s l phis -> phis !! i = Some phi -> exists p, l !! i = Some p /\ den s p phi.
Proof. intros Hd Hi. eapply Forall2_lookup_r in Hd as (p&?&?); eauto. Qed.

Lemma combine_halves_spec (rec : list ptr -> nat -> M ptr) (F : list bfun -> nat -> bfun) s l phis b :
  (2 <= length l)%nat -> (1 <= b)%nat -> Inv md H s -> dens s l phis ->
  (forall s0 l' phis' i, (1 <= length l')%nat -> (length l' < length l)%nat -> Inv md H s0 -> dens s0 l' phis' ->
     sat (rec l' i) s0 (post md H s0 (F phis' i))) ->
  sat (combine_halves rec l b) s (post md H s (fun r =>
    let n := (length phis / 2)%nat in
    existsb (fun i => F (take n phis) i r && F (drop n phis) (b - i)%nat r) (seq 0 (S b)))).
Proof.
  intros Hl Hb HI Hd Hrec. unfold combine_halves. rewrite <- (dens_length _ _ _ Hd). cbv zeta. set (n := (length l / 2)%nat).
  pose proof (half_bounds (length l) Hl) as [Hn1 Hn2]. fold n in Hn1, Hn2.
  eapply sat_step.
  { apply (tabulateM_spec (rec (take n l)) (F (take n phis)) (seq 0 (S b)) s HI).
    intros i s0 _ HI0 He0. apply Hrec; auto; [rewrite take_length; lia..|]. apply dens_take. by eapply dens_ext. }
  intros lefts s1 (HI1&He1&Hlefts). eapply sat_step.
  { apply (tabulateM_spec (rec (drop n l)) (F (drop n phis)) (seq 0 (S b)) s1 HI1).
    intros i s0 _ HI0 He0. apply Hrec; auto; [rewrite drop_length; lia..|]. apply dens_drop.
    eapply dens_ext; [|exact Hd]. by eapply ext_trans. }
  intros rights s2 (HI2&He2&Hrights). pose proof (dens_ext _ _ _ _ He2 Hlefts) as Hlefts2.
  eapply sat_step.
  { apply (tabulateM_spec _ (fun i r => F (take n phis) i r && F (drop n phis) (b - i)%nat r) (seq 0 (S b)) s2 HI2).
    intros i s0 Hi HI0 He0. apply elem_of_seq in Hi.
    assert (Hlk : forall G : nat -> bfun, forall j, (j <= b)%nat -> map G (seq 0 (S b)) !! j = Some (G j)).
    { intros G j Hj. rewrite list_lookup_fmap, lookup_seq_lt by lia. done. }
    destruct (dens_lookup _ _ _ i _ Hlefts2 (Hlk _ i ltac:(lia))) as (x&Hx&Hdx).
    destruct (dens_lookup _ _ _ (b - i)%nat _ Hrights (Hlk _ (b - i)%nat ltac:(lia))) as (y&Hy&Hdy).
    eapply sat_bind_ok; [unfold vec_at; rewrite Hx; reflexivity|].
    eapply sat_bind_ok; [unfold vec_at; rewrite Hy; reflexivity|].
    apply and_den; auto; by eapply denp_ext. }
  intros comb s3 (HI3&He3&Hcomb).
  pose proof (dens_length _ _ _ Hcomb) as Hlen. rewrite map_length, seq_length in Hlen.
  eapply sat_mono; [eapply (or_range_spec md H s3 comb _ Hmd HPo ltac:(lia) HI3 Hcomb)|].
  intros p s' Hp. eapply postp_trans; [|eapply postp_proper; [|exact Hp]].
  - eauto using ext_trans.
  - intros _ r. cbv beta. generalize (seq 0 (S b)). intros is_. induction is_ as [|i is_ IH]; [done|]. simpl. by rewrite IH.
Qed.

Lemma existsb_seq (Q : nat -> bool) b : existsb Q (seq 0 (S b)) = true <-> exists i, (i <= b)%nat /\ Q i = true.
Proof.
  rewrite existsb_exists. split.
  - intros (i&Hi&HP). apply in_seq in Hi. exists i. split; [lia|done].
  - intros (i&Hi&HP). exists i. split; [apply in_seq; lia|done].
Qed.

Lemma at_least_fuel_spec fuel : forall s l phis b, (1 <= length l)%nat -> (length l < fuel)%nat -> Inv md H s -> dens s l phis ->
  sat (at_least_fuel fuel l b) s (post md H s (fun r => b <=? cnt phis r)%nat).
Proof.
  induction fuel as [|fuel IH]; intros s l phis b Hlen Hf HI Hd; [lia|]. simpl.
  eapply sat_bind_ok; [apply assert_eq, N.ltb_lt; lia|].
  pose proof (dens_length _ _ _ Hd) as Hlp.
  destruct (Nat.ltb_spec (length l) b) as [Hlb|Hlb].
  { apply sat_ret, postp_here; [done|]. eapply denp_proper; [|apply den_denp, den_bot]. intros _ r. symmetry. apply Nat.leb_gt.
    pose proof (cnt_le phis r). lia. }
  assert (Hgen : (2 <= length l)%nat -> (1 <= b)%nat ->
    sat (combine_halves (at_least_fuel fuel) l b) s (post md H s (fun r => b <=? cnt phis r)%nat)).
  { intros Hl2 Hb1. eapply sat_post_proper.
    - apply (combine_halves_spec (at_least_fuel fuel) (fun phis' i r => i <=? cnt phis' r)%nat s l phis b); auto.
      intros. apply IH; auto. lia.
    - intros r. cbv zeta beta. set (n := (length phis / 2)%nat). rewrite (cnt_split n phis r).
      apply Bool.eq_true_iff_eq. rewrite existsb_seq, Nat.leb_le. split.
      + intros (i&Hi&HP). apply andb_true_iff in HP as [H1 H2]. apply Nat.leb_le in H1, H2. lia.
      + intros Hle. exists (Nat.min b (cnt (take n phis) r)). split; [lia|]. apply andb_true_iff.
        rewrite !Nat.leb_le. lia. }
  destruct l as [|a [|a' l]]; simpl in Hlen; [lia| |].
  - simpl in Hlb. inversion Hd as [|? pa ? ? Ha Hd1]; subst. inversion Hd1; subst.
    destruct b as [|[|b]]; [| |lia]; apply sat_ret, postp_here; auto.
    + eapply denp_proper; [|apply den_denp, den_top]. done.
    + eapply denp_proper; [|exact Ha]. intros _ r. rewrite cnt_cons. by destruct (pa r).
  - destruct b as [|b].
    + apply sat_ret, postp_here; [done|]. eapply denp_proper; [|apply den_denp, den_top]. done.
    + assert (Hg := Hgen ltac:(simpl; lia) ltac:(lia)). destruct b; exact Hg.
Qed.
Lemma at_least_spec s l phis b : (1 <= length l)%nat -> Inv md H s -> dens s l phis ->
  sat (at_least l b) s (post md H s (fun r => b <=? cnt phis r)%nat).
Proof. intros. apply at_least_fuel_spec; auto. Qed.

(** what at_most actually computes: false when b exceeds the number of arguments *)
Definition at_most_val (phis : list bfun) (b : nat) (r : asgn) : bool :=
  if (length phis <? b)%nat then false else (cnt phis r <=? b)%nat.
Lemma at_most_fuel_spec fuel : forall s l phis b, (1 <= length l)%nat -> (length l < fuel)%nat -> Inv md H s -> dens s l phis ->
  sat (at_most_fuel fuel l b) s (post md H s (at_most_val phis b)).
Proof.
  induction fuel as [|fuel IH]; intros s l phis b Hlen Hf HI Hd; [lia|]. simpl.
  eapply sat_bind_ok; [apply assert_eq, N.ltb_lt; lia|].
  pose proof (dens_length _ _ _ Hd) as Hlp. unfold at_most_val. rewrite <- Hlp.
  destruct (Nat.ltb_spec (length l) b) as [Hlb|Hlb].
  { apply sat_ret, postp_here; [done|]. eapply denp_proper; [|apply den_denp, den_bot]. done. }
  assert (Hgen : (2 <= length l)%nat -> (1 <= b)%nat ->
    sat (combine_halves (at_most_fuel fuel) l b) s (post md H s (fun r => cnt phis r <=? b)%nat)).
  { intros Hl2 Hb1. eapply sat_post_proper.
    - apply (combine_halves_spec (at_most_fuel fuel) at_most_val s l phis b); auto.
      intros. apply IH; auto. lia.
    - intros r. cbv zeta beta. set (n := (length phis / 2)%nat). rewrite (cnt_split n phis r).
      assert (Hn : (n <= length phis)%nat). { unfold n. apply Nat.div_le_upper_bound; lia. }
      pose proof (cnt_le (take n phis) r) as Hc1. pose proof (cnt_le (drop n phis) r) as Hc2.
      rewrite take_length in Hc1. rewrite drop_length in Hc2. unfold at_most_val. rewrite take_length, drop_length.
      apply Bool.eq_true_iff_eq. rewrite existsb_seq, Nat.leb_le. split.
      + intros (i&Hi&HP). apply andb_true_iff in HP as [H1 H2].
        destruct (_ <? i)%nat; [done|]. destruct (_ <? b - i)%nat; [done|]. apply Nat.leb_le in H1, H2. lia.
      + intros Hle. exists (Nat.min (b - cnt (drop n phis) r) n). split; [lia|]. apply andb_true_iff.
        split.
        * destruct (Nat.ltb_spec (n `min` length phis) (Nat.min (b - cnt (drop n phis) r) n)); [lia|]. apply Nat.leb_le. lia.
        * destruct (Nat.ltb_spec (length phis - n) (b - Nat.min (b - cnt (drop n phis) r) n)); [lia|]. apply Nat.leb_le. lia. }
  assert (Haf : b = 0%nat -> sat (all_false l) s (post md H s (fun r => cnt phis r <=? b)%nat)).
  { intros ->. eapply sat_post_proper; [by apply all_false_spec|]. intros r. cbv beta. by destruct (cnt phis r). }
  destruct l as [|a [|a' l]]; simpl in Hlen; [lia| |].
  - simpl in Hlb. inversion Hd as [|? pa ? ? Ha Hd1]; subst. inversion Hd1; subst.
    destruct b as [|[|b]]; [| |lia].
    + eapply sat_post_proper; [by apply (negate_den md H s a pa)|]. intros r. rewrite cnt_cons. by destruct (pa r).
    + apply sat_ret, postp_here; [done|]. eapply denp_proper; [|apply den_denp, den_top]. intros _ r. rewrite cnt_cons. by destruct (pa r).
  - destruct b as [|b]; [by apply Haf|].
    assert (Hg := Hgen ltac:(simpl; lia) ltac:(lia)). destruct b; exact Hg.
Qed.
Lemma at_most_spec s l phis b : (1 <= length l)%nat -> Inv md H s -> dens s l phis ->
  sat (at_most l b) s (post md H s (at_most_val phis b)).
Proof. intros. apply at_most_fuel_spec; auto. Qed.

Lemma cardinality_fuel_spec fuel : forall s l phis b, (1 <= length l)%nat -> (length l < fuel)%nat -> Inv md H s -> dens s l phis ->
  sat (cardinality_fuel fuel l b) s (post md H s (fun r => cnt phis r =? b)%nat).
Proof.
  induction fuel as [|fuel IH]; intros s l phis b Hlen Hf HI Hd; [lia|]. simpl.
  eapply sat_bind_ok; [apply assert_eq, N.ltb_lt; lia|].
  pose proof (dens_length _ _ _ Hd) as Hlp.
  destruct (Nat.ltb_spec (length l) b) as [Hlb|Hlb].
  { apply sat_ret, postp_here; [done|]. eapply denp_proper; [|apply den_denp, den_bot]. intros _ r. symmetry. apply Nat.eqb_neq.
    pose proof (cnt_le phis r). lia. }
  assert (Hgen : (2 <= length l)%nat -> (1 <= b)%nat ->
    sat (combine_halves (cardinality_fuel fuel) l b) s (post md H s (fun r => cnt phis r =? b)%nat)).
  { intros Hl2 Hb1. eapply sat_post_proper.
    - apply (combine_halves_spec (cardinality_fuel fuel) (fun phis' i r => cnt phis' r =? i)%nat s l phis b); auto.
      intros. apply IH; auto. lia.
    - intros r. cbv zeta beta. set (n := (length phis / 2)%nat). rewrite (cnt_split n phis r).
      apply Bool.eq_true_iff_eq. rewrite existsb_seq, Nat.eqb_eq. split.
      + intros (i&Hi&HP). apply andb_true_iff in HP as [H1 H2]. apply Nat.eqb_eq in H1, H2. lia.
      + intros Hle. exists (cnt (take n phis) r). split; [lia|]. apply andb_true_iff. rewrite !Nat.eqb_eq. lia. }
  assert (Haf : b = 0%nat -> sat (all_false l) s (post md H s (fun r => cnt phis r =? b)%nat)).
  { intros ->. by apply all_false_spec. }
  destruct l as [|a [|a' l]]; simpl in Hlen; [lia| |].
  - simpl in Hlb. inversion Hd as [|? pa ? ? Ha Hd1]; subst. inversion Hd1; subst.
    destruct b as [|[|b]]; [| |lia].
    + eapply sat_post_proper; [by apply (negate_den md H s a pa)|]. intros r. rewrite cnt_cons. by destruct (pa r).
    + apply sat_ret, postp_here; [done|]. eapply denp_proper; [|exact Ha]. intros _ r. rewrite cnt_cons. by destruct (pa r).
  - destruct b as [|b]; [by apply Haf|].
    assert (Hg := Hgen ltac:(simpl; lia) ltac:(lia)). destruct b; exact Hg.
Qed.
Lemma cardinality_spec s l phis b : (1 <= length l)%nat -> Inv md H s -> dens s l phis ->
  sat (cardinality l b) s (post md H s (fun r => cnt phis r =? b)%nat).
Proof. intros. apply cardinality_fuel_spec; auto. Qed.
End with_or.
End nary.
