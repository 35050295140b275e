(** * World3.v -- from trees to client observations *)
From Verif Require Export World2.
Open Scope N_scope.

Lemma mdx_or md : md_xor md = false -> md_or md = true.
Proof. by destruct md. Qed.
Lemma sound_pure {E : Env} md w o : md <> MMix -> allowed md w o -> sound md o.
Proof.
  intros Hm Ha. split; destruct o; try discriminate; intros _; simpl in Ha; destruct md; try done;
    repeat match goal with H : _ /\ _ |- _ => destruct H end; discriminate.
Qed.
(** the or-family is used without xor, the xor-family without or *)
Ltac snd_tac := split; intros ?; first [discriminate | assumption | reflexivity].

Section world3.
Context {E : Env} (HE : env_ok E).

Lemma val_null md w i x : WInv md w -> hnd w i = Some 0 -> val w i x = None.
Proof.
  intros HW Hp. unfold val. simpl. unfold with1. rewrite Hp. unfold query, evaluate, with_fuel.
  assert (Hn : s_heap (w_s w) !! 0 = None).
  { destruct (s_heap (w_s w) !! 0) as [n|] eqn:Hn; [|done]. exfalso.
    pose proof (inv_addr HE _ _ _ _ _ HW Hn). lia. }
  unfold fuel_of. destruct (6 * size (s_heap (w_s w)) + 12)%nat as [|k] eqn:Hk; [lia|].
  cbn [evaluate_fuel]. unfold bind, is_botsink, getN, bind. by rewrite Hn.
Qed.

Lemma hrep_lext md w w' k p t : WInv md w -> lext (w_s w) (w_s w') -> hrep w k p t -> hnd w' k = Some p -> hrep w' k p t.
Proof. intros HW [He _] (_&H0&Hr) Hp. split_and!; auto. by eapply repr_ext. Qed.

Lemma val_lext md w w' k p x : WInv md w -> WInv md w' -> lext (w_s w) (w_s w') -> hnd w k = Some p -> hnd w' k = Some p ->
  val w' k x = val w k x.
Proof.
  intros HW HW' Hl Hp Hp'. destruct (decide (p = 0)) as [->|H0].
  - by rewrite (val_null _ _ _ _ HW Hp), (val_null _ _ _ _ HW' Hp').
  - destruct (winv_repr _ _ _ _ HW Hp H0) as [t Ht].
    assert (Hr : hrep w k p t) by done. rewrite (val_hrep _ _ _ _ _ _ HW Hr).
    by rewrite (val_hrep _ _ _ _ _ _ HW' (hrep_lext _ _ _ _ _ _ HW Hl Hr Hp')).
Qed.

Lemma good_keeps md w o r w' k p : WInv md w -> good md w o r w' -> hnd w k = Some p -> ~ touches o k ->
  hnd w' k = Some p /\ forall x, val w' k x = val w k x.
Proof.
  intros HW (HW'&Hl&Hh) Hp Ht.
  assert (Hp' : hnd w' k = Some p).
  { rewrite hnd_lookup, Hh in *. clear Hh Hl.
    assert (Happ : forall l, (w_h w ++ l) !! k = Some (Some p)) by (intros; by apply lookup_app_l_Some).
    assert (Hins : forall i a l, i <> k -> ((<[i := a]> (w_h w) ++ l) !! k = Some (Some p))).
    { intros i a l Hne. apply lookup_app_l_Some. by rewrite list_lookup_insert_ne. }
    assert (Hins' : forall i a, i <> k -> (<[i := a]> (w_h w) !! k = Some (Some p))).
    { intros i a Hne. by rewrite list_lookup_insert_ne. }
    destruct o; simpl; auto; destruct r; auto; simpl in Ht; auto. }
  split; [done|]. intros x. by eapply val_lext.
Qed.

Lemma lext_covers w w' x : lext (w_s w) (w_s w') -> covers w' x -> covers w x.
Proof. intros [_ Hl]. unfold covers, nr_variables. lia. Qed.

Lemma newpost_evals (P : Prop) md w phi psi r w' : P -> NewPost P md w phi r w' -> (forall x, covers w x -> phi (asg x) = psi x) ->
  exists p, r = OutP p /\ hnd w' (length (w_h w)) = Some p /\ evals w' (length (w_h w)) psi.
Proof.
  intros HP (p&t&->&HW'&Hl&Hh&Hr&Ht) Hx. specialize (Ht HP). exists p. split_and!; [done|apply Hr|].
  intros x Hc. rewrite (val_covers _ _ _ _ _ _ HW' Hr Hc), Ht. f_equal. apply Hx. by eapply lext_covers.
Qed.

Lemma sem_yields md w o phi psi : WInv md w -> sound md o -> allowed md w o -> opsem w o phi ->
  (forall x, covers w x -> phi (asg x) = psi x) -> yields w o psi.
Proof.
  intros HW Hsd Ha Ho Hx. pose proof (step_sem HE _ _ _ _ HW Ha Ho) as Hs. unfold yields, ensures in *.
  destruct (step o w) as [r w'|[] w']; auto. by eapply (newpost_evals _ _ _ _ _ _ _ Hsd).
Qed.

Lemma evals_list md w l fs : WInv md w -> Forall2 (evals w) l fs ->
  exists ts, hreps w l ts /\ alive w l /\ forall x, covers w x -> map (fun t => evalt t (asg x)) ts = map (fun f => f x) fs.
Proof.
  intros HW. induction 1 as [|i f l fs Hi _ (ts&Hts&Ha&Hx)].
  - exists []. split_and!; [constructor|constructor|done].
  - destruct (evals_hrep HE _ _ _ _ HW Hi) as (p&t&Hr&Hf). exists (t :: ts). split_and!.
    + constructor; eauto.
    + constructor; [by eapply hrep_live|done].
    + intros x Hc. simpl. by rewrite Hx, Hf.
Qed.
Lemma ntrue_map fs x : length (filter (fun b : bool => b = true) (map (fun f : list bool -> bool => f x) fs)) = ntrue fs x.
Proof.
  unfold ntrue. induction fs as [|f fs IH]; [done|]. simpl. rewrite !filter_cons.
  destruct (decide (f x = true)); simpl; by rewrite IH.
Qed.
Lemma forallb_map_id {A} (f : A -> bool) l : forallb id (map f l) = forallb f l.
Proof. induction l as [|a l IH]; simpl; [done|]. by rewrite IH. Qed.
Lemma existsb_map_id {A} (f : A -> bool) l : existsb id (map f l) = existsb f l.
Proof. induction l as [|a l IH]; simpl; [done|]. by rewrite IH. Qed.

Lemma subnode_reach s p q : subnode s p q <-> reach_in (s_heap s) p q.
Proof.
  split.
  - induction 1 as [p Hb Ht [n Hn]|p n q Hb Ht Hn _ IH|p n q Hb Ht Hn _ IH].
    + eapply ri_refl; [|done]. intros [?|?]; done.
    + eapply ri_lo; [|done|done]. intros [?|?]; done.
    + eapply ri_hi; [|done|done]. intros [?|?]; done.
  - induction 1 as [p n Hs Hn|p n q Hs Hn _ IH|p n q Hs Hn _ IH].
    + apply sub_self; [intros ->; apply Hs; by left|intros ->; apply Hs; by right|eauto].
    + eapply sub_lo; [intros ->; apply Hs; by left|intros ->; apply Hs; by right|done|done].
    + eapply sub_hi; [intros ->; apply Hs; by left|intros ->; apply Hs; by right|done|done].
Qed.

End world3.
