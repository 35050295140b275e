(** * PropsOps.v -- what each manager operation computes (C01-C06, C08-C12, C14, C36, C58)

    [reach md w]: [w] is the state of a program after any history of allowed operations;
    [evals w i f]: evaluate() of handle [i] returns [f x] for every covering assignment [x];
    [yields w o f]: the call [o] returns a new handle that is the function [f], or throws
    because a table is full; no assertion fails, no undefined behaviour, no endless loop. *)
From Verif Require Export World3.
Open Scope N_scope.

Section ops.
Context {E : Env} (HE : env_ok E).

Ltac use_evals HW :=
  repeat match goal with H : evals ?w ?i ?f |- _ =>
    let p := fresh "p" in let t := fresh "t" in let Hr := fresh "Hr" in let Hf := fresh "Hf" in
    destruct (evals_hrep HE _ _ _ _ HW H) as (p&t&Hr&Hf); clear H end;
  repeat match goal with H : Forall2 (evals ?w) ?l ?fs |- _ =>
    let ts := fresh "ts" in let Hts := fresh "Hts" in let Ha := fresh "Ha" in let Hx := fresh "Hx" in
    pose proof (Forall2_length _ _ _ H);
    destruct (evals_list HE _ _ _ _ HW H) as (ts&Hts&Ha&Hx); clear H end.
Ltac fin_un := eexists _, _; split; [eassumption|reflexivity].
Ltac fin_bin := eexists _, _, _, _; split; [eassumption|split; [eassumption|reflexivity]].
Ltac fin_l := eexists; split; [eassumption|reflexivity].

(** C01: and_rec(f, g) *)
Theorem C01_and_rec md w i j f g : reach md w -> evals w i f -> evals w j g ->
  yields w (OAnd i j) (fun x => f x && g x).
Proof.
  intros HR Hi Hj. pose proof (reach_inv HE _ _ HR) as HW. use_evals HW.
  eapply (sem_yields HE _ _ _ _ _ HW); [snd_tac|split; eapply hrep_live; eassumption|fin_bin|].
  intros x Hx. simpl. by rewrite Hf, Hf0.
Qed.

(** C02: or_rec(f, g), in histories without xor *)
Theorem C02_or_rec md w i j f g : md_xor md = false -> reach md w -> evals w i f -> evals w j g ->
  yields w (OOr i j) (fun x => f x || g x).
Proof.
  intros Hm HR Hi Hj. pose proof (reach_inv HE _ _ HR) as HW. pose proof (mdx_or _ Hm) as Hmo. use_evals HW.
  eapply (sem_yields HE _ _ _ _ _ HW); [snd_tac|cbn; split_and!; [eapply hrep_live; eassumption..|done]|fin_bin|].
  intros x Hx. simpl. by rewrite Hf, Hf0.
Qed.

(** C03: negate(f) *)
Theorem C03_negate md w i f : reach md w -> evals w i f -> yields w (ONot i) (fun x => negb (f x)).
Proof.
  intros HR Hi. pose proof (reach_inv HE _ _ HR) as HW. use_evals HW.
  eapply (sem_yields HE _ _ _ _ _ HW); [snd_tac|eapply hrep_live; eassumption|fin_un|].
  intros x Hx. simpl. by rewrite Hf.
Qed.

(** C04: ite_rec(f, g, h) is if-then-else, except on the inputs described by [ite_clash], on
    which it never returns (next theorem). *)
Theorem C04_ite_rec md w i j k f g h : md_xor md = false -> md_ord md = true -> reach md w ->
  evals w i f -> evals w j g -> evals w k h -> ~ ite_clash w i j k ->
  yields w (OIte i j k) (fun x => if f x then g x else h x).
Proof.
  intros Hm Ho HR Hi Hj Hk Hc. pose proof (reach_inv HE _ _ HR) as HW. pose proof (mdx_or _ Hm) as Hmo. use_evals HW.
  eapply (sem_yields HE _ _ _ _ _ HW).
  - snd_tac.
  - simpl. split_and!; [eapply hrep_live; eassumption..|done|by left].
  - eexists _, _, _, _, _, _. split_and!; [eassumption..|reflexivity].
  - intros x Hx. simpl. by rewrite Hf, Hf0, Hf1.
Qed.
Theorem C04_ite_clash_never_returns md w i j k : md_ord md = true -> reach md w ->
  live w i -> live w j -> live w k -> ite_clash w i j k ->
  exists e w', step (OIte i j k) w = WFail e w' /\ (e = EUB \/ e = EThrow).
Proof.
  intros Ho HR Hi Hj Hk Hc. pose proof (reach_inv HE _ _ HR) as HW.
  destruct (live_hrep _ _ _ HW Hi) as (p&t&Hp). destruct (live_hrep _ _ _ HW Hj) as (q&u&Hq). destruct (live_hrep _ _ _ HW Hk) as (m&v&Hm).
  destruct (clash_bad _ _ _ _ _ _ _ _ _ _ _ HW Hp Hq Hm Hc) as [r Hbad].
  simpl. rewrite (with1_hrep _ _ _ _ _ Hp). unfold with2. rewrite (with1_hrep _ _ _ _ _ Hq), (with1_hrep _ _ _ _ _ Hm). unfold newh.
  pose proof (ite_exact HE md _ (w_s w) p q m t u v Ho HW (proj2 (proj2 Hp)) (proj2 (proj2 Hq)) (proj2 (proj2 Hm))) as Hx.
  unfold satu in Hx. destruct (ite_rec p q m (w_s w)) as [a s'|e s'].
  - destruct Hx as [_ Hs]. by destruct (Hs r).
  - exists e. eexists. split; [reflexivity|]. destruct e; auto; done.
Qed.
(** ... and in any history without xor when f does not mention the last variable *)
Theorem C04_ite_rec_last md w i j k f g h : md_xor md = false -> reach md w ->
  evals w i f -> evals w j g -> evals w k h -> ~ supp w i (nr_variables (w_s w) - 1) ->
  yields w (OIte i j k) (fun x => if f x then g x else h x).
Proof.
  intros Hm HR Hi Hj Hk Hc. pose proof (reach_inv HE _ _ HR) as HW. pose proof (mdx_or _ Hm) as Hmo. use_evals HW.
  eapply (sem_yields HE _ _ _ _ _ HW).
  - snd_tac.
  - simpl. split_and!; [eapply hrep_live; eassumption..|done|by right].
  - eexists _, _, _, _, _, _. split_and!; [eassumption..|reflexivity].
  - intros x Hx. simpl. by rewrite Hf, Hf0, Hf1.
Qed.

(** C05: xor_rec(f, g).  Partial: only histories without or/ite. *)
Theorem C05_xor_rec w i j f g : reach MXor w -> evals w i f -> evals w j g ->
  yields w (OXor i j) (fun x => xorb (f x) (g x)).
Proof.
  intros HR Hi Hj. pose proof (reach_inv HE _ _ HR) as HW. use_evals HW.
  eapply (sem_yields HE _ _ _ _ _ HW); [snd_tac|split; [|split]; [eapply hrep_live; eassumption..|done]|fin_bin|].
  intros x Hx. simpl. by rewrite Hf, Hf0.
Qed.
(** n-ary xor is parity *)
Theorem C05_xor_range w l fs : reach MXor w -> Forall2 (evals w) l fs -> (2 <= length l)%nat ->
  yields w (OXorR l) (fun x => Nat.odd (ntrue fs x)).
Proof.
  intros HR Hl Hn. pose proof (reach_inv HE _ _ HR) as HW. use_evals HW.
  eapply (sem_yields HE _ _ _ _ _ HW); [snd_tac|cbn; split_and!; done|fin_l|].
  intros x Hc. simpl. by rewrite Hx, ntrue_map.
Qed.
Theorem C05_xor_variadic w i l f fs : reach MXor w -> evals w i f -> Forall2 (evals w) l fs -> l <> [] ->
  yields w (OXorV i l) (fun x => Nat.odd (ntrue (f :: fs) x)).
Proof.
  intros HR Hi Hl Hn. pose proof (reach_inv HE _ _ HR) as HW.
  assert (Hil : Forall2 (evals w) (i :: l) (f :: fs)) by (by constructor). clear Hi Hl. use_evals HW.
  eapply (sem_yields HE _ _ _ _ _ HW); [snd_tac| |fin_l|].
  - inversion Ha; subst. cbn. done.
  - intros x Hc. simpl. by rewrite Hx, ntrue_map.
Qed.

(** C06: literals; exactly the missing variables are created *)
Theorem C06_projection md w v : reach md w -> v < topsink_index ->
  yields w (OProj v) (fun x => default false (x !! N.to_nat v)).
Proof.
  intros HR Hv. pose proof (reach_inv HE _ _ HR) as HW.
  eapply (sem_yields HE _ _ (OProj v) (fun r => r v) _ HW); [snd_tac|done|done|]. done.
Qed.
Theorem C06_projection_vars md w v r w' : reach md w -> v < topsink_index -> step (OProj v) w = WOk r w' ->
  nr_variables (w_s w') = N.max (nr_variables (w_s w)) (v + 1).
Proof.
  intros HR Hv. pose proof (reach_inv HE _ _ HR) as HW. simpl. unfold newh.
  pose proof (projection_spec HE _ _ _ v HW Hv) as Hs. unfold sat in Hs.
  destruct (projection v (w_s w)) as [p s|e s]; [|done]. destruct Hs as [(HI&_&Hd) Hnv].
  destruct Hd as (t&Hr&_).
  destruct (ref_acquire_spec _ _ s p HI) as (s'&Hs'&_&He&_).
  { intros _. destruct (repr_in _ _ _ _ _ (i_heap _ _ _ HI) Hr). by eapply elem_of_dom_2. }
  rewrite Hs'. intros [= <- <-]. simpl. unfold nr_variables in *. by rewrite (inv_nv_ext _ _ He).
Qed.
Theorem C06_neg_projection md w v : reach md w -> v < nr_variables (w_s w) ->
  yields w (ONegProj v) (fun x => negb (default false (x !! N.to_nat v))).
Proof.
  intros HR Hv. pose proof (reach_inv HE _ _ HR) as HW.
  eapply (sem_yields HE _ _ (ONegProj v) (fun r => negb (r v)) _ HW); [snd_tac|done|done|]. done.
Qed.
Theorem C06_add_variable md w : reach md w -> nr_variables (w_s w) < topsink_index ->
  exists w', step OAddVar w = WOk (OutN (nr_variables (w_s w))) w' /\
    nr_variables (w_s w') = nr_variables (w_s w) + 1 /\ w_h w' = w_h w.
Proof.
  intros HR Hv. pose proof (reach_inv HE _ _ HR) as HW.
  destruct (add_variable_spec _ _ _ HW Hv) as (s'&Hs&_&_&Hl). exists (W s' (w_h w)).
  simpl. unfold query. rewrite Hs. split_and!; [done| |done]. unfold nr_variables. simpl. rewrite Hl. lia.
Qed.
Theorem C06_constants md w : reach md w ->
  yields w OTop (fun _ => true) /\ yields w OBot (fun _ => false).
Proof.
  intros HR. pose proof (reach_inv HE _ _ HR) as HW. split.
  - eapply (sem_yields HE _ _ OTop (fun r => true) _ HW); [snd_tac|done..].
  - eapply (sem_yields HE _ _ OBot (fun r => false) _ HW); [snd_tac|done..].
Qed.
(** unique_find(v, lo, hi) *)
Theorem C06_unique_find md w v i j f g : reach md w -> v < nr_variables (w_s w) -> evals w i f -> evals w j g ->
  (md_ord md = true -> forall u, supp w i u \/ supp w j u -> v < u) ->
  yields w (OUnique v i j) (fun x => if default false (x !! N.to_nat v) then g x else f x).
Proof.
  intros HR Hv Hi Hj Ho. pose proof (reach_inv HE _ _ HR) as HW. use_evals HW.
  eapply (sem_yields HE _ _ _ _ _ HW); [snd_tac|split_and!; [done|eapply hrep_live; eassumption..|done]|fin_bin|].
  intros x Hx. simpl. by rewrite Hf, Hf0.
Qed.

(** C08: n-ary conjunction and disjunction, as ranges and as argument packs *)
Theorem C08_and_range md w l fs : reach md w -> Forall2 (evals w) l fs -> (2 <= length l)%nat ->
  yields w (OAndR l) (fun x => forallb (fun f => f x) fs).
Proof.
  intros HR Hl Hn. pose proof (reach_inv HE _ _ HR) as HW. use_evals HW.
  eapply (sem_yields HE _ _ _ _ _ HW); [snd_tac|cbn; split_and!; done|fin_l|].
  intros x Hc. simpl. by rewrite Hx, forallb_map_id.
Qed.
Theorem C08_or_range md w l fs : md_xor md = false -> reach md w -> Forall2 (evals w) l fs -> (2 <= length l)%nat ->
  yields w (OOrR l) (fun x => existsb (fun f => f x) fs).
Proof.
  intros Hm HR Hl Hn. pose proof (reach_inv HE _ _ HR) as HW. pose proof (mdx_or _ Hm) as Hmo. use_evals HW.
  eapply (sem_yields HE _ _ _ _ _ HW); [snd_tac|cbn; split_and!; done|fin_l|].
  intros x Hc. simpl. by rewrite Hx, existsb_map_id.
Qed.
Theorem C08_and_variadic md w i l f fs : reach md w -> evals w i f -> Forall2 (evals w) l fs -> l <> [] ->
  yields w (OAndV i l) (fun x => forallb (fun f => f x) (f :: fs)).
Proof.
  intros HR Hi Hl Hn. pose proof (reach_inv HE _ _ HR) as HW.
  assert (Hil : Forall2 (evals w) (i :: l) (f :: fs)) by (by constructor). clear Hi Hl. use_evals HW.
  eapply (sem_yields HE _ _ _ _ _ HW); [snd_tac| |fin_l|].
  - inversion Ha; subst. cbn. done.
  - intros x Hc. cbn beta. by rewrite Hx, forallb_map_id.
Qed.
Theorem C08_or_variadic md w i l f fs : md_xor md = false -> reach md w -> evals w i f -> Forall2 (evals w) l fs -> l <> [] ->
  yields w (OOrV i l) (fun x => existsb (fun f => f x) (f :: fs)).
Proof.
  intros Hm HR Hi Hl Hn. pose proof (reach_inv HE _ _ HR) as HW. pose proof (mdx_or _ Hm) as Hmo.
  assert (Hil : Forall2 (evals w) (i :: l) (f :: fs)) by (by constructor). clear Hi Hl. use_evals HW.
  eapply (sem_yields HE _ _ _ _ _ HW); [snd_tac| |fin_l|].
  - inversion Ha; subst. cbn. done.
  - intros x Hc. cbn beta. by rewrite Hx, existsb_map_id.
Qed.

(** C09 *)
Theorem C09_all_false md w l fs : reach md w -> Forall2 (evals w) l fs -> l <> [] ->
  yields w (OAllFalse l) (fun x => ntrue fs x =? 0)%nat.
Proof.
  intros HR Hl Hn. pose proof (reach_inv HE _ _ HR) as HW. use_evals HW.
  eapply (sem_yields HE _ _ _ _ _ HW); [snd_tac|split; [done|destruct l; [done|simpl; lia]]|fin_l|].
  intros x Hc. simpl. by rewrite Hx, ntrue_map.
Qed.
Theorem C09_at_least_one md w l fs : reach md w -> Forall2 (evals w) l fs -> l <> [] ->
  yields w (OAtLeastOne l) (fun x => 1 <=? ntrue fs x)%nat.
Proof.
  intros HR Hl Hn. pose proof (reach_inv HE _ _ HR) as HW. use_evals HW.
  eapply (sem_yields HE _ _ _ _ _ HW); [snd_tac|split; [done|destruct l; [done|simpl; lia]]|fin_l|].
  intros x Hc. simpl. by rewrite Hx, ntrue_map.
Qed.
Theorem C09_at_most_one md w l fs : md_xor md = false -> reach md w -> Forall2 (evals w) l fs -> l <> [] ->
  yields w (OAtMostOne l) (fun x => ntrue fs x <=? 1)%nat.
Proof.
  intros Hm HR Hl Hn. pose proof (reach_inv HE _ _ HR) as HW. pose proof (mdx_or _ Hm) as Hmo. use_evals HW.
  eapply (sem_yields HE _ _ _ _ _ HW); [snd_tac|split_and!; [done|destruct l; [done|simpl; lia]|done]|fin_l|].
  intros x Hc. simpl. by rewrite Hx, ntrue_map.
Qed.
Theorem C09_simplex md w l fs : md_xor md = false -> reach md w -> Forall2 (evals w) l fs -> l <> [] ->
  yields w (OSimplex l) (fun x => ntrue fs x =? 1)%nat.
Proof.
  intros Hm HR Hl Hn. pose proof (reach_inv HE _ _ HR) as HW. pose proof (mdx_or _ Hm) as Hmo. use_evals HW.
  eapply (sem_yields HE _ _ _ _ _ HW); [snd_tac|split_and!; [done|destruct l; [done|simpl; lia]|done]|fin_l|].
  intros x Hc. simpl. by rewrite Hx, ntrue_map.
Qed.

(** C10: at_least(fs, b), every b *)
Theorem C10_at_least md w l fs b : md_xor md = false -> reach md w -> Forall2 (evals w) l fs -> l <> [] ->
  yields w (OAtLeast l b) (fun x => b <=? ntrue fs x)%nat.
Proof.
  intros Hm HR Hl Hn. pose proof (reach_inv HE _ _ HR) as HW. pose proof (mdx_or _ Hm) as Hmo. use_evals HW.
  eapply (sem_yields HE _ _ _ _ _ HW); [snd_tac|split_and!; [done|destruct l; [done|simpl; lia]|done]|fin_l|].
  intros x Hc. simpl. by rewrite Hx, ntrue_map.
Qed.

(** C11: at_most(fs, b).  Partial: b at most the number of functions; beyond it the code
    returns the constant false (second theorem). *)
Theorem C11_at_most md w l fs b : md_xor md = false -> reach md w -> Forall2 (evals w) l fs -> l <> [] ->
  (b <= length l)%nat ->
  yields w (OAtMost l b) (fun x => ntrue fs x <=? b)%nat.
Proof.
  intros Hm HR Hl Hn Hb. pose proof (reach_inv HE _ _ HR) as HW. pose proof (mdx_or _ Hm) as Hmo. use_evals HW.
  eapply (sem_yields HE _ _ _ _ _ HW); [snd_tac|split_and!; [done|destruct l; [done|simpl; lia]|done]|fin_l|].
  intros x Hc. simpl. rewrite Hx, ntrue_map by done. destruct (Nat.ltb_spec (length l) b); [lia|done].
Qed.
Theorem C11_at_most_large_refuted md w l fs b : md_xor md = false -> reach md w -> Forall2 (evals w) l fs -> l <> [] ->
  (length l < b)%nat -> yields w (OAtMost l b) (fun _ => false) /\ forall x, (ntrue fs x <=? b)%nat = true.
Proof.
  intros Hm HR Hl Hn Hb. pose proof (reach_inv HE _ _ HR) as HW. pose proof (mdx_or _ Hm) as Hmo. use_evals HW. split.
  - eapply (sem_yields HE _ _ _ _ _ HW); [snd_tac|split_and!; [done|destruct l; [done|simpl; lia]|done]|fin_l|].
    intros x Hc. simpl. destruct (Nat.ltb_spec (length l) b); [done|lia].
  - intros x. apply Nat.leb_le. unfold ntrue. pose proof (filter_length (fun f : list bool -> bool => f x = true) fs). lia.
Qed.

(** C12: cardinality(fs, b), every b *)
Theorem C12_cardinality md w l fs b : md_xor md = false -> reach md w -> Forall2 (evals w) l fs -> l <> [] ->
  yields w (OCard l b) (fun x => ntrue fs x =? b)%nat.
Proof.
  intros Hm HR Hl Hn. pose proof (reach_inv HE _ _ HR) as HW. pose proof (mdx_or _ Hm) as Hmo. use_evals HW.
  eapply (sem_yields HE _ _ _ _ _ HW); [snd_tac|split_and!; [done|destruct l; [done|simpl; lia]|done]|fin_l|].
  intros x Hc. simpl. by rewrite Hx, ntrue_map.
Qed.

(** C14: rebase.  The new handle at [x] is the old one at any [y] that reads variable [v] at
    [vm v] (for the variables of the old one). *)
Theorem C14_rebase_map md w i (vm : gmap N N) : reach md w -> allowed md w (ORebaseM i vm) ->
  ensures (step (ORebaseM i vm) w) (fun r w' => exists p, r = OutP p /\ hnd w' (length (w_h w)) = Some p /\
    forall x y, covers w' x -> covers w y ->
      (forall v u, supp w i v -> vm !! v = Some u -> y !! N.to_nat v = x !! N.to_nat u) ->
      val w' (length (w_h w)) x = val w i y /\ is_Some (val w i y)).
Proof.
  intros HR Ha. pose proof (reach_inv HE _ _ HR) as HW.
  destruct (opsem_total _ _ _ HW Ha eq_refl) as [phi Hphi]. pose proof (step_sem HE _ _ _ _ HW Ha Hphi) as Hs.
  unfold ensures in *. destruct (step _ w) as [r w'|[] w']; auto.
  destruct Hs as (p&t&->&HW'&Hl&Hh&Hr&Ht). specialize (Ht ltac:(snd_tac)). destruct Hphi as (p0&t0&Hr0&Hphi).
  exists p. split_and!; [done|apply Hr|]. intros x y Hx Hy Hxy.
  rewrite (val_covers _ _ _ _ _ _ HW Hr0 Hy), (val_covers _ _ _ _ _ _ HW' Hr Hx). split; [|eauto].
  rewrite Ht, Hphi. f_equal. apply evalt_ext. intros v Hv. unfold rename, asg.
  destruct Ha as (_&_&Hdef&_). apply (supp_hrep _ _ _ _ _ _ HW Hr0) in Hv.
  destruct (Hdef _ Hv) as [u Hu]. rewrite Hu. by rewrite (Hxy _ _ Hv Hu).
Qed.
Theorem C14_rebase_vector md w i (vm : list N) : reach md w -> allowed md w (ORebaseV i vm) ->
  ensures (step (ORebaseV i vm) w) (fun r w' => exists p, r = OutP p /\ hnd w' (length (w_h w)) = Some p /\
    forall x y, covers w' x -> covers w y ->
      (forall v u, supp w i v -> vm !! N.to_nat v = Some u -> y !! N.to_nat v = x !! N.to_nat u) ->
      val w' (length (w_h w)) x = val w i y /\ is_Some (val w i y)).
Proof.
  intros HR Ha. pose proof (reach_inv HE _ _ HR) as HW.
  destruct (opsem_total _ _ _ HW Ha eq_refl) as [phi Hphi]. pose proof (step_sem HE _ _ _ _ HW Ha Hphi) as Hs.
  unfold ensures in *. destruct (step _ w) as [r w'|[] w']; auto.
  destruct Hs as (p&t&->&HW'&Hl&Hh&Hr&Ht). specialize (Ht ltac:(snd_tac)). destruct Hphi as (p0&t0&Hr0&Hphi).
  exists p. split_and!; [done|apply Hr|]. intros x y Hx Hy Hxy.
  rewrite (val_covers _ _ _ _ _ _ HW Hr0 Hy), (val_covers _ _ _ _ _ _ HW' Hr Hx). split; [|eauto].
  rewrite Ht, Hphi. f_equal. apply evalt_ext. intros v Hv. unfold rename, asg.
  destruct Ha as (_&_&Hdef&_). apply (supp_hrep _ _ _ _ _ _ HW Hr0) in Hv.
  destruct (lookup_lt_is_Some_2 vm (N.to_nat v)) as [u Hu]; [specialize (Hdef _ Hv); lia|].
  rewrite Hu. by rewrite (Hxy _ _ Hv Hu).
Qed.

(** C58: the operators are the member functions -- same outcome in every respect *)
Theorem C58_operators md w i j : reach md w -> live w i ->
  step (OpAnd i j) w = step (OAnd i j) w /\ step (OpOr i j) w = step (OOr i j) w /\
  step (OpXor i j) w = step (OXor i j) w /\ step (OpNot i) w = step (ONot i) w /\
  step (QFindMgr i) w = WOk (OutN e_mgr) w.
Proof.
  intros HR Hi. pose proof (reach_inv HE _ _ HR) as HW. destruct (live_hrep _ _ _ HW Hi) as (p&t&Hr).
  assert (Hn : forall m, newh w (via_mgr p m) = newh w m).
  { intros m. unfold newh. rewrite (via_mgr_spec _ _ _ HW m p t) by apply Hr. done. }
  simpl. unfold with2. rewrite !(with1_hrep _ _ _ _ _ Hr). unfold with1.
  split_and!; try (destruct (hnd w j); [apply Hn|done]).
  - apply Hn.
  - apply query_eq. eapply find_bdd_mgr_spec; [exact HW|apply Hr].
Qed.
End ops.
