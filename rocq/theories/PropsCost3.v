(** * PropsCost3.v -- how many recursive calls the other traversals make (C75)

    As in PropsCost.v: the code with a counter of the activations of its recursive functions (for
    nodes_bfs: of the tests of its loop), and the call of nr_nodes that debug builds make to check the result. *)
From Verif Require Export PropsCost.
Open Scope N_scope.

Section costmodel3.
Context {E : Env}.

(** bdd_node.cpp:68-80 with a counter of activations *)
Fixpoint postorder_count (fuel : nat) (p : ptr) (acc : list ptr) : M (list ptr * N) :=
  match fuel with
  | O => fail ELoop
  | S fuel =>
    let* t := is_terminal p in if t then ret (acc, 1) else
    let* n := getN p in
    assert_ (negb (n_mark n)) ;;*
    modN p (with_mark true) ;;*
    let* lm := marked (n_lo n) in
    let* a := (if lm then ret (acc, 0) else postorder_count fuel (n_lo n) acc) in
    let* hm := marked (n_hi n) in
    let* b := (if hm then ret (a.1, 0) else postorder_count fuel (n_hi n) a.1) in
    ret (b.1 ++ [p], 1 + a.2 + b.2)
  end.
(** bdd_node.cpp:190-202 with a counter of activations *)
Fixpoint variables_count (fuel : nat) (p : ptr) (acc : list N) : M (list N * N) :=
  match fuel with
  | O => fail ELoop
  | S fuel =>
    let* t := is_terminal p in if t then ret (acc, 1) else
    let* n := getN p in
    assert_ (negb (n_mark n)) ;;*
    modN p (with_mark true) ;;*
    let acc := acc ++ [n_idx n] in
    let* lm := marked (n_lo n) in
    let* a := (if lm then ret (acc, 0) else variables_count fuel (n_lo n) acc) in
    let* hm := marked (n_hi n) in
    let* b := (if hm then ret (a.1, 0) else variables_count fuel (n_hi n) a.1) in
    ret (b.1, 1 + a.2 + b.2)
  end.
(** include/bdd_node.h:158-181 with a counter of activations *)
Fixpoint print_count (fuel : nat) (p : ptr) (out : list (ptr * ptr * bool)) : M (list (ptr * ptr * bool) * N) :=
  match fuel with
  | O => fail ELoop
  | S fuel =>
    let* t := is_terminal p in if t then ret (out, 1) else
    let* n := getN p in
    assert_ (negb (n_mark n)) ;;*
    modN p (with_mark true) ;;*
    let out := out ++ [(p, n_lo n, false); (p, n_hi n, true)] in
    let* lm := marked (n_lo n) in
    let* a := (if lm then ret (out, 0) else print_count fuel (n_lo n) out) in
    let* hm := marked (n_hi n) in
    let* b := (if hm then ret (a.1, 0) else print_count fuel (n_hi n) a.1) in
    ret (b.1, 1 + a.2 + b.2)
  end.
(** bdd_node.cpp:90-107 with a counter of the tests of the loop condition *)
Fixpoint bfs_count (fuel : nat) (q nodes : list ptr) : M (list ptr * N) :=
  match fuel with
  | O => fail ELoop
  | S fuel =>
    match q with
    | [] => ret (nodes, 1)
    | p :: q =>
      let* n := getN p in
      assert_ (n_mark n) ;;*
      let* q := bfs_child (n_lo n) q in
      let* q := bfs_child (n_hi n) q in
      let* r := bfs_count fuel q (nodes ++ [p]) in
      ret (r.1, 1 + r.2)
    end
  end.
(** assert(l.size() == nr_nodes()), bdd_node.cpp:64, 110 *)
Definition size_check_count (p : ptr) (l : list ptr) : M N :=
  if e_ndebug then ret 0 else
  let* n := nr_nodes_count p in
  assert_ (N.of_nat (length l) =? n.1) ;;*
  ret n.2.
(** bdd_node.cpp:58-66, 82-112, 180-188 and include/bdd_node.h:149-156 *)
Definition nodes_postorder_count (p : ptr) : M (list ptr * N) :=
  let* m := marked p in
  assert_ (negb m) ;;*
  let* l := with_fuel (fun f => postorder_count f p []) in
  let* u := with_fuel (fun f => unmark_count f p) in
  let* a := size_check_count p l.1 in
  ret (l.1, l.2 + u.2 + a).
Definition nodes_bfs_count (p : ptr) : M (list ptr * N) :=
  let* m := marked p in
  assert_ (negb m) ;;*
  modN p (with_mark true) ;;*
  let* l := with_fuel (fun f => bfs_count f [p] []) in
  let* u := with_fuel (fun f => unmark_count f p) in
  let* a := size_check_count p l.1 in
  ret (l.1, l.2 + u.2 + a).
Definition variables_call_count (p : ptr) : M (list N * N) :=
  let* v := with_fuel (fun f => variables_count f p []) in
  let* u := with_fuel (fun f => unmark_count f p) in
  ret (sort_unique v.1, v.2 + u.2).
Definition print_call_count (p : ptr) : M (list (ptr * ptr * bool) * N) :=
  let* v := with_fuel (fun f => print_count f p []) in
  let* u := with_fuel (fun f => unmark_count f p) in
  ret (v.1, v.2 + u.2).
End costmodel3.

Section cost3.
Context {E : Env} (HE : env_ok E).

(** ** The counting versions are the same code *)
Lemma post_counted n : forall p acc, counted (postorder_count n p acc) (postorder_impl n p acc).
Proof.
  induction n as [|n IH]; intros p acc; cbn [postorder_count postorder_impl]; [apply cn_fail|].
  apply cn_bind; intros t. destruct t; [apply cn_ret|]. do 3 (apply cn_bind; intros ?).
  apply cn_bind; intros lm. apply cn_bindc; [destruct lm; [apply cn_ret|apply IH]|intros ca].
  apply cn_bind; intros hm. apply cn_bindc; [destruct hm; [apply cn_ret|apply IH]|intros cb']. apply cn_ret.
Qed.
Lemma cn_last {A} (mc : M (A * N)) m (f : A * N -> N) : counted mc m -> counted (let* b := mc in ret (b.1, f b)) m.
Proof. intros Hm s. unfold bind. rewrite (Hm s). by destruct (mc s) as [[a c] s1|e s1]. Qed.
Lemma vars_counted n : forall p acc, counted (variables_count n p acc) (variables_impl n p acc).
Proof.
  induction n as [|n IH]; intros p acc; cbn [variables_count variables_impl]; [apply cn_fail|].
  apply cn_bind; intros t. destruct t; [apply cn_ret|]. do 3 (apply cn_bind; intros ?). cbv zeta.
  apply cn_bind; intros lm. apply cn_bindc; [destruct lm; [apply cn_ret|apply IH]|intros ca].
  apply cn_bind; intros hm. apply (cn_last _ _ (fun b => 1 + ca.2 + b.2)). destruct hm; [apply cn_ret|apply IH].
Qed.
Lemma print_counted n : forall p acc, counted (print_count n p acc) (print_rec n p acc).
Proof.
  induction n as [|n IH]; intros p acc; cbn [print_count print_rec]; [apply cn_fail|].
  apply cn_bind; intros t. destruct t; [apply cn_ret|]. do 3 (apply cn_bind; intros ?). cbv zeta.
  apply cn_bind; intros lm. apply cn_bindc; [destruct lm; [apply cn_ret|apply IH]|intros ca].
  apply cn_bind; intros hm. apply (cn_last _ _ (fun b => 1 + ca.2 + b.2)). destruct hm; [apply cn_ret|apply IH].
Qed.
Lemma bfs_counted n : forall q l, counted (bfs_count n q l) (bfs_loop n q l).
Proof.
  induction n as [|n IH]; intros q l; cbn [bfs_count bfs_loop]; [apply cn_fail|]. destruct q as [|p q]; [apply cn_ret|].
  do 4 (apply cn_bind; intros ?). apply (cn_last _ _ (fun b => 1 + b.2)), IH.
Qed.
(** the check after a traversal *)
Lemma check_counted {A} p l (k : N -> N) (x : A) :
  counted (let* a := size_check_count p l in ret (x, k a)) (assertM (let* n := nr_nodes p in ret (N.of_nat (length l) =? n)) ;;* ret x).
Proof.
  unfold size_check_count, assertM. destruct e_ndebug; [by intros s|]. intros s. unfold bind. rewrite (C75_nr_nodes_counted p s).
  destruct (nr_nodes_count p s) as [[n c] s1|e s1]; [|done]. cbn. by destruct (assert_ (N.of_nat (length l) =? n) s1).
Qed.
Theorem C75_nodes_postorder_counted p : counted (nodes_postorder_count p) (nodes_postorder p).
Proof.
  unfold nodes_postorder_count, nodes_postorder. do 2 (apply cn_bind; intros ?).
  apply cn_bindc; [intros s; apply post_counted|intros l]. unfold unmark. apply cn_bindc; [intros s; apply unmark_counted|intros u].
  apply (check_counted p l.1 (fun a => l.2 + u.2 + a)).
Qed.
Theorem C75_nodes_bfs_counted p : counted (nodes_bfs_count p) (nodes_bfs p).
Proof.
  unfold nodes_bfs_count, nodes_bfs. do 3 (apply cn_bind; intros ?).
  apply cn_bindc; [intros s; apply bfs_counted|intros l]. unfold unmark. apply cn_bindc; [intros s; apply unmark_counted|intros u].
  apply (check_counted p l.1 (fun a => l.2 + u.2 + a)).
Qed.
Theorem C75_variables_counted p : counted (variables_call_count p) (variables p).
Proof.
  unfold variables_call_count, variables. apply cn_bindc; [intros s; apply vars_counted|intros l].
  unfold unmark. apply cn_bindc; [intros s; apply unmark_counted|intros u]. apply cn_ret.
Qed.
Theorem C75_print_counted p : counted (print_call_count p) (print p).
Proof.
  unfold print_call_count, print. apply cn_bindc; [intros s; apply print_counted|intros l].
  unfold unmark. apply cn_bindc; [intros s; apply unmark_counted|intros u]. apply cn_ret.
Qed.

(** ** They walk as nr_nodes does *)
Lemma post_sim n : forall p acc s c k s', nr_nodes_impl_count n p s = Ok (c, k) s' ->
  exists l, postorder_count n p acc s = Ok (l, k) s' /\ N.of_nat (length l) = N.of_nat (length acc) + c.
Proof.
  induction n as [|n IH]; intros p acc s c k s' Hr; [done|]. cbn [nr_nodes_impl_count postorder_count] in *.
  apply bind_okc in Hr as (t&s1&H1&Hr). rewrite (bind_eq _ _ _ _ _ H1). destruct t; [injection Hr as <- <- <-; exists acc; split; [done|lia]|].
  do 4 (let H := fresh "Hb" in apply bind_okc in Hr as (?&?&H&Hr); rewrite (bind_eq _ _ _ _ _ H); clear H).
  match goal with b : bool |- _ => rename b into lm end. cbv zeta in *.
  apply bind_okc in Hr as ([c0 k0]&s2&H0&Hr).
  assert (exists l, (if lm then ret (acc, 0) else postorder_count n (n_lo x) acc) x6 = Ok (l, k0) s2 /\ N.of_nat (length l) = N.of_nat (length acc) + c0) as (l0&Hl0&Hn0).
  { destruct lm; [injection H0 as <- <- <-; exists acc; split; [done|lia]|by apply IH]. }
  rewrite (bind_eq _ _ _ _ _ Hl0). apply bind_okc in Hr as (hm&s3&Hm&Hr). rewrite (bind_eq _ _ _ _ _ Hm).
  apply bind_okc in Hr as ([c1 k1]&s4&H2&Hr). cbn in Hr. injection Hr as <- <- <-.
  assert (exists l, (if hm then ret (l0, 0) else postorder_count n (n_hi x) l0) s3 = Ok (l, k1) s4 /\ N.of_nat (length l) = N.of_nat (length l0) + c1) as (l1&Hl1&Hn1).
  { destruct hm; [injection H2 as <- <- <-; exists l0; split; [done|lia]|by apply IH]. }
  cbn [fst snd]. rewrite (bind_eq _ _ _ _ _ Hl1). cbn [fst snd]. eexists. split; [done|]. rewrite app_length. cbn [length]. lia.
Qed.
Lemma vars_sim n : forall p acc s c k s', nr_nodes_impl_count n p s = Ok (c, k) s' ->
  exists l, variables_count n p acc s = Ok (l, k) s'.
Proof.
  induction n as [|n IH]; intros p acc s c k s' Hr; [done|]. cbn [nr_nodes_impl_count variables_count] in *.
  apply bind_okc in Hr as (t&s1&H1&Hr). rewrite (bind_eq _ _ _ _ _ H1). destruct t; [injection Hr as <- <- <-; by exists acc|].
  do 4 (let H := fresh "Hb" in apply bind_okc in Hr as (?&?&H&Hr); rewrite (bind_eq _ _ _ _ _ H); clear H).
  match goal with b : bool |- _ => rename b into lm end. cbv zeta in *.
  apply bind_okc in Hr as ([c0 k0]&s2&H0&Hr).
  assert (exists l, (if lm then ret (acc ++ [n_idx x], 0) else variables_count n (n_lo x) (acc ++ [n_idx x])) x6 = Ok (l, k0) s2) as (l0&Hl0).
  { destruct lm; [injection H0 as <- <- <-; by eexists|by eapply IH]. }
  rewrite (bind_eq _ _ _ _ _ Hl0). apply bind_okc in Hr as (hm&s3&Hm&Hr). rewrite (bind_eq _ _ _ _ _ Hm).
  apply bind_okc in Hr as ([c1 k1]&s4&H2&Hr). cbn in Hr. injection Hr as <- <- <-.
  assert (exists l, (if hm then ret (l0, 0) else variables_count n (n_hi x) l0) s3 = Ok (l, k1) s4) as (l1&Hl1).
  { destruct hm; [injection H2 as <- <- <-; by eexists|by eapply IH]. }
  cbn [fst snd]. rewrite (bind_eq _ _ _ _ _ Hl1). cbn [fst snd]. by eexists.
Qed.
Lemma print_sim n : forall p acc s c k s', nr_nodes_impl_count n p s = Ok (c, k) s' ->
  exists l, print_count n p acc s = Ok (l, k) s'.
Proof.
  induction n as [|n IH]; intros p acc s c k s' Hr; [done|]. cbn [nr_nodes_impl_count print_count] in *.
  apply bind_okc in Hr as (t&s1&H1&Hr). rewrite (bind_eq _ _ _ _ _ H1). destruct t; [injection Hr as <- <- <-; by exists acc|].
  do 4 (let H := fresh "Hb" in apply bind_okc in Hr as (?&?&H&Hr); rewrite (bind_eq _ _ _ _ _ H); clear H).
  match goal with b : bool |- _ => rename b into lm end. cbv zeta in *.
  apply bind_okc in Hr as ([c0 k0]&s2&H0&Hr).
  assert (exists l, (if lm then ret (acc ++ [(p, n_lo x, false); (p, n_hi x, true)], 0) else print_count n (n_lo x) (acc ++ [(p, n_lo x, false); (p, n_hi x, true)])) x6 = Ok (l, k0) s2) as (l0&Hl0).
  { destruct lm; [injection H0 as <- <- <-; by eexists|by eapply IH]. }
  rewrite (bind_eq _ _ _ _ _ Hl0). apply bind_okc in Hr as (hm&s3&Hm&Hr). rewrite (bind_eq _ _ _ _ _ Hm).
  apply bind_okc in Hr as ([c1 k1]&s4&H2&Hr). cbn in Hr. injection Hr as <- <- <-.
  assert (exists l, (if hm then ret (l0, 0) else print_count n (n_hi x) l0) s3 = Ok (l, k1) s4) as (l1&Hl1).
  { destruct hm; [injection H2 as <- <- <-; by eexists|by eapply IH]. }
  cbn [fst snd]. rewrite (bind_eq _ _ _ _ _ Hl1). cbn [fst snd]. by eexists.
Qed.

(** the walk in breadth-first order *)
Lemma child_marked c q s q' s' : bfs_child c q s = Ok q' s' -> N.of_nat (nmarked (s_heap s')) + N.of_nat (length q) <= N.of_nat (nmarked (s_heap s)) + N.of_nat (length q').
Proof.
  unfold bfs_child. intros Hr. apply bind_okc in Hr as (t&s1&H1&Hr). apply rdo_term in H1 as ->. destruct t; [injection Hr as <- <-; lia|].
  apply bind_okc in Hr as (m&s1&H1&Hr). apply rdo_marked in H1 as ->. destruct m; [injection Hr as <- <-; lia|].
  apply bind_okc in Hr as (u&s1&H1&Hr). apply modN_ok in H1 as (nd&Hnd&Hh). pose proof (nmarked_mark _ _ _ Hnd) as Hm. rewrite <- Hh in Hm.
  injection Hr as <- <-. rewrite app_length. cbn [length]. lia.
Qed.
Lemma bfs_bound n : forall q l s l' k s', bfs_count n q l s = Ok (l', k) s' ->
  k + N.of_nat (length l) = N.of_nat (length l') + 1 /\
  N.of_nat (nmarked (s_heap s')) + N.of_nat (length q) + N.of_nat (length l) <= N.of_nat (nmarked (s_heap s)) + N.of_nat (length l').
Proof.
  induction n as [|n IH]; intros q l s l' k s' Hr; [done|]. cbn [bfs_count] in Hr. destruct q as [|p q].
  { injection Hr as <- <- <-. cbn [length]. lia. }
  apply bind_okc in Hr as (nd&s1&H1&Hr). apply rdo_getN in H1 as ->.
  apply bind_okc in Hr as (u1&s1&H1&Hr). apply rdo_assert in H1 as ->.
  apply bind_okc in Hr as (q1&s1&H1&Hr). apply child_marked in H1. apply bind_okc in Hr as (q2&s2&H2&Hr). apply child_marked in H2.
  apply bind_okc in Hr as ([r kr]&s3&H3&Hr). cbn in Hr. injection Hr as <- <- <-. apply IH in H3. rewrite app_length in H3. cbn [length] in *. lia.
Qed.

(** ** Bounds *)
Lemma walk md w i p n : reach md w -> hnd w i = Some p -> ~ isconst w i -> nnodes w i n ->
  exists k0 k1 s1, marked p (w_s w) = Ok false (w_s w) /\ with_fuel (fun f => nr_nodes_impl_count f p) (w_s w) = Ok (N.of_nat n, k0) s1 /\
    with_fuel (fun f => unmark_count f p) s1 = Ok (tt, k1) (w_s w) /\ k0 + k1 <= 4 * N.of_nat n + 2 /\
    nr_nodes_count p (w_s w) = Ok (N.of_nat n, k0 + k1) (w_s w).
Proof.
  intros HR Hi Hc Hn. destruct (C75_nr_nodes HE md w i p n HR Hi Hc Hn) as (k&Hk&Hle). pose proof (reach_inv HE _ _ HR) as HW. pose proof Hk as Hk'.
  destruct Hn as (p'&l&Hp'&H0&_). assert (p' = p) as -> by congruence. destruct (winv_repr _ _ _ _ HW Hi H0) as [t Ht].
  destruct (repr_in _ _ _ _ _ (i_heap _ _ _ HW) Ht) as [nd Hnd].
  assert (Hmf : n_mark nd = false) by (eapply (ho_node _ _ _ (i_heap _ _ _ HW) p nd Hnd); unfold isconst in Hc; rewrite Hi in Hc; unfold sink; intros [-> | ->]; tauto).
  unfold nr_nodes_count in Hk. apply bind_okc in Hk as (m&s1&H1&Hk). pose proof H1 as Hm. apply rdo_marked in H1 as ->.
  apply bind_okc in Hk as (u&s1&H1&Hk). apply rdo_assert in H1 as ->.
  apply bind_okc in Hk as ([c k0]&s1&H1&Hk). apply bind_okc in Hk as ([[] k1]&s2&H2&Hk). cbn in Hk. injection Hk as -> <- ->.
  assert (m = false) as -> by (unfold marked in Hm; rewrite (bind_eq _ _ _ _ _ (getN_eq _ _ _ Hnd)) in Hm; injection Hm as <-; done).
  exists k0, k1, s1. split_and!; auto.
Qed.
Lemma check_walk p n k (l : list ptr) s : nr_nodes_count p s = Ok (n, k) s -> N.of_nat (length l) = n ->
  exists a, size_check_count p l s = Ok a s /\ a <= k.
Proof.
  intros Hn Hl. unfold size_check_count. destruct e_ndebug; [exists 0; split; [done|lia]|]. rewrite (bind_eq _ _ _ _ _ Hn). cbn [fst snd].
  rewrite (bind_eq _ _ _ _ _ (assert_eq _ s (proj2 (N.eqb_eq _ _) Hl))). exists k. split; [done|lia].
Qed.
(** for a BDD with [n] nodes: at most 4n+2 activations, twice as many where asserts are on and the result is checked *)
Theorem C75_nodes_postorder md w i p n : reach md w -> hnd w i = Some p -> ~ isconst w i -> nnodes w i n ->
  exists l k, nodes_postorder_count p (w_s w) = Ok (l, k) (w_s w) /\ k <= 8 * N.of_nat n + 4.
Proof.
  intros HR Hi Hc Hn. destruct (walk md w i p n HR Hi Hc Hn) as (k0&k1&s1&Hm&H0&H1&Hle&Hnr).
  unfold with_fuel in H0. destruct (post_sim _ _ [] _ _ _ _ H0) as (l&Hl&Hlen). rewrite N.add_0_l in Hlen.
  destruct (check_walk p _ _ l _ Hnr Hlen) as (a&Ha&Hal).
  unfold nodes_postorder_count. rewrite (bind_eq _ _ _ _ _ Hm). rewrite (bind_eq _ _ _ _ _ (assert_eq _ _ eq_refl)).
  rewrite (bind_eq (with_fuel _) _ _ _ _ Hl), (bind_eq _ _ _ _ _ H1), (bind_eq _ _ _ _ _ Ha). exists l. eexists. split; [done|]. cbn [fst snd]. lia.
Qed.
Theorem C75_variables md w i p n : reach md w -> hnd w i = Some p -> ~ isconst w i -> nnodes w i n ->
  exists l k, variables_call_count p (w_s w) = Ok (l, k) (w_s w) /\ k <= 4 * N.of_nat n + 2.
Proof.
  intros HR Hi Hc Hn. destruct (walk md w i p n HR Hi Hc Hn) as (k0&k1&s1&Hm&H0&H1&Hle&Hnr).
  unfold with_fuel in H0. destruct (vars_sim _ _ [] _ _ _ _ H0) as (l&Hl).
  unfold variables_call_count. rewrite (bind_eq (with_fuel _) _ _ _ _ Hl), (bind_eq _ _ _ _ _ H1). do 2 eexists. split; [done|]. cbn [fst snd]. lia.
Qed.
Theorem C75_print md w i p n : reach md w -> hnd w i = Some p -> ~ isconst w i -> nnodes w i n ->
  exists l k, print_call_count p (w_s w) = Ok (l, k) (w_s w) /\ k <= 4 * N.of_nat n + 2.
Proof.
  intros HR Hi Hc Hn. destruct (walk md w i p n HR Hi Hc Hn) as (k0&k1&s1&Hm&H0&H1&Hle&Hnr).
  unfold with_fuel in H0. destruct (print_sim _ _ [] _ _ _ _ H0) as (l&Hl).
  unfold print_call_count. rewrite (bind_eq (with_fuel _) _ _ _ _ Hl), (bind_eq _ _ _ _ _ H1). do 2 eexists. split; [done|]. cbn [fst snd]. lia.
Qed.
(** tests of the queue, n + 1 of them, and the calls that take the marks off again; debug builds check the result with nr_nodes *)
Theorem C75_nodes_bfs md w i p n : reach md w -> hnd w i = Some p -> ~ isconst w i -> nnodes w i n ->
  exists l k, nodes_bfs_count p (w_s w) = Ok (l, k) (w_s w) /\ k <= 7 * N.of_nat n + 4.
Proof.
  intros HR Hi Hc Hn. pose proof (reach_inv HE _ _ HR) as HW. destruct Hn as (p'&l0&Hp'&H0&Hnd0&Hl0&Hlen). assert (p' = p) as -> by congruence.
  destruct (winv_repr _ _ _ _ HW Hi H0) as [t Ht].
  assert (Hs : ~ sink p) by (unfold isconst in Hc; rewrite Hi in Hc; unfold sink; intros [-> | ->]; tauto).
  destruct (nodes_bfs_spec _ _ _ HW p t Ht Hs) as (l&Hb&Hl&_).
  pose proof (C75_nodes_bfs_counted p (w_s w)) as Hcn. rewrite Hb in Hcn.
  destruct (nodes_bfs_count p (w_s w)) as [[a k] s1|] eqn:Hk; [|done]. injection Hcn as <- <-. exists l, k. split; [done|].
  assert (Hll : length l = n).
  { rewrite <- Hlen. destruct Hl as [Hnd Hl]. apply Permutation_length, NoDup_Permutation; auto. intros q. by rewrite Hl, Hl0, subnode_reach. }
  unfold nodes_bfs_count in Hk. apply bind_okc in Hk as (m&s1&H1&Hk). apply rdo_marked in H1 as ->.
  apply bind_okc in Hk as (u&s1&H1&Hk). apply rdo_assert in H1 as ->.
  apply bind_okc in Hk as (u2&s1&H1&Hk). apply modN_ok in H1 as (nd'&Hnd&Hh1). pose proof (nmarked_mark _ _ _ Hnd) as Hmk. rewrite <- Hh1 in Hmk.
  apply bind_okc in Hk as ([l1 k0]&s2&H2&Hk). apply bind_okc in Hk as ([[] k1]&s3&H3&Hk). apply bind_okc in Hk as (a&s4&H4&Hk).
  cbn [fst snd] in Hk, H4. injection Hk as -> <- ->.
  apply bfs_bound in H2. apply unmark_bound in H3. cbn [length] in H2.
  unfold size_check_count in H4. destruct e_ndebug eqn:Hdb; [injection H4 as <- ->; lia|].
  apply bind_okc in H4 as ([c kc]&s5&H5&H4). apply bind_okc in H4 as (u4&s6&H6&H4). apply liftR_ok in H6 as [H6 ->]. cbn [fst snd] in *. injection H4 as <- ->.
  unfold assertR in H6. rewrite Hdb in H6. destruct (N.eqb_spec (N.of_nat (length l)) c) as [Hc'|]; [|exfalso; done]. subst c.
  unfold nr_nodes_count in H5. apply bind_okc in H5 as (m5&s7&H1&H5). apply rdo_marked in H1 as ->.
  apply bind_okc in H5 as (u5&s7&H1&H5). apply rdo_assert in H1 as ->.
  apply bind_okc in H5 as ([c5 k5]&s7&H7&H5). apply bind_okc in H5 as ([[] k6]&s8&H8&H5). cbn in H5. injection H5 as -> <- ->.
  apply nr_impl_bound in H7. apply unmark_bound in H8. lia.
Qed.
End cost3.
