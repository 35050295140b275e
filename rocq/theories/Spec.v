(** * Spec.v -- the vocabulary of the property statements.

    Everything is phrased with client-visible operations ([step], Client.v): the value of a
    handle is what evaluate() returns, its support is what variables() returns. *)
From Verif Require Export Client.
Open Scope N_scope.

(** Which operations a history uses, apart from garbage collection. or_rec and xor_rec share memo
    entries (theorems C05_xor_after_or_refuted, C02_or_after_xor_refuted), so it matters whether
    a history uses both; xor_rec builds unordered nodes (C07_after_xor_refuted).
    The or family is: or_rec, [operator|], ite_rec, simplex, at_most_one, at_least, at_most,
    cardinality and bdd_mgr::add_bdd. *)
Inductive mode :=
| MOrd  (* no xor; rebase only with maps increasing on the support, unique_find only with a
           variable above its children: all nodes stay ordered *)
| MOr   (* everything but xor *)
| MXor  (* everything but the or family *)
| MMix. (* everything *)
(** nodes stay ordered *)
Definition md_ord (md : mode) : bool := match md with MOrd => true | _ => false end.
(** the history may use xor *)
Definition md_xor (md : mode) : bool := match md with MXor | MMix => true | _ => false end.
(** the history may use the or family *)
Definition md_or (md : mode) : bool := match md with MXor => false | _ => true end.

(** two pieces of memory taken by the page caches do not overlap *)
Definition pg_apart (x y : pgid) : Prop :=
  pi_blk x <> pi_blk y \/ pi_off x + pi_cap x <= pi_off y \/ pi_off y + pi_cap y <= pi_off x.

(** ** Stored BDDs (bdd_collection) *)

Notation ix l i := (l !! N.to_nat i).

(** terminal entries are recognised by their index; bdd_and leaves wrapped-around arcs in them
    (bdd_collection.cpp:33-40), so of the arcs only lo = hi is fixed *)
Definition cterm (b : bool) (x : instr) : Prop := i_lo x = i_hi x /\ i_idx x = if b then ctop else cbot.

(** the cells [a, b) hold one well-formed BDD: inner entries, root first, then the two
    terminals; arcs go forward and stay inside; no redundant or repeated entry *)
Record seg (ins : list instr) (a b : N) : Prop := {
  sg_ab : a + 3 <= b;
  sg_len : b <= N.of_nat (length ins);
  sg_term : exists bt x y, ix ins (b - 2) = Some x /\ ix ins (b - 1) = Some y /\ cterm bt x /\ cterm (negb bt) y;
  sg_node : forall i x, a <= i < b - 2 -> ix ins i = Some x ->
    i_lo x <> i_hi x /\ i_idx x < cbot /\ i < i_lo x < b /\ i < i_hi x < b;
  sg_dist : forall i j x, a <= i < b - 2 -> a <= j < b - 2 -> ix ins i = Some x -> ix ins j = Some x -> i = j
}.
(** moreover every entry but the root has a parent *)
Definition sup (ins : list instr) (a b : N) : Prop :=
  forall i, a < i < b - 2 -> exists j x, a <= j < i /\ ix ins j = Some x /\ (i_lo x = i \/ i_hi x = i).
(** BDD number [nr] occupies the cells [a, b) *)
Definition cseg (c : coll) (nr a b : N) : Prop := ix (c_del c) nr = Some a /\ ix (c_del c) (nr + 1) = Some b.
(** a well-formed collection *)
Record CInv (c : coll) : Prop := {
  ci_first : ix (c_del c) 0 = Some 0;
  ci_last : last (c_del c) = Some (N.of_nat (length (c_ins c)));
  ci_seg : forall nr a b, cseg c nr a b -> seg (c_ins c) a b
}.
(** its vectors have representable sizes *)
Definition csmall (c : coll) : Prop := N.of_nat (length (c_ins c)) < 2 ^ 62.
(** entry [x] is an inner node of BDD [nr] *)
Definition centry (c : coll) (nr : N) (x : instr) : Prop :=
  exists a b i, cseg c nr a b /\ a <= i < b - 2 /\ ix (c_ins c) i = Some x.
(** end of BDD [nr] in the entry vector *)
Definition csize_upto (c : coll) (nr : N) : N := default 0 (ix (c_del c) (nr + 1)).
(** variables increase along every arc *)
Definition cordered (c : coll) (nr : N) : Prop :=
  forall x y, centry c nr x -> (ix (c_ins c) (i_lo x) = Some y \/ ix (c_ins c) (i_hi x) = Some y) -> i_idx x < i_idx y.

Section spec.
Context {E : Env}.

(** ** Observations *)

(** the value evaluate() returns for handle [i] at assignment [x] *)
Definition val (w : world) (i : nat) (x : list bool) : option bool :=
  match step (QEval i x) w with WOk (OutB b) _ => Some b | _ => None end.

(** [x] assigns every variable of the manager *)
Definition covers (w : world) (x : list bool) : Prop := nr_variables (w_s w) <= N.of_nat (length x).

(** handle [i] is the Boolean function [phi] *)
Definition evals (w : world) (i : nat) (phi : list bool -> bool) : Prop :=
  forall x, covers w x -> val w i x = Some (phi x).

(** [v] is listed by variables() of handle [i] *)
Definition supp (w : world) (i : nat) (v : N) : Prop :=
  exists l w', step (QVars i) w = WOk (OutL l) w' /\ v ∈ l.

(** handle [i] is a non-null node_ref *)
Definition live (w : world) (i : nat) : Prop := exists p, hnd w i = Some p /\ p <> 0.
Definition isconst (w : world) (i : nat) : Prop := hnd w i = Some botsink \/ hnd w i = Some topsink.

(** number of handles on address [p] *)
Fixpoint hcount (l : list (option ptr)) (p : ptr) : Z :=
  match l with
  | [] => 0
  | o :: l => ((if decide (o = Some p /\ (p <> 0)%N) then 1 else 0) + hcount l p)%Z
  end.

(** some variable labels more than 2^18 nodes *)
Definition nodes_of (h : heap) (v : N) : heap := filter (fun x => n_idx (x.2) = v) h.
Definition table_full (s : mstate) : Prop := exists v, (262144 < N.of_nat (size (nodes_of (s_heap s) v))).

(** some table has fewer cells than its size says: what the exception leaves behind (C26) *)
Definition half_grown (s : mstate) : Prop := exists v t, s_vars s !! v = Some t /\
  N.of_nat (length (pg_slots (vt_page t))) < vt_mask t + 1.
(** no traversal is under way: inner nodes are unmarked, the terminals carry the mark byte they
    were allocated with *)
Definition unmarked (s : mstate) : Prop := forall p n, s_heap s !! p = Some n ->
  n_mark n = if decide (p = botsink) then e_botmark else if decide (p = topsink) then e_topmark else false.
Definition thrown (s : mstate) : Prop := table_full s /\ half_grown s /\ unmarked s.

(** the call returns, with [Q]; or it throws, and then some table is full *)
Definition ensures (r : wres) (Q : out -> world -> Prop) : Prop :=
  match r with
  | WOk o w => Q o w
  | WFail EThrow w => thrown (w_s w)
  | WFail _ _ => False
  end.

(** the call returns a new handle with function [phi] *)
Definition yields (w : world) (o : op) (phi : list bool -> bool) : Prop :=
  ensures (step o w) (fun out w' => exists p, out = OutP p /\ hnd w' (length (w_h w)) = Some p /\
    evals w' (length (w_h w)) phi).

(** every handle of [w] is still there, on the same address, with the same values *)
Definition keeps (w w' : world) : Prop :=
  forall k p, hnd w k = Some p -> hnd w' k = Some p /\ forall x, val w' k x = val w k x.

(** how many of the functions are true at [x] *)
Definition ntrue (fs : list (list bool -> bool)) (x : list bool) : nat :=
  length (filter (fun f : list bool -> bool => f x = true) fs).

(** [q] is an inner node of the diagram rooted at [p] *)
Inductive subnode (s : mstate) : ptr -> ptr -> Prop :=
| sub_self p : p <> botsink -> p <> topsink -> is_Some (s_heap s !! p) -> subnode s p p
| sub_lo p n q : p <> botsink -> p <> topsink -> s_heap s !! p = Some n -> subnode s (n_lo n) q -> subnode s p q
| sub_hi p n q : p <> botsink -> p <> topsink -> s_heap s !! p = Some n -> subnode s (n_hi n) q -> subnode s p q.

(** handle [i] depends on variable [v]: flipping [v] changes its value somewhere *)
Definition dep (w : world) (i : nat) (v : N) : Prop :=
  exists x, covers w x /\ val w i (<[N.to_nat v := false]> x) <> val w i (<[N.to_nat v := true]> x).

(** number of arcs that end in [p], over the stored inner nodes *)
Definition inner (q : ptr) : Prop := q <> botsink /\ q <> topsink.
Definition arcs_into (h : heap) (p : ptr) : nat :=
  (size (filter (fun x : ptr * node => inner x.1 /\ n_lo x.2 = p) h) +
   size (filter (fun x : ptr * node => inner x.1 /\ n_hi x.2 = p) h))%nat.

(** operations that replace handle [k] itself *)
Definition touches (o : op) (k : nat) : Prop :=
  match o with ODrop i | OMove i | OAssign i _ => i = k | _ => False end.

(** ** Preconditions *)

(** The asserts in nr_nodes() and nodes_postorder() read the mark bit of a constant, which
    the constructor leaves uninitialised (theorems C60): the bit must happen to be 0, or
    asserts be off. *)
Definition sinks_unmarked : Prop := e_ndebug = true \/ e_botmark = false /\ e_topmark = false.

Definition alive (w : world) (l : list nat) : Prop := Forall (live w) l.

(** the inputs on which ite_rec dereferences the manager object (theorems C04): for some
    assignment of the other variables f depends on the last variable of the manager and
    either g is false there and h = !f, or h is true there and g = !f *)
Definition ite_clash (w : world) (i j k : nat) : Prop :=
  exists x, covers w x /\
    let at_ n b := val w n (<[(length (s_vars (w_s w)) - 1)%nat := b]> x) in
    at_ i false <> at_ i true /\
    ((forall b, at_ j b = Some false /\ at_ k b = negb <$> at_ i b) \/
     (forall b, at_ k b = Some true /\ at_ j b = negb <$> at_ i b)).

Definition allowed (md : mode) (w : world) (o : op) : Prop :=
  let nv := nr_variables (w_s w) in
  let or_ok := md_or md = true in
  let xor_ok := md_xor md = true in
  let const_ok i := isconst w i -> sinks_unmarked in
  match o with
  | OAddVar => nv < topsink_index
  | OProj v => v < topsink_index
  | ONegProj v => v < nv
  | OTop | OBot | ONull | QNrVars | QMgrNodes => True
  | OUnique v i j => v < nv /\ live w i /\ live w j /\
      (md_ord md = true -> forall u, supp w i u \/ supp w j u -> v < u)
  | ONot i | OpNot i | QOne i | QVars i | QRefs i | QVar i | QIsBot i | QIsTop i | QIsTerm i
  | QFindMgr i | OBotOf i | OTopOf i => live w i
  | OAnd i j | OpAnd i j => live w i /\ live w j
  | OAndV i l => live w i /\ alive w l /\ l <> []
  | OAndR l => alive w l /\ (2 <= length l)%nat
  | OAndLim i j limit => live w i /\ live w j /\ sinks_unmarked /\ limit < size_max /\
      mgr_nr_nodes (w_s w) < size_max
  | OOr i j | OpOr i j => live w i /\ live w j /\ or_ok
  | OOrV i l => live w i /\ alive w l /\ l <> [] /\ or_ok
  | OOrR l => alive w l /\ (2 <= length l)%nat /\ or_ok
  | OXor i j | OpXor i j => live w i /\ live w j /\ xor_ok
  | OXorV i l => live w i /\ alive w l /\ l <> [] /\ xor_ok
  | OXorR l => alive w l /\ (2 <= length l)%nat /\ xor_ok
  | OIte i j k => live w i /\ live w j /\ live w k /\ or_ok /\
      (md_ord md = true /\ ~ ite_clash w i j k \/ ~ supp w i (nv - 1))
  | ORebaseM i vm => live w i /\ const_ok i /\
      (forall v, supp w i v -> is_Some (vm !! v)) /\
      (forall v u, vm !! v = Some u -> u < topsink_index) /\
      (md_ord md = true -> forall a b a' b', supp w i a -> supp w i b -> a < b ->
         vm !! a = Some a' -> vm !! b = Some b' -> a' < b')
  | ORebaseV i vm => live w i /\ ~ isconst w i /\
      (forall v, supp w i v -> v < N.of_nat (length vm)) /\
      Forall (fun u => u < topsink_index) vm /\
      (md_ord md = true -> forall a b a' b', supp w i a -> supp w i b -> a < b ->
         vm !! N.to_nat a = Some a' -> vm !! N.to_nat b = Some b' -> a' < b')
  | OAllFalse l | OAtLeastOne l => alive w l /\ (1 <= length l)%nat
  | OSimplex l | OAtMostOne l | OAtLeast l _ | OAtMost l _ | OCard l _ =>
      alive w l /\ (1 <= length l)%nat /\ or_ok
  | OCopy i | ODrop i | OMove i => is_Some (hnd w i)
  | OAssign i j | QEq i j => is_Some (hnd w i) /\ is_Some (hnd w j)
  | OLow i | OHigh i | QBfs i | QPrint i | OBfsAll i => live w i /\ ~ isconst w i
  | QNrNodes i | QPost i | OPostAll i => live w i /\ const_ok i
  | QEval i x => live w i /\ forall v, supp w i v -> v < N.of_nat (length x)
  | QCollAdd c i => live w i /\ ~ isconst w i /\ CInv c /\ mgr_nr_nodes (w_s w) < 2 ^ 62
  | OExport c nr => CInv c /\ csmall c /\ nr < nr_bdds c /\ (forall x, centry c nr x -> i_idx x < nv) /\
      (md_ord md = true -> cordered c nr)
  | OImport c nr => CInv c /\ nr < nr_bdds c /\ or_ok /\ (forall x, centry c nr x -> i_idx x < topsink_index) /\
      (e_ndebug = true \/ csize_upto c nr <= 1002) /\
      (md_ord md = true /\ cordered c nr \/ forall x, centry c nr x -> i_idx x + 1 < nv)
  | OGc _ => False
  end.

(** worlds reached by histories of allowed operations that all returned *)
Inductive reach (md : mode) : world -> Prop :=
| reach_init : reach md w_init
| reach_step w o out w' : reach md w -> allowed md w o -> step o w = WOk out w' -> reach md w'.

End spec.
