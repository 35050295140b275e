(** * SpecColl.v -- vocabulary for the theorems about bdd_collection *)
From Verif Require Export Spec CollModel2.
Open Scope N_scope.

Section spec_coll.
Context {E : Env}.

(** the value evaluate(nr, x) returns *)
Definition cval (c : coll) (nr : N) (x : list bool) : option bool :=
  match c_evaluate c nr x with inr b => Some b | inl _ => None end.
(** BDD [nr] has an entry labelled [v] *)
Definition cvar (c : coll) (nr v : N) : Prop := exists x, centry c nr x /\ i_idx x = v.
(** [x] assigns every variable of BDD [nr] *)
Definition ccovers (c : coll) (nr : N) (x : list bool) : Prop := forall v, cvar c nr v -> v < N.of_nat (length x).
(** [c'] is [c] with one more BDD, number [k], at the end; the old cells are bit-identical *)
Definition cappends (c c' : coll) (k : N) : Prop :=
  k = nr_bdds c /\ nr_bdds c' = nr_bdds c + 1 /\
  exists l, c_ins c' = c_ins c ++ l /\ c_del c' = c_del c ++ [N.of_nat (length (c_ins c'))].
(** every BDD of [c] has the same values in [c'] *)
Definition ckeeps (c c' : coll) : Prop := forall nr x, nr < nr_bdds c -> cval c' nr x = cval c nr x.
(** some assignment satisfies all BDDs [bs] *)
Definition csatisfiable (c : coll) (bs : list N) : Prop := exists x, Forall (fun b => cval c b x = Some true) bs.
(** the conjunction of the BDDs [bs] *)
Definition cconj (c : coll) (bs : list N) (x : list bool) : bool := forallb (fun b => bool_decide (cval c b x = Some true)) bs.

(** [c'] is [c] with the conjunction of the BDDs [bs] appended *)
Definition cand_done (c : coll) (bs : list N) (c' : coll) : Prop :=
  cappends c c' (nr_bdds c) /\ ckeeps c c' /\
  (forall v, cvar c' (nr_bdds c) v -> Exists (fun b => cvar c b v) bs) /\
  forall x, Forall (fun b => ccovers c b x) bs -> cval c' (nr_bdds c) x = Some (cconj c bs x).

(** [m] is node number [k] of BDD [nr] *)
Definition node_nr (c : coll) (nr k : N) (m : cnode) : Prop := exists n, nr_bdd_nodes c nr = inr n /\ k < n /\ entry_nth c nr k = inr m.
(** set_hi_arc / set_lo_arc *)
Definition set_arc (z : bool) := if z then cn_set_hi_arc else cn_set_lo_arc.

(** collections built by any sequence of calls, from any managers: add_bdd of non-constant
    handles, bdd_and with a satisfiable result, rebase with maps that are injective on the
    variables of the BDD, remove; and, if [edit]: bdd_or_var, and rerouting the arc of an inner node to
    another node of its BDD, when the result passes is_bdd and has an inner entry *)
Inductive built_by (edit : bool) : coll -> Prop :=
| built_init : built_by edit coll_init
| built_add md w c i k c' w' : built_by edit c -> reach md w -> live w i -> ~ isconst w i -> mgr_nr_nodes (w_s w) < 2 ^ 62 ->
    step (QCollAdd c i) w = WOk (OutC k c') w' -> built_by edit c'
| built_and c bs L k c' : built_by edit c -> Forall (fun b => b < nr_bdds c) bs -> 2 < L -> csatisfiable c bs ->
    bdd_and_range c bs L = inr (k, c') -> csmall c' -> built_by edit c'
| built_rebase c nr vm c' : built_by edit c -> nr < nr_bdds c -> (forall v, cvar c nr v -> exists u, vm v = Some u /\ u < cbot) ->
    (forall v v', cvar c nr v -> cvar c nr v' -> vm v = vm v' -> v = v') -> c_rebase c nr vm = inr c' -> built_by edit c'
| built_remove c rs c' : built_by edit c -> csmall c -> StronglySorted N.lt rs -> Forall (fun r => r < nr_bdds c) rs ->
    c_remove c rs = inr c' -> built_by edit c'
| built_or c nr pos neg k c' : edit = true -> built_by edit c -> csmall c -> nr < nr_bdds c ->
    bdd_or_var c nr pos neg = inr (k, c') -> is_bdd c' k = inr true -> (exists y, centry c' k y) -> built_by edit c'
| built_arc c nr k k' m n z c' : edit = true -> built_by edit c -> csmall c -> nr < nr_bdds c ->
    node_nr c nr k m -> cn_is_terminal c m = inr false -> node_nr c nr k' n ->
    set_arc z c m n = inr c' -> is_bdd c' nr = inr true -> built_by edit c'.
(** all of them *)
Definition built : coll -> Prop := built_by true.
(** those built without bdd_or_var and rerouting *)
Definition fbuilt : coll -> Prop := built_by false.
(** those built from ordered managers, with maps that are increasing on the variables, and, if [edit]: with bdd_or_var when it drops
    fewer than 128 entries, and rerouting to nodes with larger variables (or the terminals) *)
Inductive obuilt_by (edit : bool) : coll -> Prop :=
| obuilt_init : obuilt_by edit coll_init
| obuilt_add md w c i k c' w' : obuilt_by edit c -> md_ord md = true -> reach md w -> live w i -> ~ isconst w i -> mgr_nr_nodes (w_s w) < 2 ^ 62 ->
    step (QCollAdd c i) w = WOk (OutC k c') w' -> obuilt_by edit c'
| obuilt_and c bs L k c' : obuilt_by edit c -> Forall (fun b => b < nr_bdds c) bs -> 2 < L -> csatisfiable c bs ->
    bdd_and_range c bs L = inr (k, c') -> csmall c' -> obuilt_by edit c'
| obuilt_rebase c nr vm c' : obuilt_by edit c -> nr < nr_bdds c -> (forall v, cvar c nr v -> exists u, vm v = Some u /\ u < cbot) ->
    (forall v v' u u', cvar c nr v -> cvar c nr v' -> v < v' -> vm v = Some u -> vm v' = Some u' -> u < u') -> c_rebase c nr vm = inr c' -> obuilt_by edit c'
| obuilt_remove c rs c' : obuilt_by edit c -> csmall c -> StronglySorted N.lt rs -> Forall (fun r => r < nr_bdds c) rs ->
    c_remove c rs = inr c' -> obuilt_by edit c'
| obuilt_or c nr pos neg k c' n n' : edit = true -> obuilt_by edit c -> csmall c -> nr < nr_bdds c ->
    bdd_or_var c nr pos neg = inr (k, c') -> is_bdd c' k = inr true -> (exists y, centry c' k y) ->
    nr_bdd_nodes c nr = inr n -> nr_bdd_nodes c' k = inr n' -> n < n' + 128 -> obuilt_by edit c'
| obuilt_arc c nr k k' m n z c' v v' : edit = true -> obuilt_by edit c -> csmall c -> nr < nr_bdds c ->
    node_nr c nr k m -> cn_is_terminal c m = inr false -> node_nr c nr k' n ->
    cn_variable c m = inr v -> cn_variable c n = inr v' -> v < v' ->
    set_arc z c m n = inr c' -> is_bdd c' nr = inr true -> obuilt_by edit c'.
(** all of them *)
Definition obuilt : coll -> Prop := obuilt_by true.
(** those built without bdd_or_var and rerouting *)
Definition ofbuilt : coll -> Prop := obuilt_by false.

(** an arc of the stored entries *)
Definition carc (c : coll) (i j : N) : Prop := exists x, ix (c_ins c) i = Some x /\ i_lo x <> i_hi x /\ (i_lo x = j \/ i_hi x = j).

(** ** bdd_or_var *)
(** evaluating BDD entries from index [i] along assignment [x] reaches index [j] *)
Inductive cwalk (c : coll) (x : list bool) : N -> N -> Prop :=
| cw_here (i : N) : cwalk c x i i
| cw_step (i j : N) (e : instr) (b : bool) : ix (c_ins c) i = Some e -> i_lo e <> i_hi e -> x !! N.to_nat (i_idx e) = Some b ->
    cwalk c x (if b then i_hi e else i_lo e) j -> cwalk c x i j.
(** evaluating BDD [nr] at [x] looks at variable [v] *)
Definition cvisits (c : coll) (nr : N) (x : list bool) (v : N) : Prop :=
  exists (a j : N) (e : instr), ix (c_del c) nr = Some a /\ cwalk c x a j /\ ix (c_ins c) j = Some e /\ i_lo e <> i_hi e /\ i_idx e = v.
(** one of the literals on variable [v] is true at [x] *)
Definition lit_true (pos neg : N -> bool) (x : list bool) (v : N) : Prop :=
  pos v = true /\ x !! N.to_nat v = Some true \/ neg v = true /\ x !! N.to_nat v = Some false.
(** entry [e] after its arcs on listed literals have been sent to index [T] *)
Definition redirected (pos neg : N -> bool) (T : N) (e : instr) : instr :=
  Instr (if neg (i_idx e) then T else i_lo e) (if pos (i_idx e) then T else i_hi e) (i_idx e).
(** redirecting the arcs of BDD [nr] to its true terminal makes no entry redundant and no two entries equal *)
Definition or_clean (c : coll) (nr : N) (pos neg : N -> bool) : Prop :=
  exists (T a b : N) (e : instr), cseg c nr a b /\ a <= T < b /\ ix (c_ins c) T = Some e /\ i_idx e = ctop /\
    (forall y, centry c nr y -> i_lo (redirected pos neg T y) <> i_hi (redirected pos neg T y)) /\
    forall y z, centry c nr y -> centry c nr z -> redirected pos neg T y = redirected pos neg T z -> y = z.

(** [T] is the index of the true terminal of BDD [nr] *)
Definition ctop_at (c : coll) (nr T : N) : Prop := exists (a b : N) (e : instr), cseg c nr a b /\ a <= T < b /\ ix (c_ins c) T = Some e /\ i_idx e = ctop.
(** [r] is the root entry of BDD [nr] *)
Definition croot_entry (c : coll) (nr : N) (r : instr) : Prop := exists (a : N), ix (c_del c) nr = Some a /\ ix (c_ins c) a = Some r.
(** redirecting the arcs of the listed literals to the true terminal leaves the root with two different arcs and makes no other entry equal to it *)
Definition root_kept (c : coll) (nr : N) (pos neg : N -> bool) : Prop := exists (T : N) (r : instr), ctop_at c nr T /\ croot_entry c nr r /\
  i_lo (redirected pos neg T r) <> i_hi (redirected pos neg T r) /\ forall y, centry c nr y -> redirected pos neg T y = redirected pos neg T r -> y = r.
(** redirecting the listed literals to [T] makes entry [y] redundant *)
Definition made_redundant (pos neg : N -> bool) (T : N) (y : instr) : Prop := i_lo (redirected pos neg T y) = i_hi (redirected pos neg T y).
(** after redirecting: the entries that are not redundant are pairwise different, none of them has an arc to a redundant
    entry, there is one, and fewer than 128 are redundant *)
Definition or_tidy (c : coll) (nr : N) (pos neg : N -> bool) (T : N) : Prop := exists (a b : N), cseg c nr a b /\ ctop_at c nr T /\
  (forall y z, centry c nr y -> centry c nr z -> ~ made_redundant pos neg T y -> redirected pos neg T y = redirected pos neg T z -> y = z) /\
  (forall (y z : instr) (j : N), centry c nr y -> ~ made_redundant pos neg T y -> i_lo (redirected pos neg T y) = j \/ i_hi (redirected pos neg T y) = j -> j < b - 2 ->
     ix (c_ins c) j = Some z -> ~ made_redundant pos neg T z) /\
  (exists y, centry c nr y /\ ~ made_redundant pos neg T y) /\
  (forall l : list instr, NoDup l -> Forall (fun y => centry c nr y /\ made_redundant pos neg T y) l -> (length l < 128)%nat).
End spec_coll.
Arguments built_init {_ _}.
Arguments built_add {_ _}.
Arguments built_and {_ _}.
Arguments built_rebase {_ _}.
Arguments built_remove {_ _}.
Arguments built_or {_ _}.
Arguments built_arc {_ _}.
Arguments obuilt_init {_ _}.
Arguments obuilt_add {_ _}.
Arguments obuilt_and {_ _}.
Arguments obuilt_rebase {_ _}.
Arguments obuilt_remove {_ _}.
Arguments obuilt_or {_ _}.
Arguments obuilt_arc {_ _}.
