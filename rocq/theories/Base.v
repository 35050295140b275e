(** * Base.v -- machine environment, program state and the result monad.

    Everything here is shared by the model files.  The source being modelled is
    pawelswoboda/LBDD (/repo).  C++ [size_t] values are [N]; pointers are byte
    addresses, also [N], with 0 for [nullptr]. *)

From stdpp Require Export base numbers list gmap fin_maps.
From Coq Require Export NArith ZArith Lia.

Open Scope N_scope.

(** A pointer is a byte address; 0 is [nullptr].  Needed as a number because
    bdd_memo_cache.cpp:33 hashes [reinterpret_cast<size_t>(h)] and bdd_mgr.cpp:66
    compares [f.ref > g.ref]. *)
Notation ptr := N (only parsing).

(** sizeof(node_struct): two pointers, one 64-bit bit-field word (41+22+1 bits), an
    [int] and padding -- include/bdd_node.h:49-62. *)
Definition node_size : N := 32.

(** include/bdd_node_cache.h:9 *)
Definition node_page_size : N := 4096.

(** include/bdd_node.h:10-11 *)
Definition maxvarsize : N := 2199023255552. (* 2^41 *)
(** include/bdd_node.h:64-65 *)
Definition botsink_index : N := 2199023255551. (* 2^41-1 *)
Definition topsink_index : N := 2199023255550. (* 2^41-2 *)
(** include/bdd_node.h:12-13 *)
Definition hashtablesize : N := 4194304. (* 2^22 *)

(** [size_t] arithmetic. *)
Definition two64 : N := 18446744073709551616.
Definition size_max : N := 18446744073709551615.
Definition add64 (a b : N) : N := (a + b) mod two64.
Definition sub64 (a b : N) : N := (a + (two64 - b mod two64)) mod two64.

(** ** The environment: everything the program does not choose itself.
    - [e_ndebug]: was the library compiled with -DNDEBUG?  CMakeLists.txt sets no
      build type, so by default asserts are on; theorems quantify over both.
    - [e_rtl]: are function arguments evaluated right to left?  (unspecified in C++;
      matters for allocation order at e.g. bdd_mgr.cpp:51.)  Simplification: one
      choice for all call sites.
    - [e_page k]: address of the data array of the k-th [new bdd_node_page]
      (bdd_node_cache.cpp:9,25).
    - [e_rand k]: k-th draw of the mt19937 generator (bdd_node.cpp:25-29).
    - [e_mgr]: address of the bdd_mgr object stored in the sinks (bdd_node.cpp:117).
    - [e_botkey], ... : hash_key and marked_ of the two sinks; init_botsink/init_topsink
      (bdd_node.cpp:115-136) leave them uninitialised, so they are arbitrary. *)
Class Env := mkEnv {
  e_ndebug : bool;
  e_rtl : bool;
  e_page : nat -> N;
  e_rand : nat -> N;
  e_mgr : N;
  e_botkey : N;
  e_topkey : N;
  e_botmark : bool;
  e_topmark : bool
}.

(** What operator new and the C++ object model guarantee: node pages do not overlap each
    other or the manager object, and do not lie on the zero page; the generator stays in
    the range given to uniform_int_distribution (bdd_node.cpp:27); bit-fields fit. *)
Definition env_ok (E : Env) : Prop :=
  (forall k, 4096 <= e_page k) /\
  (forall i j, i <> j ->
     e_page i + node_size * node_page_size <= e_page j \/
     e_page j + node_size * node_page_size <= e_page i) /\
  (forall k, e_mgr < e_page k \/ e_page k + node_size * node_page_size <= e_mgr) /\
  e_mgr <> 0 /\
  (forall k, e_rand k < hashtablesize) /\
  e_botkey < hashtablesize /\ e_topkey < hashtablesize.

(** ** Program state *)

(** include/bdd_node.h:49-62.  The union of lo / bdd_mgr_1 / next_available is the single
    field [n_lo], that of hi / bdd_mgr_2 is [n_hi].  [n_xref] is an unbounded [Z]
    (simplification: int overflow after 2^31 references is not modelled). *)
Record node := Node {
  n_lo : ptr; n_hi : ptr; n_idx : N; n_key : N; n_mark : bool; n_xref : Z
}.

(** Memory of all node pages.  A cell is present once it has been initialised; reading an
    absent cell is undefined behaviour. Freed nodes stay present (the pages are only
    returned when the node cache is destroyed). *)
Notation heap := (gmap N node).

(** include/bdd_node_cache.h:29-39. [nc_base] is the data array of the page at the head of
    the page list, [nc_npages] the number of pages allocated so far. *)
Record ncache := NCache {
  nc_npages : nat; nc_base : N; nc_ptr : ptr; nc_avail : ptr; nc_total : N
}.

(** A piece of memory allocated by a page cache: number of the new[] it comes from, offset in it
    (in words) and length (include/bdd_var.h:27-34,157-165). *)
Record pgid := PgId { pi_cap : N; pi_blk : nat; pi_off : N }.
(** One unique_table_page: where it is and the cells initialised by the last
    reserve_page (include/bdd_var.h:27-34,168-182).  Simplifications: cells beyond those
    filled by reserve_page count as uninitialised (reading them is UB); the cells are part of the
    page, not of one common memory: C25_pages_private shows that pages never overlap, and PageModel.v has the common memory. *)
Record page := Page { pg_id : pgid; pg_slots : list ptr }.
Definition pg_cap (p : page) : N := pi_cap (pg_id p).
(** the page caches of all size classes (include/bdd_var.h:50-68): for each class the stack of pages
    available for reuse; and the number of blocks allocated so far *)
Record pcaches := PCs { pc_free : gmap N (list pgid); pc_blk : nat }.

(** include/bdd_var.h:128-139; name, timestamp, aux, up, down are never used. *)
Record vtab := VTab { vt_page : page; vt_mask : N; vt_free : N; vt_timer : N }.

(** include/bdd_memo_cache.h:12-16 *)
Record memo := Memo { m_f : ptr; m_g : ptr; m_h : ptr; m_r : ptr }.
(** include/bdd_memo_cache.h:54-57 *)
Record mcache := MCache { mc_tab : list memo; mc_mask : N; mc_ins : N; mc_thr : N }.

(** include/bdd_mgr.h:92-95 plus the position in the random stream. [s_pcs]: the page caches. *)
Record mstate := MState {
  s_heap : heap; s_nc : ncache; s_pcs : pcaches; s_memo : mcache;
  s_vars : list vtab; s_rnd : nat
}.

(** ** Outcomes.  [EAssert]: a failed assert (only when [e_ndebug] is false);
    [EUB]: undefined behaviour; [EThrow]: a C++ exception; [ELoop]: fuel exhausted, i.e.
    the loop or recursion did not finish within the stated bound.  The state reached is kept. *)
Inductive err := EAssert | EUB | EThrow | ELoop.

Inductive res (A : Type) := Ok (a : A) (s : mstate) | Fail (e : err) (s : mstate).
Arguments Ok {A} a s.
Arguments Fail {A} e s.

Definition M (A : Type) := mstate -> res A.

Definition ret {A} (a : A) : M A := fun s => Ok a s.
Definition bind {A B} (m : M A) (f : A -> M B) : M B :=
  fun s => match m s with Ok a s' => f a s' | Fail e s' => Fail e s' end.
Definition fail {A} (e : err) : M A := fun s => Fail e s.
Definition get : M mstate := fun s => Ok s s.

Declare Scope m_scope.
Delimit Scope m_scope with M.
Notation "'let*' x := c1 'in' c2" := (bind c1 (fun x => c2))
  (at level 200, x pattern, c1 at level 100, c2 at level 200, right associativity).
Notation "c1 ;;* c2" := (bind c1 (fun _ => c2)) (at level 199, right associativity).

(** Computations that only read: a result or an error. *)
Definition R (A : Type) := (err + A)%type.
Definition bindR {A B} (m : R A) (f : A -> R B) : R B :=
  match m with inl e => inl e | inr a => f a end.
Notation "'letR*' x := c1 'in' c2" := (bindR c1 (fun x => c2))
  (at level 200, x pattern, c1 at level 100, c2 at level 200, right associativity).
Definition liftR {A} (r : R A) : M A :=
  fun s => match r with inl e => Fail e s | inr a => Ok a s end.

Section base.
Context {E : Env}.

(** assert(b) *)
Definition assertR (b : bool) : R unit := if b || e_ndebug then inr tt else inl EAssert.
Definition assert_ (b : bool) : M unit := liftR (assertR b).
(** assert(m) where evaluating the condition has effects: only evaluated when asserts are on *)
Definition assertM (m : M bool) : M unit :=
  if e_ndebug then ret tt else let* b := m in assert_ b.

(** evaluation of two arguments, in the order the compiler chose *)
Definition args2 {A B} (a : M A) (b : M B) : M (A * B) :=
  if e_rtl then (let* y := b in let* x := a in ret (x, y))
  else (let* x := a in let* y := b in ret (x, y)).
Definition args3 {A B C} (a : M A) (b : M B) (c : M C) : M (A * B * C) :=
  if e_rtl then (let* z := c in let* y := b in let* x := a in ret (x, y, z))
  else (let* x := a in let* y := b in let* z := c in ret (x, y, z)).

(** ** State access *)
Definition set_heap (f : heap -> heap) : M unit := fun s =>
  Ok tt (MState (f (s_heap s)) (s_nc s) (s_pcs s) (s_memo s) (s_vars s) (s_rnd s)).
Definition set_nc (f : ncache -> ncache) : M unit := fun s =>
  Ok tt (MState (s_heap s) (f (s_nc s)) (s_pcs s) (s_memo s) (s_vars s) (s_rnd s)).
Definition set_pcs (f : pcaches -> pcaches) : M unit := fun s =>
  Ok tt (MState (s_heap s) (s_nc s) (f (s_pcs s)) (s_memo s) (s_vars s) (s_rnd s)).
Definition set_memo (f : mcache -> mcache) : M unit := fun s =>
  Ok tt (MState (s_heap s) (s_nc s) (s_pcs s) (f (s_memo s)) (s_vars s) (s_rnd s)).
Definition set_vars (f : list vtab -> list vtab) : M unit := fun s =>
  Ok tt (MState (s_heap s) (s_nc s) (s_pcs s) (s_memo s) (f (s_vars s)) (s_rnd s)).
Definition set_rnd (f : nat -> nat) : M unit := fun s =>
  Ok tt (MState (s_heap s) (s_nc s) (s_pcs s) (s_memo s) (s_vars s) (f (s_rnd s))).

(** dereference a node pointer *)
Definition getN (p : ptr) : M node := fun s =>
  match s_heap s !! p with Some n => Ok n s | None => Fail EUB s end.
Definition derefR (h : heap) (p : ptr) : R node :=
  match h !! p with Some n => inr n | None => inl EUB end.
(** modify fields of an initialised node *)
Definition modN (p : ptr) (f : node -> node) : M unit :=
  let* n := getN p in set_heap (<[p := f n]>).
(** vars[v] *)
Definition getV (v : N) : M vtab := fun s =>
  match s_vars s !! N.to_nat v with Some t => Ok t s | None => Fail EUB s end.
Definition setV (v : N) (t : vtab) : M unit := set_vars (<[N.to_nat v := t]>).

(** field updates *)
Definition with_xref (f : Z -> Z) (n : node) : node :=
  Node (n_lo n) (n_hi n) (n_idx n) (n_key n) (n_mark n) (f (n_xref n)).
Definition with_mark (b : bool) (n : node) : node :=
  Node (n_lo n) (n_hi n) (n_idx n) (n_key n) b (n_xref n).
Definition with_lo (p : ptr) (n : node) : node :=
  Node p (n_hi n) (n_idx n) (n_key n) (n_mark n) (n_xref n).

Definition xref_inc (p : ptr) : M unit := modN p (with_xref (fun x => (x + 1)%Z)).
Definition xref_dec (p : ptr) : M unit := modN p (with_xref (fun x => (x - 1)%Z)).

(** sinks live in the first two cells of the first page: bdd_node_cache.cpp:13,16 *)
Definition botsink : ptr := e_page 0%nat.
Definition topsink : ptr := e_page 0%nat + node_size.

(** Recursion bound used for walks over the node graph: proved sufficient for every
    reachable state (the graph is acyclic, so no path is longer than the number of cells). *)
Definition fuel_of (s : mstate) : nat := (6 * size (s_heap s) + 12)%nat.
Definition with_fuel {A} (m : nat -> M A) : M A := fun s => m (fuel_of s) s.

End base.
