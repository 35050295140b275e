(** * Client.v -- programs that use the library: a manager and a vector of node_ref objects.

    A client program is a list of [op]s.  Handles are addressed by their position; a destroyed
    handle is [None], the default-constructed node_ref is [Some 0].  Every operation that
    returns a node_ref appends it to the vector and takes one reference
    (bdd_node.cpp:264-276: constructor / copy constructor; the moves of 287-290 leave the
    count unchanged). *)
From Verif Require Export CollModel.

Open Scope N_scope.

Record world := W { w_s : mstate; w_h : list (option ptr) }.

Inductive op :=
(* include/bdd_mgr.h:19-90, in the order of the class *)
| OAddVar | OProj (v : N) | ONegProj (v : N) | ONot (i : nat) | OTop | OBot
| OUnique (v : N) (lo hi : nat)
| OAndV (i : nat) (is_ : list nat) | OAndR (is_ : list nat) | OAnd (i j : nat)
| OAndLim (i j : nat) (limit : N)
| OOrV (i : nat) (is_ : list nat) | OOrR (is_ : list nat) | OOr (i j : nat)
| OXorV (i : nat) (is_ : list nat) | OXorR (is_ : list nat) | OXor (i j : nat)
| OIte (i j k : nat)
| ORebaseM (i : nat) (vm : gmap N N) | ORebaseV (i : nat) (vm : list N)
| OGc (fuel : nat)
| OAllFalse (is_ : list nat) | OSimplex (is_ : list nat) | OAtMostOne (is_ : list nat)
| OAtLeastOne (is_ : list nat)
| OAtLeast (is_ : list nat) (b : nat) | OAtMost (is_ : list nat) (b : nat) | OCard (is_ : list nat) (b : nat)
| OImport (c : coll) (nr : N)
(* operators & | ^ !, bdd_mgr.h:221-245 *)
| OpAnd (i j : nat) | OpOr (i j : nat) | OpXor (i j : nat) | OpNot (i : nat)
(* node_ref, bdd_node.h:84-131 *)
| OCopy (i : nat) | ODrop (i : nat) | OAssign (i j : nat) | OLow (i : nat) | OHigh (i : nat)
| QNrNodes (i : nat) | QOne (i : nat) | QEval (i : nat) (x : list bool) | QVars (i : nat)
| QPost (i : nat) | QBfs (i : nat) | QPrint (i : nat) | QRefs (i : nat)
| ONull | OMove (i : nat) | OPostAll (i : nat) | OBfsAll (i : nat) | OBotOf (i : nat) | OTopOf (i : nat)
| QVar (i : nat) | QIsBot (i : nat) | QIsTop (i : nat) | QIsTerm (i : nat) | QEq (i j : nat) | QFindMgr (i : nat)
| QNrVars | QMgrNodes
(* bdd_collection: add_bdd / export_bdd *)
| QCollAdd (c : coll) (i : nat) | OExport (c : coll) (nr : N).

Inductive out :=
| OutU | OutP (p : ptr) | OutLim (p : ptr) (n : N) | OutN (n : N) | OutZ (z : Z) | OutB (b : bool)
| OutL (l : list N) | OutArcs (l : list (ptr * ptr * bool)) | OutC (nr : N) (c : coll).

Inductive wres := WOk (o : out) (w : world) | WFail (e : err) (w : world).

Section client.
Context {E : Env}.

Definition w_init : world := W mgr_init [].

(** address held by handle i *)
Definition hnd (w : world) (i : nat) : option ptr := mjoin (w_h w !! i).
Fixpoint hnds (w : world) (is_ : list nat) : option (list ptr) :=
  match is_ with
  | [] => Some []
  | i :: is_ => match hnd w i, hnds w is_ with Some p, Some l => Some (p :: l) | _, _ => None end
  end.

(** an operation returning a new handle *)
Definition newh (w : world) (m : M ptr) : wres :=
  match m (w_s w) with
  | Ok p s => match ref_acquire p s with
              | Ok _ s => WOk (OutP p) (W s (w_h w ++ [Some p]))
              | Fail e s => WFail e (W s (w_h w))
              end
  | Fail e s => WFail e (W s (w_h w))
  end.
(** a query *)
Definition query {A} (w : world) (f : A -> out) (m : M A) : wres :=
  match m (w_s w) with
  | Ok a s => WOk (f a) (W s (w_h w))
  | Fail e s => WFail e (W s (w_h w))
  end.
Definition with1 (w : world) (i : nat) (k : ptr -> wres) : wres :=
  match hnd w i with Some p => k p | None => WFail EUB w end.
Definition with2 (w : world) (i j : nat) (k : ptr -> ptr -> wres) : wres :=
  with1 w i (fun p => with1 w j (fun q => k p q)).
Definition withl (w : world) (is_ : list nat) (k : list ptr -> wres) : wres :=
  match hnds w is_ with Some l => k l | None => WFail EUB w end.

(** an operation returning a vector of handles (bdd_node.cpp:306-336; the in-place conversion
    of 306-321 takes one reference per element) *)
Fixpoint acquire_all (l : list ptr) : M unit :=
  match l with [] => ret tt | p :: l => ref_acquire p ;;* acquire_all l end.
Definition newhs (w : world) (m : M (list ptr)) : wres :=
  match (let* l := m in acquire_all l ;;* ret l) (w_s w) with
  | Ok l s => WOk (OutL l) (W s (w_h w ++ map Some l))
  | Fail e s => WFail e (W s (w_h w))
  end.

Definition step (o : op) (w : world) : wres :=
  match o with
  | OAddVar => query w OutN add_variable
  | OProj v => newh w (projection v)
  | ONegProj v => newh w (neg_projection v)
  | ONot i => with1 w i (fun p => newh w (negate p))
  | OTop => newh w (ret topsink)
  | OBot => newh w (ret botsink)
  | OUnique v i j => with2 w i j (fun p q => newh w (mgr_unique_find v p q))
  | OAndV i l => with1 w i (fun p => withl w l (fun ps => newh w (and_variadic p ps)))
  | OAndR l => withl w l (fun ps => newh w (and_range ps))
  | OAnd i j => with2 w i j (fun p q => newh w (and_rec p q))
  | OAndLim i j limit => with2 w i j (fun p q =>
      match and_rec_limited p q limit (w_s w) with
      | Ok (r, n) s => match ref_acquire r s with
                       | Ok _ s => WOk (OutLim r n) (W s (w_h w ++ [Some r]))
                       | Fail e s => WFail e (W s (w_h w))
                       end
      | Fail e s => WFail e (W s (w_h w))
      end)
  | OOrV i l => with1 w i (fun p => withl w l (fun ps => newh w (or_variadic p ps)))
  | OOrR l => withl w l (fun ps => newh w (or_range ps))
  | OOr i j => with2 w i j (fun p q => newh w (or_rec p q))
  | OXorV i l => with1 w i (fun p => withl w l (fun ps => newh w (xor_variadic p ps)))
  | OXorR l => withl w l (fun ps => newh w (xor_range ps))
  | OXor i j => with2 w i j (fun p q => newh w (xor_rec p q))
  | OIte i j k => with1 w i (fun p => with2 w j k (fun q r => newh w (ite_rec p q r)))
  | ORebaseM i vm => with1 w i (fun p => newh w (rebase_map p vm))
  | ORebaseV i vm => with1 w i (fun p => newh w (rebase_vec p vm))
  | OGc fuel => query w (fun _ => OutU) (collect_garbage fuel)
  | OAllFalse l => withl w l (fun ps => newh w (all_false ps))
  | OSimplex l => withl w l (fun ps => newh w (simplex ps))
  | OAtMostOne l => withl w l (fun ps => newh w (at_most_one ps))
  | OAtLeastOne l => withl w l (fun ps => newh w (at_least_one ps))
  | OAtLeast l b => withl w l (fun ps => newh w (at_least ps b))
  | OAtMost l b => withl w l (fun ps => newh w (at_most ps b))
  | OCard l b => withl w l (fun ps => newh w (cardinality ps b))
  | OImport c nr => newh w (mgr_add_bdd c nr)
  | OpAnd i j => with2 w i j (fun p q => newh w (op_and p q))
  | OpOr i j => with2 w i j (fun p q => newh w (op_or p q))
  | OpXor i j => with2 w i j (fun p q => newh w (op_xor p q))
  | OpNot i => with1 w i (fun p => newh w (op_not p))
  | OCopy i => with1 w i (fun p => newh w (ret p))
  | ODrop i => with1 w i (fun p =>
      match ref_release p (w_s w) with
      | Ok _ s => WOk OutU (W s (<[i := None]> (w_h w)))
      | Fail e s => WFail e (W s (w_h w))
      end)
  | OAssign i j => with2 w i j (fun p q =>
      match ref_assign p q (w_s w) with
      | Ok r s => WOk OutU (W s (<[i := Some r]> (w_h w)))
      | Fail e s => WFail e (W s (w_h w))
      end)
  | OLow i => with1 w i (fun p => newh w (low p))
  | OHigh i => with1 w i (fun p => newh w (high p))
  | QNrNodes i => with1 w i (fun p => query w OutN (nr_nodes p))
  | QOne i => with1 w i (fun p => query w OutB (exactly_one_solution p))
  | QEval i x => with1 w i (fun p => query w OutB (evaluate p x))
  | QVars i => with1 w i (fun p => query w OutL (variables p))
  | QPost i => with1 w i (fun p => query w OutL (nodes_postorder p))
  | QBfs i => with1 w i (fun p => query w OutL (nodes_bfs p))
  | QPrint i => with1 w i (fun p => query w OutArcs (print p))
  | QRefs i => with1 w i (fun p => query w OutZ (reference_count p))
  | ONull => newh w (ret 0)                       (* bdd_node.cpp:292-294 *)
  | OMove i => with1 w i (fun p =>                (* bdd_node.cpp:287-290: swap with a null reference *)
      WOk (OutP p) (W (w_s w) (<[i := Some 0]> (w_h w) ++ [Some p])))
  | OPostAll i => with1 w i (fun p => newhs w (nodes_postorder p))
  | OBfsAll i => with1 w i (fun p => newhs w (nodes_bfs p))
  | OBotOf i => with1 w i (fun p => newh w (via_mgr p (ret botsink)))  (* bdd_node.cpp:338-341 *)
  | OTopOf i => with1 w i (fun p => newh w (via_mgr p (ret topsink)))  (* bdd_node.cpp:343-345 *)
  | QVar i => with1 w i (fun p => query w OutN (variable p))
  | QIsBot i => with1 w i (fun p => query w OutB (is_botsink p))
  | QIsTop i => with1 w i (fun p => query w OutB (is_topsink p))
  | QIsTerm i => with1 w i (fun p => query w OutB (is_terminal p))
  | QEq i j => with2 w i j (fun p q => query w OutB (ret (p =? q)))    (* bdd_node.h:119 *)
  | QFindMgr i => with1 w i (fun p => query w OutN (find_bdd_mgr p))
  | QNrVars => query w OutN (let* s := get in ret (nr_variables s))    (* bdd_mgr.h:22 *)
  | QMgrNodes => query w OutN (let* s := get in ret (mgr_nr_nodes s))  (* bdd_mgr.h:23 *)
  | QCollAdd c i => with1 w i (fun p => query w (fun r => OutC (fst r) (snd r)) (c_add_bdd c p))
  | OExport c nr => newh w (export_bdd c nr)
  end.

(** end of the program: destroy all handles, then the manager *)
Fixpoint drop_all (n : nat) (w : world) : wres :=
  match n with
  | O => WOk OutU w
  | S n => match hnd w n with
           | None => drop_all n w
           | Some _ => match step (ODrop n) w with WOk _ w => drop_all n w | f => f end
           end
  end.
Definition shutdown (w : world) : wres :=
  match drop_all (length (w_h w)) w with
  | WOk _ w => query w (fun _ => OutU) mgr_destroy
  | f => f
  end.

End client.
