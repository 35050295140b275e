(** * CollModel2.v -- model of the rest of bdd_collection: rerouting of arcs through node objects, the
    entry objects, the iterator pairs, export_graphviz *)
From Verif Require Export CollModel.
From stdpp Require Export sorting.
Open Scope N_scope.

(** ** export_graphviz: the statements written to the stream.  Simplification: the text is a list of
    statements instead of characters; numbers are not turned into decimals. *)
Inductive glabel := LTop | LBot | LVar (v : N).
Inductive gline :=
| GDigraph                        (* "digraph BDD\n" *)
| GOpen                           (* "{\n" *)
| GClose                          (* "}\n" *)
| GCluster (v : N)                (* "subgraph cluster_v {\n" *)
| GColor                          (* "color = blue\n" *)
| GNode (k : N) (l : glabel)      (* "k [label=\"l\"];\n" *)
| GSolid (i j : N)                (* "i -> j;\n" *)
| GDashed (i j : N)               (* "i -> j[style=\"dashed\"];\n" *)
| GInvis (i j : N).               (* "i -> j [style=invis];\n" *)

Section coll_model2.
Context {E : Env}.

(** ** bdd_collection_entry *)
(** bdd_collection.cpp:601-606: the constructor; an entry is its BDD number *)
Definition mk_entry (c : coll) (nr : N) : R N := letR* _ := assertR (nr <? nr_bdds c) in inr nr.
(** bdd_collection.cpp:544-547, bdd_collection::operator[] *)
Definition c_index (c : coll) (nr : N) : R N := mk_entry c nr.
(** bdd_collection.cpp:624-629, operator&: both entries refer to the same collection *)
Definition entry_and (c : coll) (i j : N) : R (N * coll) :=
  letR* r := bdd_and2 c i j size_max in
  letR* e := mk_entry (snd r) (fst r) in inr (e, snd r).
(** bdd_collection.cpp:656-661, bdd_collection_entry::operator[] *)
Definition entry_nth (c : coll) (nr k : N) : R cnode := letR* a := del_at c nr in mk_cnode c (add64 a k) nr.
(** bdd_collection.cpp:750-759 *)
Definition cn_eqb (x y : cnode) : bool := fst x =? fst y.

(** ** bdd_collection_node: rerouting.  The entry object the node refers to is assumed to be alive. *)
(** bdd_collection.cpp:707-711 *)
Definition cn_set_lo_arc (c : coll) (x y : cnode) : R coll :=
  letR* i := cn_instr c x in
  inr (Coll (<[N.to_nat (fst x) := Instr (fst y) (i_hi i) (i_idx i)]> (c_ins c)) (c_del c)).
(** bdd_collection.cpp:713-717 *)
Definition cn_set_hi_arc (c : coll) (x y : cnode) : R coll :=
  letR* i := cn_instr c x in
  inr (Coll (<[N.to_nat (fst x) := Instr (i_lo i) (fst y) (i_idx i)]> (c_ins c)) (c_del c)).
(** bdd_collection.cpp:719-723 *)
Definition cn_set_lo_to_0 (c : coll) (x : cnode) : R coll := letR* t := entry_botsink c (snd x) in cn_set_lo_arc c x t.
(** bdd_collection.cpp:725-729 *)
Definition cn_set_lo_to_1 (c : coll) (x : cnode) : R coll := letR* t := entry_topsink c (snd x) in cn_set_lo_arc c x t.
(** bdd_collection.cpp:731-735 *)
Definition cn_set_hi_to_0 (c : coll) (x : cnode) : R coll := letR* t := entry_botsink c (snd x) in cn_set_hi_arc c x t.
(** bdd_collection.cpp:737-741 *)
Definition cn_set_hi_to_1 (c : coll) (x : cnode) : R coll := letR* t := entry_topsink c (snd x) in cn_set_hi_arc c x t.

(** ** Iterator pairs: the elements from first to second *)
(** bdd_collection.h:154 *)
Definition get_bdd_instructions (c : coll) (nr : N) : R (list instr) :=
  letR* a := del_at c nr in letR* b := del_at c (nr + 1) in slice c a b.
(** bdd_collection.h:155: the body is the same *)
Definition get_reverse_bdd_instructions (c : coll) (nr : N) : R (list instr) :=
  letR* a := del_at c nr in letR* b := del_at c (nr + 1) in slice c a b.

(** ** export_graphviz: bdd_collection.h:432-498.  [ord] and [ord'] are the orders in which the two
    unordered_maps are iterated. *)
(** 443-471: the first loop over the entries [l], [k] counting from 0; [cl] = clusters, [cn] = cluster_nodes *)
Definition cl_add (v : N) (g : gline) (cl : gmap N (list gline)) : gmap N (list gline) := <[v := default [] (cl !! v) ++ [g]]> cl.
Fixpoint gv_pass (l : list instr) (k : N) (cl : gmap N (list gline)) (cn : gmap N N) : R (gmap N (list gline) * gmap N N) :=
  match l with
  | [] => inr (cl, cn)
  | x :: l =>
    if ci_is_term x then
      if ci_is_top x then gv_pass l (k + 1) (cl_add size_max (GNode k LTop) cl) cn else
      if ci_is_bot x then gv_pass l (k + 1) (cl_add size_max (GNode k LBot) cl) cn else
      letR* _ := assertR false in gv_pass l (k + 1) (<[size_max := default [] (cl !! size_max)]> cl) cn
    else gv_pass l (k + 1) (cl_add (i_idx x) (GNode k (LVar (i_idx x))) cl) (<[i_idx x := k]> cn)
  end.
(** 473-479 *)
Definition gv_clusters (l : list (N * list gline)) : list gline :=
  concat (map (fun '(v, b) => GCluster v :: b ++ [GColor; GClose]) l).
(** 486-487: for an empty vector, size()-1 wraps and the loop reads past the end *)
Definition gv_chain (l : list (N * N)) : R (list gline) :=
  match l with [] => inl EUB | _ => inr (map (fun '(x, y) => GInvis (snd x) (snd y)) (zip l (tail l))) end.
(** 489-496 *)
Fixpoint gv_arcs (l : list instr) (k a : N) : list gline :=
  match l with
  | [] => []
  | x :: l => if ci_is_term x then gv_arcs l (k + 1) a
              else GSolid k (sub64 (i_hi x) a) :: GDashed k (sub64 (i_lo x) a) :: gv_arcs l (k + 1) a
  end.
(** 485, std::sort by variable *)
Definition key_le (x y : N * N) : Prop := fst x <= fst y.
Global Instance key_le_dec : RelDecision key_le. Proof. intros x y. unfold key_le. apply _. Defined.
Definition export_graphviz (ord : list (N * list gline) -> list (N * list gline)) (ord' : list (N * N) -> list (N * N))
    (c : coll) (nr : N) : R (list gline) :=
  letR* _ := assertR (nr <? nr_bdds c) in
  letR* a := del_at c nr in
  letR* b := del_at c (nr + 1) in
  letR* l := slice c a b in
  letR* r := gv_pass l 0 ∅ ∅ in
  letR* ch := gv_chain (merge_sort key_le (ord' (map_to_list (snd r)))) in
  inr ([GDigraph; GOpen] ++ gv_clusters (ord (map_to_list (fst r))) ++ ch ++ gv_arcs l 0 a ++ [GClose]).
End coll_model2.
