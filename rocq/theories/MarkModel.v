(** * MarkModel.v -- the mark bit as seen by a client of node_ref *)
From Verif Require Export NodeModel.
Open Scope N_scope.
Section markmodel.
Context {E : Env}.
(** include/bdd_node.h:126, node_ref::mark: only the node itself *)
Definition ref_mark (p : ptr) : M unit := modN p (with_mark true).
(** include/bdd_node.h:127, node_ref::unmark: only the node itself *)
Definition ref_unmark (p : ptr) : M unit := modN p (with_mark false).
(** include/bdd_node.h:128, node_ref::unmark_rec *)
Definition ref_unmark_rec (p : ptr) : M unit := unmark p.
(** include/bdd_node.h:125, node_ref::marked *)
Definition ref_marked (p : ptr) : M bool := marked p.
End markmodel.
