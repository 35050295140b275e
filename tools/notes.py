# property -> (status, note); status None = proved if there are theorems
R="The statement has a positive and a negative half; both are theorems (the negative ones end in _refuted: the usual claim is stated in full and disproved, by a concrete program run in the model or in general)."
NOTES={
'C02':('proved',R),
'C04':('proved',"C04_ite_rec and C04_ite_clash_never_returns cover the two exclusive cases for every ordered history; C04_ite_rec_last is the part for unordered ones; C04_ite_refuted disproves the unrestricted claim."),
'C05':('proved',R),'C07':('proved',R),'C11':('proved',R),
'C13':('proved',"Conjunction, agreement with and_rec, monotonicity in the limit, the bounds on the returned number and a limit that always suffices are proved; the three readings of the limit contract are disproved in C13_limit_refuted."),
'C26':('proved',"C26_throw_reachable exhibits a history (built by induction, not run) in which the exception is thrown. C26_transparent covers all later programs that create no nodes (the excluded queries are reference_count and the manager's nr_nodes; C26_references says what the former returns)."),
'C28':('proved',"One collection after a GC-free ordered history; whether it returns is not promised (see C30), nor that later node-creating operations are correct (C29); C28_gc_transparent covers all later programs that create no nodes (the excluded queries are reference_count and the manager's nr_nodes, which do change)."),
'C29':('proved',"Refutation; the case in which nothing is garbage is C28_no_garbage."),
'C30':('proved',"Refutation for every fuel; the case in which nothing is garbage is C28_no_garbage."),
'C31':('proved',"Refutation."),'C32':('proved',"Refutation, for NDEBUG defined and not."),
'C33':('proved',R),
'C40':('proved',R),'C44':('proved',"Holds for every contradictory operand list, not only for an example."),
'C47':('proved',R),'C49':('proved',"Both halves are general."),'C50':('proved',"The general failures (absent variable, redundant child, tautology on the root) are proved for every case; overflow at 128 removals (signed 8-bit char, as on x86) and merged duplicates by concrete runs in both build modes."),
'C51':('proved',"Holds for every collection."),'C54':('proved',"Both halves are general."),
'C34':('proved',R),'C61':('proved',"Refutation, for NDEBUG defined and not."),
'C56':('proved',R),'C60':('proved',"Refutations."),
'C65':('proved',R),'C66':('proved',R),'C67':('proved',R),'C68':('proved',"Both halves are general."),
}
