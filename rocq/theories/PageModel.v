(** * PageModel.v -- unique_table_page_cache as a component, at the level of memory words
    (include/bdd_var.h:27-70, 146-189).

    TableModel.v treats the pages of different tables as separate values; here a page is an address
    in one flat memory, and the list of free pages is threaded through the pages themselves (the
    union of data and next_available). *)
From Verif Require Export TableModel.
Open Scope N_scope.

(** addresses returned by successive new[], contents of fresh memory *)
Class PEnv := { pe_blk : nat -> N; pe_junk : N -> N; pe_ndebug : bool }.
Definition word : N := 8.
(** every class allocates PAGE_SIZE * NR_SIMUL_ALLOC = 2^20 words at a time: bdd_var.h:54-68 *)
Definition blk_words : N := 1048576.
(** new[] returns non-null, disjoint memory *)
Definition penv_ok (P : PEnv) : Prop :=
  (forall k, pe_blk k <> 0) /\
  (forall i j, i <> j -> pe_blk i + word * blk_words <= pe_blk j \/ pe_blk j + word * blk_words <= pe_blk i).

(** memory words, number of blocks allocated so far by all classes, for each class page_avail and the vector pages *)
Record pst := PSt { p_mem : N -> N; p_nblk : nat; p_avail : gmap N N; p_pages : gmap N (list N) }.
Inductive pres A := POk (a : A) (s : pst) | PFail (e : err) (s : pst).
Arguments POk {A}. Arguments PFail {A}.

Section page.
Context {P : PEnv}.
(** the constructors: bdd_var.h:146-150 *)
Definition p_init : pst := PSt pe_junk 0 ∅ ∅.
Definition pavail (cls : N) (s : pst) : N := default 0 (p_avail s !! cls).
Definition ppages (cls : N) (s : pst) : list N := default [] (p_pages s !! cls).
(** bdd_var.h:46 *)
Definition nr_pages (cls : N) (s : pst) : N := N.of_nat (length (ppages cls s)) * nr_simul cls.

(** is [a, a + 8 len) allocated memory? *)
Definition allocb (s : pst) (a len : N) : bool :=
  existsb (fun k => (pe_blk k <=? a) && (a + word * len <=? pe_blk k + word * blk_words)) (seq 0 (p_nblk s)).
Definition set_word (a v : N) (m : N -> N) : N -> N := fun x => if x =? a then v else m x.
(** std::fill of [n] words *)
Fixpoint zero_words (n : nat) (a : N) (m : N -> N) : N -> N :=
  match n with O => m | S n => zero_words n (a + word) (set_word a 0 m) end.
(** the default member initialiser next_available = nullptr of every page of a new block (line 32) *)
Fixpoint null_pages (n : nat) (a cls : N) (m : N -> N) : N -> N :=
  match n with O => m | S n => null_pages n (a + word * cls) cls (set_word a 0 m) end.
(** lines 162-163: for(i = 0; i+1 < n; ++i) pages.back()[i].next_available = &pages.back()[i+1] *)
Fixpoint link_pages (n : nat) (a cls : N) (m : N -> N) : N -> N :=
  match n with O => m | S n => link_pages n (a + word * cls) cls (set_word a (a + word * cls) m) end.

(** bdd_var.h:157-165 *)
Definition increase_pages (cls : N) (s : pst) : pres unit :=
  if negb ((pavail cls s =? 0) || pe_ndebug) then PFail EAssert s else
  let b := pe_blk (p_nblk s) in
  let n := N.to_nat (nr_simul cls) in
  POk tt (PSt (link_pages (n - 1) b cls (null_pages n b cls (p_mem s))) (S (p_nblk s))
              (<[cls := b]> (p_avail s)) (<[cls := ppages cls s ++ [b]]> (p_pages s))).

(** bdd_var.h:167-182; the recursion happens at most once *)
Fixpoint take_page_fuel (fuel : nat) (cls : N) (s : pst) : pres N :=
  match fuel with
  | O => PFail ELoop s
  | S fuel =>
    let r := pavail cls s in
    if negb (r =? 0) then
      if allocb s r cls then
        POk r (PSt (zero_words (N.to_nat cls) r (p_mem s)) (p_nblk s) (<[cls := p_mem s r]> (p_avail s)) (p_pages s))
      else PFail EUB s
    else match increase_pages cls s with
         | POk _ s1 => take_page_fuel fuel cls s1
         | PFail e s1 => PFail e s1
         end
  end.
Definition take_page (cls : N) (s : pst) : pres N := take_page_fuel 2 cls s.

(** bdd_var.h:184-189 *)
Definition give_page (cls p : N) (s : pst) : pres unit :=
  if allocb s p 1 then POk tt (PSt (set_word p (pavail cls s) (p_mem s)) (p_nblk s) (<[cls := p]> (p_avail s)) (p_pages s))
  else PFail EUB s.

(** the user of a page writes cell [i] (bdd_var.cpp:22-26) *)
Definition write_cell (p i v : N) (s : pst) : pst := PSt (set_word (p + word * i) v (p_mem s)) (p_nblk s) (p_avail s) (p_pages s).
End page.
