(** * TestEnv.v -- one concrete environment, used for examples and counterexamples *)
From Verif Require Export Client.
Open Scope N_scope.

(** page k at 1 MiB + k * 128 KiB; keys from a linear congruential generator *)
Definition tenv (ndebug rtl mrk : bool) : Env := {|
  e_ndebug := ndebug; e_rtl := rtl;
  e_page := fun k => 1048576 + 131072 * N.of_nat k;
  e_rand := fun k => (N.of_nat k * 2654435761 + 12345) mod hashtablesize;
  e_mgr := 64000;
  e_botkey := 17; e_topkey := 99; e_botmark := mrk; e_topmark := mrk |}.

Lemma tenv_ok a b c : env_ok (tenv a b c).
Proof.
  unfold env_ok, tenv; cbn [e_page e_mgr e_rand e_botkey e_topkey]. unfold node_size, node_page_size, hashtablesize.
  repeat split; intros; try lia.
  apply N.mod_lt; lia.
Qed.
