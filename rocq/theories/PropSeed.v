(** * Property C100: what the seed determines *)
From Verif Require Import Base Data ProblemDefine CostScaling Generator Spec GenSpec GenSeed.
Local Open Scope Z_scope.

(** C100: two calls of TinyGen with the same arguments give the same graph and leave the same
    state, whatever the state before, if the graphs have the same number of edges; *)
Theorem C100_same :
  forall (D : Type) (ops : DataOps D) fuel1 fuel2 n mlimit multi node_limit edge_limit fun_limit sd info (q : fun_queue D) s1 s2 g1 g2 st1 st2,
  tiny_gen fuel1 n mlimit multi node_limit edge_limit fun_limit sd info (q, s1) = Ok (g1, st1) ->
  tiny_gen fuel2 n mlimit multi node_limit edge_limit fun_limit sd info (q, s2) = Ok (g2, st2) ->
  gr_m g1 = gr_m g2 -> g1 = g2 /\ st1 = st2.
Proof. exact @tiny_gen_same. Qed.
Print Assumptions C100_same.

(** so one call can return at most mlimit - n + 2 different graphs. *)
Theorem C100_few :
  forall (D : Type) (ops : DataOps D) fuel n mlimit multi node_limit edge_limit fun_limit sd info,
  tiny_args n mlimit multi node_limit edge_limit fun_limit ->
  exists L : list (graph D), Z.of_nat (length L) <= mlimit - n + 2 /\
    forall s g st, tiny_gen fuel n mlimit multi node_limit edge_limit fun_limit sd info ([], s) = Ok (g, st) -> In g L.
Proof. exact @tiny_gen_few. Qed.
Print Assumptions C100_few.

(** The number of edges is not determined by the seed: it is drawn before the seed is set. *)
Theorem C100_reproducible_refuted :
  exists fuel n mlimit multi node_limit edge_limit fun_limit sd s1 s2 g1 g2 st1 st2,
  tiny_args n mlimit multi node_limit edge_limit fun_limit /\
  @tiny_gen Z (exact_ops 4) fuel n mlimit multi node_limit edge_limit fun_limit sd true ([], s1) = Ok (g1, st1) /\
  @tiny_gen Z (exact_ops 4) fuel n mlimit multi node_limit edge_limit fun_limit sd true ([], s2) = Ok (g2, st2) /\
  gr_m g1 <> gr_m g2.
Proof. exact seed_refutes. Qed.
Print Assumptions C100_reproducible_refuted.

(** The first number drawn hardly depends on a small seed: next(2) is 1 for all seeds below
    4096, and next(1), next(2), next(4), next(8) and next(16) are 0, 1, 2, 5 and 11 for all seeds below 256. *)
Theorem C100_first_coin :
  forall fuel s, 0 <= s < 4096 -> next_int fuel 2 (set_seed s) = Ok (1, rng_step (set_seed s)).
Proof. exact small_seeds. Qed.
Print Assumptions C100_first_coin.

Theorem C100_first_number :
  forall fuel s k, 0 <= s < 256 -> 0 <= k <= 4 -> next_int fuel (2 ^ k) (set_seed s) = Ok (11 / 2 ^ (4 - k), rng_step (set_seed s)).
Proof. exact smaller_seeds. Qed.
Print Assumptions C100_first_number.

Example C100_example :
  tiny_args 5 10 false (-2, 2) (-2, 6) (-10, 10) /\
  map edges_of [0; 1; 2; 3; 4; 5; 6; 7] = [Ok 6; Ok 9; Ok 8; Ok 5; Ok 8; Ok 4; Ok 10; Ok 6] /\
  (exists x, next_int 1 2 (set_seed 4096) = Ok (0, x)).
Proof.
  split; [unfold tiny_args, int_range, INT_MIN, INT_MAX; repeat split; intros; vm_compute; congruence|]. split; [vm_compute; reflexivity|eexists; vm_compute; reflexivity].
Qed.
