(** * Properties C47 to C50: the random inputs and the random tests

    [next_int], [next_range] are random_t::next, [gen_graph_run] is
    Graph::GenGraph, [tiny_gen] is TinyGen, [run_random_test] is one of the
    tests of test.cpp. *)
From Verif Require Import Base Data ProblemDefine CostScaling Generator TestSuite Spec GenSpec.
From Verif Require Import GenTable TestProof GenUniform GenExample.
Local Open Scope Z_scope.

(** C47: next(n) ends and returns a number in range, every state comes up
    again, and every value is equally frequent. *)
Theorem C47_next_in_range : forall (n s : Z) (fuel : nat), 1 <= n <= INT_MAX -> 2 ^ 48 + 2 <= Z.of_nat fuel ->
  exists r s', next_int fuel n s = Ok (r, s') /\ 0 <= r < n /\ 0 <= s' < 2 ^ 48.
Proof. intros n s fuel. exact (next_ok fuel n s). Qed.
Print Assumptions C47_next_in_range.

Theorem C47_next_between : forall (from to s : Z) (fuel : nat),
  INT_MIN <= from -> from <= to -> to <= INT_MAX -> 2 ^ 48 + 2 <= Z.of_nat fuel ->
  exists r s', next_range fuel from to s = Ok (r, s') /\ from <= r <= to /\ 0 <= s' < 2 ^ 48.
Proof. intros from to s fuel. exact (next_between fuel from to s). Qed.
Print Assumptions C47_next_between.

Theorem C47_full_period : forall s t : Z, 0 <= t < 2 ^ 48 ->
  exists k : nat, (1 <= k)%nat /\ Z.of_nat k <= 2 ^ 48 /\ Nat.iter k rng_step s = t.
Proof. exact full_period. Qed.
Print Assumptions C47_full_period.

(** equally many states give [r] and [r']: there are injections both ways *)
Theorem C47_uniform : forall n r r' : Z, 1 <= n <= INT_MAX -> 0 <= r < n -> 0 <= r' < n ->
  exists f : rng -> rng,
    (forall w, 0 <= w < 2 ^ 48 -> next_of n w = Some r -> 0 <= f w < 2 ^ 48 /\ next_of n (f w) = Some r') /\
    (forall w1 w2, 0 <= w1 < 2 ^ 48 -> 0 <= w2 < 2 ^ 48 -> next_of n w1 = Some r -> next_of n w2 = Some r -> f w1 = f w2 -> w1 = w2).
Proof. exact next_uniform. Qed.
Print Assumptions C47_uniform.

Example C47_example : next_int 10 50 1 = Ok (24, 25214903928) /\ next_range 10 (-40) 40 25214903928 = Ok (35, 245470556921330) /\
  next_of 50 1 = Some 24 /\ next_of 50 (rng_step 1) = Some 28.
Proof. repeat split; vm_compute; reflexivity. Qed.

(** C48: GenGraph returns a graph as asked for: number of edges, nodes in range,
    no loops and no repeated edges unless allowed, connected if wanted; it
    never misbehaves. *)
Theorem C48_graph : forall (g : gen_graph) (s : rng) (fuel : nat),
  1 <= g_node g <= INT_MAX -> 0 <= g_side g <= INT_MAX ->
  (exists g' s', gen_graph_run fuel g s = Ok (g', s') /\
     Z.of_nat (length (g_edge g')) = edges_wanted g /\ nodes_in (g_node g) (g_edge g') /\
     (g_self_loop g = false -> forall u v, In (u, v) (g_edge g') -> u <> v) /\
     (g_multiply g = false -> no_repetition (g_direction g) (g_edge g')) /\
     (g_connect g = true -> connected (g_node g) (g_edge g'))) \/
  gen_graph_run fuel g s = Err OutOfFuel.
Proof. intros g s fuel. exact (gen_graph_safe fuel g s). Qed.
Print Assumptions C48_graph.

(** it ends, for the kind of graph the tests ask for *)
Theorem C48_ends : forall (g : gen_graph) (s : rng) (fuel : nat),
  1 <= g_node g <= INT_MAX -> 0 <= g_side g <= INT_MAX ->
  g_direction g = false -> g_self_loop g = false -> drawable (g_multiply g) (g_node g) ->
  2 ^ 48 + 2 <= Z.of_nat fuel -> exists g' s', gen_graph_run fuel g s = Ok (g', s').
Proof. intros g s fuel. exact (gen_graph_ends fuel g s). Qed.
Print Assumptions C48_ends.

Example C48_example : drawable false 5 /\ drawable true 4 /\ drawable false 50 /\ drawable true 50 /\ drawable true 100 /\
  (match gen_graph_run gen_steps (mkGen 5 6 [] [] false false false true) 1 with Ok (g, _) => g_edge g | Err _ => [] end) =
  [(0, 3); (0, 1); (1, 2); (4, 1); (2, 0); (2, 4)].
Proof.
  split; [exact drawable_5|]. split; [exact drawable_4|]. split; [exact drawable_50|]. split; [exact drawable_50_multi|].
  split; [exact drawable_100|]. vm_compute. reflexivity.
Qed.

(** for some settings it never ends: directed graphs with loops and many edges *)
Theorem C48_always_ends_refuted : exists g, 1 <= g_node g <= INT_MAX /\ 0 <= g_side g <= INT_MAX /\
  forall (fuel : nat) (s : rng), gen_graph_run fuel g s = Err OutOfFuel.
Proof. exact crowded_refutes. Qed.
Print Assumptions C48_always_ends_refuted.

(** C49: TinyGen returns a graph with limits and costs as asked for, and its
    text shows these; the graph is a problem the library must solve. *)
Theorem C49_tiny_gen : forall (unit n mlimit : Z) (multi : bool) (node_limit edge_limit fun_limit : Z * Z) (sd s : Z) (fuel : nat),
  tiny_args n mlimit multi node_limit edge_limit fun_limit -> drawable multi n -> 2 ^ 48 + 2 <= Z.of_nat fuel ->
  exists g s', @tiny_gen Z (exact_ops (4 * unit)) fuel n mlimit multi node_limit edge_limit fun_limit sd true ([], s) = Ok (g, ([], s')) /\
    tiny_result unit n mlimit multi node_limit edge_limit fun_limit g.
Proof. intros unit n mlimit multi nl el fl sd s fuel. exact (tiny_gen_result unit fuel n mlimit multi nl el fl sd s). Qed.
Print Assumptions C49_tiny_gen.

Theorem C49_admissible : forall (unit n mlimit : Z) (multi : bool) (node_limit edge_limit fun_limit : Z * Z) (K : Z) (g : graph Z),
  0 < unit -> 1 <= n -> tiny_result unit n mlimit multi node_limit edge_limit fun_limit g ->
  within_K K node_limit -> within_K K edge_limit -> int_fits (Z.to_nat n) K ->
  admissible (Z.to_nat n) (gr_node g) (gr_edge g) K.
Proof. exact tiny_gen_admissible. Qed.
Print Assumptions C49_admissible.

Example C49_example : tiny_args 5 10 false (-2, 2) (-2, 6) (-10, 10) /\ drawable false 5 /\ int_fits 5 6 /\
  shown_graph (@tiny_gen Z (exact_ops 4) gen_steps 5 10 false (-2, 2) (-2, 6) (-10, 10) 1 true ([], 0)) =
  Some ([(-2, 1, (20, 10, -22)); (-1, 2, (2, -33, 30)); (0, 2, (24, 36, -12)); (-1, 0, (21, 11, -11)); (-2, 0, (35, -39, 40))],
        [(1, 6, (34, -32, 33), 5%nat, 4%nat); (1, 5, (40, 16, 34), 3%nat, 4%nat); (-1, 0, (32, -36, -39), 2%nat, 3%nat);
         (5, 5, (26, -31, -19), 4%nat, 1%nat); (-2, 6, (32, 11, -38), 3%nat, 5%nat); (3, 6, (35, 34, 0), 5%nat, 2%nat)]).
Proof.
  split; [exact (so_args _ _ _ small1_ok)|]. split; [exact drawable_5|]. split; [exact (so_int _ _ _ small1_ok)|]. vm_compute. reflexivity.
Qed.

(** although m >= n - 1 edges are drawn, the graph need not be connected *)
Theorem C49_connected_refuted : exists fuel n mlimit multi node_limit edge_limit fun_limit sd s g st,
  tiny_args n mlimit multi node_limit edge_limit fun_limit /\ drawable multi n /\
  @tiny_gen Z (exact_ops 4) fuel n mlimit multi node_limit edge_limit fun_limit sd true ([], s) = Ok (g, st) /\
  ~ (forall u v, 1 <= u <= n -> 1 <= v <= n -> linked (map edge_ends (gr_edge g)) u v).
Proof. exact apart_refutes. Qed.
Print Assumptions C49_connected_refuted.

(** C50: none of the random tests of test.cpp can fail, from whatever state of
    the random numbers, when Data is exact. *)
Theorem C50_random_tests_pass : forall (one : Z) (t : random_test) (s : rng) (fuel : nat),
  0 < one -> (2 ^ 14 | one) -> In t random_tests -> 2 ^ 50 <= Z.of_nat fuel ->
  exists s', @run_random_test Z (exact_ops one) fuel t ([], s) = Ok ([], s').
Proof. intros one t s fuel H1 H2 H3 H4. exact (random_test_passes one H1 H2 t fuel s H3 H4). Qed.
Print Assumptions C50_random_tests_pass.

Example C50_example :
  @run_random_test Z (exact_ops 16384) test_steps (mkTest false (shortened 3 SmallGen1) Exhaustive Simple) ([], 0) = Ok ([], 44107811987829) /\
  @run_random_test Z (exact_ops 16384) test_steps (mkTest true (shortened 3 SmallGen1) Simple Fast) ([], 0) = Ok ([], 44107811987829).
Proof. split; vm_compute; reflexivity. Qed.
