(** * Properties C51 to C56: the solvers of the test-suite and the tests on doubles

    [bf_solve], [simple_solve], [cs_min_cost] are Test::bf_solve,
    Test::simple_solve and CostScaling::MinCost; [run_solver] is the library. *)
From Coq Require Import Floats.SpecFloat.
From Verif Require Import Base Data ProblemDefine Flow ProblemSolver Oracles CostScaling Generator TestSuite FixedTests Spec FlowSpec FloatSpec ScaleSpec.
From Verif Require Import SolverProof SimpleProof FuelMono FloatOracles TestFloat FloatEndless FixedProof Decide.
From Verif Require Import ExampleData FloatExample ScaleExample GenExample TestExample.
Local Open Scope Z_scope.

(** C51: MinCost on doubles returns the exact least cost of a circulation when
    the capacities are multiples of 2^-k and the sizes allow it. *)
Theorem C51_min_cost_doubles : forall (k : Z) (N : nat) (AD : list (InputEdge spec_float)) (A : list (InputEdge Z)) (K : Z) (fuel : nat),
  0 <= k <= 52 -> (1 <= N)%nat -> Z.of_nat N <= INT_MAX -> 1 <= K <= INT_MAX -> arcs_wf N A K -> Forall2 (arc_is k) AD A ->
  2 * (total_capacity A * K) < 2 ^ 53 -> 4 * K * K * Z.of_nat N * (12 * Z.of_nat N + 3) < 2 ^ 53 ->
  scaling_fuel N (length A) K <= Z.of_nat fuel ->
  exists b f, @cs_min_cost spec_float f64_ops fuel N AD = Ok (b, f) /\
    (costs_covered A -> b = true) /\
    (b = true -> exists v, f64_is k f v /\ least_cost N A (- v)) /\
    (b = false -> f64_is k f 0).
Proof. exact min_cost_doubles. Qed.
Print Assumptions C51_min_cost_doubles.

(** capacities in 64ths *)
Example C51_example : arcs_wf 3 ex_arcs 4 /\ Forall2 (arc_is 6) (dbl_arcs 6 ex_arcs) ex_arcs /\ costs_covered ex_arcs /\
  2 * (total_capacity ex_arcs * 4) < 2 ^ 53 /\ 4 * 4 * 4 * 3 * (12 * 3 + 3) < 2 ^ 53 /\
  @cs_min_cost _ f64_ops simple_steps 3 (dbl_arcs 6 ex_arcs) = Ok (true, dbl 6 64).
Proof.
  split; [exact ex_arcs_wf|]. split; [exact ex_arcs_dbl|]. split; [exact ex_arcs_covered|].
  split; [reflexivity|]. split; [reflexivity|]. vm_compute. reflexivity.
Qed.

(** without a bound on the capacities the answer need not be exact *)
Theorem C51_any_capacity_refuted : exists k N AD A K fuel b f v,
  0 <= k <= 52 /\ (1 <= N)%nat /\ 1 <= K <= INT_MAX /\ arcs_wf N A K /\ Forall2 (arc_is k) AD A /\
  scaling_fuel N (length A) K <= Z.of_nat fuel /\ least_cost N A (- v) /\
  @cs_min_cost spec_float f64_ops fuel N AD = Ok (b, f) /\ ~ f64_is k f v.
Proof. exact wide_arcs_refute. Qed.
Print Assumptions C51_any_capacity_refuted.

(** C52: exhaustive search and SimpleSolver on doubles return the exact optimum,
    or nullopt exactly for infeasible problems. *)
Theorem C52_bf_doubles : forall (k : Z) (n : nat) (musf : list (MuLimit spec_float)) (omsf : list (OmegaLimit spec_float))
  (mus : list (MuLimit Z)) (oms : list (OmegaLimit Z)) (K A : Z) (fuel : nat),
  0 <= k <= 52 -> problem_is k musf omsf mus oms -> admissible n mus oms K -> costs_within n mus oms A -> A < 2 ^ 53 ->
  2 * K + 32 <= Z.of_nat fuel ->
  double_solution k n mus oms (@bf_solve spec_float f64_ops fuel n musf omsf).
Proof. exact bf_doubles. Qed.
Print Assumptions C52_bf_doubles.

Theorem C52_simple_doubles : forall (k : Z) (n : nat) (musf : list (MuLimit spec_float)) (omsf : list (OmegaLimit spec_float))
  (mus : list (MuLimit Z)) (oms : list (OmegaLimit Z)) (K S A : Z) (fuel : nat),
  0 <= k <= 52 -> problem_is k musf omsf mus oms -> admissible n mus oms K ->
  spread_within n mus oms S -> S < 1000000000 * 2 ^ k -> costs_within n mus oms A ->
  simple_sizes k n (length oms) K A -> simple_fuel n (length oms) K <= Z.of_nat fuel ->
  double_solution k n mus oms (@simple_solve spec_float f64_ops fuel n musf omsf).
Proof. exact simple_doubles. Qed.
Print Assumptions C52_simple_doubles.

(** costs in quarters *)
Example C52_example : problem_is 2 (dbl_mus 2 ex_mus) (dbl_oms 2 ex_oms) ex_mus ex_oms /\ admissible 3 ex_mus ex_oms 3 /\
  costs_within 3 ex_mus ex_oms 95 /\ spread_within 3 ex_mus ex_oms 190 /\ simple_sizes 2 3 4 3 95 /\
  simple_fuel 3 4 3 <= Z.of_nat simple_steps /\
  @bf_solve _ f64_ops 100 3 (dbl_mus 2 ex_mus) (dbl_oms 2 ex_oms) = Ok (Some (dbl 2 2)) /\
  @simple_solve _ f64_ops simple_steps 3 (dbl_mus 2 ex_mus) (dbl_oms 2 ex_oms) = Ok (Some (dbl 2 2)).
Proof.
  split; [apply (ex_dbl 2); auto|]. split; [exact ex_admissible|]. split; [exact ex_costs|]. split; [exact ex_spread|].
  split; [exact ex_simple_sizes|]. split; [exact ex_simple_fuel|]. split; vm_compute; reflexivity.
Qed.

(** for costs like 0.3 * x SimpleSolver can return less than the minimum *)
Theorem C52_any_costs_refuted : exists k n musf omsf mus oms K fuel f v w,
  problem_is k musf omsf mus oms /\ admissible n mus oms K /\ simple_fuel n (length oms) K <= Z.of_nat fuel /\ optimum n mus oms v /\
  @simple_solve spec_float f64_ops fuel n musf omsf = Ok (Some f) /\ f64_is k f w /\ w < v.
Proof. exact tilt_refute. Qed.
Print Assumptions C52_any_costs_refuted.

(** C53: none of the random tests can fail with Data = double. *)
Theorem C53_random_tests_pass_doubles : forall (t : random_test) (s : rng) (fuel : nat),
  In t random_tests -> 2 ^ 50 <= Z.of_nat fuel ->
  exists s', @run_random_test spec_float f64_ops fuel t ([], s) = Ok ([], s').
Proof. intros t s fuel. exact (random_test_passes_f64 t fuel s). Qed.
Print Assumptions C53_random_tests_pass_doubles.

Example C53_example :
  @run_random_test _ f64_ops test_steps (mkTest false (shortened 2 SmallGen1) Exhaustive Simple) ([], 0) =
  @run_random_test _ f64_ops test_steps (mkTest false (shortened 2 SmallGen1) Exhaustive Fast) ([], 0) /\
  is_ok (@run_random_test _ f64_ops test_steps (mkTest false (shortened 2 SmallGen1) Exhaustive Fast) ([], 0)) = true.
Proof. split; vm_compute; reflexivity. Qed.

(** C54: an answer does not depend on the number of iterations granted: more of
    them give the same answer, or the same misbehaviour, for all inputs and every
    arithmetic. *)
Theorem C54_solver : forall (D : Type) (ops : DataOps D) (f1 f2 : nat) (n : Z) (mus : list (MuLimit D)) (oms : list (OmegaLimit D)),
  (f1 <= f2)%nat -> run_solver f1 n mus oms <> Err OutOfFuel -> run_solver f2 n mus oms = run_solver f1 n mus oms.
Proof. exact solver_same. Qed.
Print Assumptions C54_solver.

Theorem C54_oracles : forall (D : Type) (ops : DataOps D) (f1 f2 : nat) (n : nat) (mus : list (MuLimit D)) (oms : list (OmegaLimit D)),
  (f1 <= f2)%nat ->
  (bf_solve f1 n mus oms <> Err OutOfFuel -> bf_solve f2 n mus oms = bf_solve f1 n mus oms) /\
  (simple_solve f1 n mus oms <> Err OutOfFuel -> simple_solve f2 n mus oms = simple_solve f1 n mus oms).
Proof. exact oracles_same. Qed.
Print Assumptions C54_oracles.

Theorem C54_tests : forall (D : Type) (ops : DataOps D) (f1 f2 : nat) (t : random_test) (st : fun_queue D * rng),
  (f1 <= f2)%nat -> run_random_test f1 t st <> Err OutOfFuel -> run_random_test f2 t st = run_random_test f1 t st.
Proof. exact tests_same. Qed.
Print Assumptions C54_tests.

Example C54_example : @run_solver _ (exact_ops 1) 10 3 ex_mus ex_oms = Err OutOfFuel /\
  @run_solver _ (exact_ops 1) 100 3 ex_mus ex_oms = Ok (Some 2) /\ @run_solver _ (exact_ops 1) ex_steps 3 ex_mus ex_oms = Ok (Some 2).
Proof. repeat split; vm_compute; reflexivity. Qed.

(** C55: with Data = double, as the repository has it, solve() does not return
    for every problem with convex costs: never for x1 in 0..1 at cost
    -0.7 * x1, x2 in 0..2 at cost 0.1 * x2, without any omega limit. *)
Theorem C55_doubles_return_refuted : exists k n musf omsf mus oms K v,
  problem_is k musf omsf mus oms /\ admissible n mus oms K /\ optimum n mus oms v /\
  forall fuel r, @run_solver spec_float f64_ops fuel (Z.of_nat n) musf omsf <> Ok r.
Proof. exact tenths_refute. Qed.
Print Assumptions C55_doubles_return_refuted.

(** the other two solvers do *)
Example C55_example : @run_solver _ f64_ops 2000 2 tenths_mus [] = Err OutOfFuel /\
  @bf_solve _ f64_ops 100 2 tenths_mus [] = Ok (Some (fdiv (-7) 10)) /\ optimum 2 tenths_exact [] (-25220157913274776).
Proof. split; [vm_compute; reflexivity|]. split; [vm_compute; reflexivity|exact tenths_optimum]. Qed.

(** C56: the fixed tests pass, and those with int costs compute the optimum, or
    nullopt for an infeasible problem. *)
Theorem C56_fixed_tests_pass : forall (t : fixed_test spec_float) (fuel : nat),
  In t fixed_tests -> (fixed_steps <= fuel)%nat -> @run_fixed_test _ f64_ops fuel t = Ok tt.
Proof. exact fixed_test_passes. Qed.
Print Assumptions C56_fixed_tests_pass.

Theorem C56_fixed_answers : forall (i : nat) (t : fixed_test spec_float) (tz : fixed_test Z) (e : option Z) (fuel : nat),
  nth_error (@int_tests _ f64_ops) i = Some t -> nth_error (@int_tests _ (exact_ops 1)) i = Some tz ->
  nth_error expected i = Some e -> (fixed_steps <= fuel)%nat ->
  problem_is 0 (x_mus t) (x_oms t) (x_mus tz) (x_oms tz) /\
  admissible (x_n tz) (x_mus tz) (x_oms tz) 20 /\ solution (x_n tz) (x_mus tz) (x_oms tz) e /\
  f64_answer 0 (@fixed_fast _ f64_ops fuel t) e.
Proof. exact fixed_answers. Qed.
Print Assumptions C56_fixed_answers.

Example C56_example : length fixed_tests = 11%nat /\ length (@int_tests _ f64_ops) = length expected /\
  expected = [Some 0; Some 1; Some (-3); Some 3; Some 6; Some 358; None; None; None; None] /\
  @fixed_fast _ f64_ops fixed_steps single_node_graph_2 = Ok (Some (S754_finite false 7746191359077253 (-51))).
Proof. repeat split; vm_compute; reflexivity. Qed.
