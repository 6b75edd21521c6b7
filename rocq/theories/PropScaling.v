(** * Properties C44 to C46: the second solver of the test-suite

    [cs_min_cost fuel N arcs] is CostScaling::MinCost, [simple_solve] is
    SimpleSolver::Solve ([None] is nan).  [one] is the integer that represents
    1.0; halving must not leave the grid, so [one] is a multiple of a power of
    two that is large enough. *)
From Verif Require Import Base Data ProblemDefine ProblemSolver Oracles CostScaling Spec ScaleSpec.
From Verif Require Import SolverProof ScaleProof SimpleProof ExampleData ScaleExample.
Local Open Scope Z_scope.

(** C44: when MinCost reports success its value is minus the least cost of a
    circulation; it reports success when large negative costs are matched by
    positive ones. *)
Theorem C44_min_cost_circulation :
  forall (one : Z) (N : nat) (A : list (InputEdge Z)) (K : Z) (s fuel : nat),
    0 < one -> 1 <= K <= INT_MAX -> arcs_wf N A K ->
    (2 ^ Z.of_nat s | one) -> 2 * K * Z.of_nat N <= 2 ^ Z.of_nat s ->
    scaling_fuel N (length A) K <= Z.of_nat fuel ->
    exists b v, @cs_min_cost Z (exact_ops one) fuel N A = Ok (b, v) /\
      (costs_covered A -> b = true) /\
      (b = true -> least_cost N A (- v)) /\
      (b = false -> v = 0).
Proof. exact min_cost_least. Qed.
Print Assumptions C44_min_cost_circulation.

Example C44_example : arcs_wf 3 ex_arcs 4 /\ costs_covered ex_arcs /\ (2 ^ Z.of_nat 6 | 64) /\ 2 * 4 * Z.of_nat 3 <= 2 ^ Z.of_nat 6 /\
  scaling_fuel 3 (length ex_arcs) 4 <= Z.of_nat simple_steps /\
  @cs_min_cost Z (exact_ops 64) simple_steps 3 ex_arcs = Ok (true, 64).
Proof.
  split; [exact ex_arcs_wf|]. split; [exact ex_arcs_covered|]. split; [exists 1; reflexivity|]. split; [vm_compute; discriminate|].
  split; [vm_compute; discriminate|exact ex_arcs_run].
Qed.

(** without that condition it can report failure although circulations exist *)
Theorem C44_always_succeeds_refuted : exists one N A K s fuel,
  0 < one /\ 1 <= K <= INT_MAX /\ arcs_wf N A K /\
  (2 ^ Z.of_nat s | one) /\ 2 * K * Z.of_nat N <= 2 ^ Z.of_nat s /\ scaling_fuel N (length A) K <= Z.of_nat fuel /\
  least_cost N A 0 /\ @cs_min_cost Z (exact_ops one) fuel N A = Ok (false, 0).
Proof. exact bad_arcs_refute. Qed.
Print Assumptions C44_always_succeeds_refuted.

(** C45: SimpleSolver returns the optimum, or nan exactly for infeasible
    problems, when the cost spreads add up to less than 10^9. *)
Theorem C45_simple_solver :
  forall (one : Z) (n : nat) (mus : list (MuLimit Z)) (oms : list (OmegaLimit Z)) (K S : Z) (s fuel : nat),
    0 < one -> well_formed n mus oms -> bounded_by n mus oms K -> 1 <= K -> 3 * K + 1 <= INT_MAX -> Z.of_nat n + 1 <= INT_MAX ->
    spread_within n mus oms S -> S < 1000000000 * one ->
    (2 ^ Z.of_nat s | one) -> 4 * K * Z.of_nat (n + 1) <= 2 ^ Z.of_nat s ->
    simple_fuel n (length oms) K <= Z.of_nat fuel ->
    exists r, @simple_solve Z (exact_ops one) fuel n mus oms = Ok r /\ solution n mus oms r.
Proof. exact simple_solve_ok. Qed.
Print Assumptions C45_simple_solver.

Example C45_example : admissible 3 ex_mus ex_oms 3 /\ spread_within 3 ex_mus ex_oms 190 /\
  (2 ^ Z.of_nat 6 | 64) /\ 4 * 3 * Z.of_nat (3 + 1) <= 2 ^ Z.of_nat 6 /\ simple_fuel 3 4 3 <= Z.of_nat simple_steps /\
  @simple_solve Z (exact_ops 64) simple_steps 3 ex_mus ex_oms = Ok (Some 2) /\
  @simple_solve Z (exact_ops 64) simple_steps 3 ex_mus cyc_oms = Ok None.
Proof.
  split; [exact ex_admissible|]. split; [exact ex_spread|]. split; [exists 1; reflexivity|]. split; [vm_compute; discriminate|].
  split; [exact ex_simple_fuel|]. split; vm_compute; reflexivity.
Qed.

(** with larger spreads it can return a value for an infeasible problem *)
Theorem C45_large_spread_refuted : exists one n mus oms K S s fuel v,
  0 < one /\ admissible n mus oms K /\ spread_within n mus oms S /\
  (2 ^ Z.of_nat s | one) /\ 4 * K * Z.of_nat (n + 1) <= 2 ^ Z.of_nat s /\ simple_fuel n (length oms) K <= Z.of_nat fuel /\
  infeasible n mus oms /\ @run_solver Z (exact_ops one) fuel (Z.of_nat n) mus oms = Ok None /\
  @simple_solve Z (exact_ops one) fuel n mus oms = Ok (Some v).
Proof. exact big_refute. Qed.
Print Assumptions C45_large_spread_refuted.

(** C46: the comparison made by the tests never fails: the library, the
    exhaustive search and SimpleSolver give the same answer. *)
Theorem C46_three_solvers_agree :
  forall (one : Z) (n : nat) (mus : list (MuLimit Z)) (oms : list (OmegaLimit Z)) (K S : Z) (s f1 f2 f3 : nat),
    0 < one -> admissible n mus oms K -> spread_within n mus oms S -> S < 1000000000 * one ->
    (2 ^ Z.of_nat s | one) -> 4 * K * Z.of_nat (n + 1) <= 2 ^ Z.of_nat s ->
    solver_fuel n (length oms) K <= Z.of_nat f1 -> 2 * K + 32 <= Z.of_nat f2 -> simple_fuel n (length oms) K <= Z.of_nat f3 ->
    exists r, @run_solver Z (exact_ops one) f1 (Z.of_nat n) mus oms = Ok r /\
      @bf_solve Z (exact_ops one) f2 n mus oms = Ok r /\
      @simple_solve Z (exact_ops one) f3 n mus oms = Ok r.
Proof. exact solvers_agree. Qed.
Print Assumptions C46_three_solvers_agree.

Example C46_example :
  @run_solver Z (exact_ops 64) ex_steps 3 ex_mus ex_oms = Ok (Some 2) /\
  @bf_solve Z (exact_ops 64) 200 3 ex_mus ex_oms = Ok (Some 2) /\
  @simple_solve Z (exact_ops 64) simple_steps 3 ex_mus ex_oms = Ok (Some 2).
Proof. repeat split; vm_compute; reflexivity. Qed.
