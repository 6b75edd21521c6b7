(** * Property C103: solve() with real costs *)
From Coq Require Import Reals.
From Verif Require Import Base Data ProblemDefine ProblemSolver Spec SolverProof RealSpec RealProof RealExample.
Local Open Scope Z_scope.

(** C103: instantiated with exact real arithmetic, solve() returns the optimum of a problem
    with real costs, or nullopt exactly if it has no solution.  The costs may be any convex
    real functions; the number of steps has the same bound as with integers, which knows
    only n, the number of omega limits and their ranges. *)
Theorem C103_real_costs :
  forall (n : nat) (mus : list (MuLimit R)) (oms : list (OmegaLimit R)) (K : Z) (fuel : nat),
    radmissible n mus oms K ->
    solver_fuel n (length oms) K <= Z.of_nat fuel ->
    (exists v, @run_solver R real_ops fuel (Z.of_nat n) mus oms = Ok (Some v) /\ roptimum n mus oms v) \/
    (@run_solver R real_ops fuel (Z.of_nat n) mus oms = Ok None /\ rinfeasible n mus oms).
Proof. exact real_solve. Qed.
Print Assumptions C103_real_costs.

(** minimize sqrt 2 * mu_1 + sqrt 3 * mu_2 + sqrt 2 * omega: 2 * sqrt 2; and a problem without solution *)
Example C103_example :
  radmissible 2 sq_mus sq_oms 2 /\ radmissible 2 sq_mus sq_oms' 2 /\
  @run_solver R real_ops (Z.to_nat (solver_fuel 2 1 2)) 2 sq_mus sq_oms = Ok (Some (2 * sqrt 2)%R) /\
  @run_solver R real_ops (Z.to_nat (solver_fuel 2 1 2)) 2 sq_mus sq_oms' = Ok None.
Proof. exact (conj sq_admissible (conj sq_admissible' (conj sq_run sq_run'))). Qed.
