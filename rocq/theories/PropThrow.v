(** * Cost functions that throw *)
From Verif Require Import Base Data ProblemDefine ProblemSolver Spec SolverProof ExampleData ThrowSpec Throw ThrowProof.
Local Open Scope Z_scope.

(** C80: whatever the data type, the limits and the points at which the cost
    functions throw, the exception reaches the caller or has no influence: the
    run has the outcome it has with any other results in place of the
    exceptions. *)
Theorem C80_throwing :
  forall (D : Type) (ops : DataOps D) (fuel : nat) (n : Z)
         (mus mus' : list (MuLimit D)) (oms oms' : list (OmegaLimit D)),
    Forall2 mu_patched mus mus' ->
    Forall2 om_patched oms oms' ->
    run_solver fuel n mus oms = Err BadCall \/ run_solver fuel n mus' oms' = run_solver fuel n mus oms.
Proof. exact (fun D ops fuel n mus mus' oms oms' => @run_solver_thr D ops fuel n mus mus' oms oms'). Qed.
Print Assumptions C80_throwing.

(** If the functions without the exceptions make an admissible problem, the run
    ends with the exception, with its optimum, or with nullopt and the problem
    has no solution: never with a wrong answer or another error. *)
Theorem C80_answers :
  forall (one : Z) (n : nat) (mus mus' : list (MuLimit Z)) (oms oms' : list (OmegaLimit Z)) (K : Z) (fuel : nat),
    0 < one ->
    Forall2 mu_patched mus mus' ->
    Forall2 om_patched oms oms' ->
    admissible n mus' oms' K ->
    solver_fuel n (length oms) K <= Z.of_nat fuel ->
    @run_solver Z (exact_ops one) fuel (Z.of_nat n) mus oms = Err BadCall \/
    (exists v, @run_solver Z (exact_ops one) fuel (Z.of_nat n) mus oms = Ok (Some v) /\ optimum n mus' oms' v) \/
    (@run_solver Z (exact_ops one) fuel (Z.of_nat n) mus oms = Ok None /\ infeasible n mus' oms').
Proof. exact throwing_answers. Qed.
Print Assumptions C80_answers.

(** (x - 2)^2 on [-8, 8]: an exception at -5 is never met, one at 0 ends the run *)
Example C80_example :
  Forall2 mu_patched (wide (thrown (-5) (sq 1 2))) (wide (sq 1 2)) /\
  Forall2 mu_patched (wide (thrown 0 (sq 1 2))) (wide (sq 1 2)) /\
  admissible 1 (wide (sq 1 2)) [] 8 /\ solver_fuel 1 0 8 <= Z.of_nat ex_steps /\
  @run_solver Z (exact_ops 1) ex_steps 1 (wide (thrown (-5) (sq 1 2))) [] = Ok (Some 0) /\
  @run_solver Z (exact_ops 1) ex_steps 1 (wide (thrown 0 (sq 1 2))) [] = Err BadCall.
Proof.
  split; [apply wide_patched|]. split; [apply wide_patched|]. split; [exact wide_admissible|].
  split; [vm_compute; discriminate|]. split; vm_compute; reflexivity.
Qed.
