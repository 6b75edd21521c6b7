(** * Property C101: finding a solution with solve() *)
From Verif Require Import Base Data ProblemDefine ProblemSolver Spec FracSpec SolverProof ExampleData FracExamples Client ClientProof.
Local Open Scope Z_scope.

(** C101: the program [find_solution] calls only the API: solve() once, and then for each
    variable at most k times with a smaller range, where 2 K < 2^k.  It finds out whether
    there is a solution, and if so the optimum and the least of the optimal solutions. *)
Theorem C101_find_solution :
  forall (one : Z) (n : nat) (mus : list (MuLimit Z)) (oms : list (OmegaLimit Z)) (K : Z) (fuel k : nat),
    0 < one ->
    admissible n mus oms K ->
    solver_fuel n (length oms) K <= Z.of_nat fuel ->
    2 * K < 2 ^ Z.of_nat k ->
    exists r, @find_solution (exact_ops one) (S k) fuel n mus oms = Ok r /\
      match r with
      | None => infeasible n mus oms
      | Some (v, xs) => length xs = n /\ optimum n mus oms v /\ solves n mus oms v (values xs) /\
          forall mu, solves n mus oms v mu -> forall i, (1 <= i <= n)%nat -> values xs i <= mu i
      end.
Proof. exact find_ok. Qed.
Print Assumptions C101_find_solution.

Example C101_example :
  admissible 3 ex_mus ex_oms 3 /\ admissible 3 loose_mus loose_oms 2 /\ admissible 3 ex_mus cyc_oms 3 /\
  @find_solution (exact_ops 1) 4 ex_steps 3 ex_mus ex_oms = Ok (Some (2, [1; 0; 2])) /\
  @find_solution (exact_ops 1) 4 ex_steps 3 loose_mus loose_oms = Ok (Some (0, [0; 1; 0])) /\
  @find_solution (exact_ops 1) 4 ex_steps 3 ex_mus cyc_oms = Ok None.
Proof.
  split; [exact ex_admissible|]. split; [exact loose_admissible|]. split; [exact cyc_admissible|].
  split; [vm_compute; reflexivity|]. split; vm_compute; reflexivity.
Qed.
