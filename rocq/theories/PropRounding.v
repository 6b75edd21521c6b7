(** * Property C112: the rounding in q() *)
From Verif Require Import Base Data LCT ProblemDefine Flow ProblemSolver Rounding Spec NonConvex NonConvexEndless RoundingProof.
Local Open Scope Z_scope.

(** C112: [run_solver_g] is the solver with the rounding of the potentials left open; with the code's rounding it is the solver. *)
Theorem C112_same : forall (D : Type) (ops : DataOps D) (fuel : nat) (n : Z) (mus : list (MuLimit D)) (oms : list (OmegaLimit D)),
  run_solver_g below fuel n mus oms = run_solver fuel n mus oms.
Proof. exact @below_same. Qed.
Print Assumptions C112_same.

(** The code's rounding is the floor except on multiples of the divisor. *)
Theorem C112_difference : forall num denom, 0 < denom ->
  (num mod denom <> 0 -> below num denom = floor num denom) /\ (num mod denom = 0 -> below num denom = floor num denom - 1).
Proof. exact rounding_cases. Qed.
Print Assumptions C112_difference.

(** The floor in its place would not do: on some admissible problem, which the code solves, the solver with the floor does not return. *)
Theorem C112_floor_refuted :
  exists n mus oms K v, admissible n mus oms K /\ optimum n mus oms v /\
    @run_solver Z (exact_ops 1) 100 (Z.of_nat n) mus oms = Ok (Some v) /\
    forall fuel, @run_solver_g Z (exact_ops 1) floor fuel (Z.of_nat n) mus oms = Err OutOfFuel.
Proof. exact floor_endless. Qed.
Print Assumptions C112_floor_refuted.

(** x1 = 0, x2 in 0..1 at costs 0, 1, x1 - x2 at most 0; the first phase is passed, the second makes nodes 0 and 1 each other's father.
    With the floor one variable in 0..1 at costs 1, 0 is still solved. *)
Example C112_example :
  admissible 2 down_mus down_oms 1 /\
  @phase_g Z (exact_ops 1) floor 100 dflow0 = Ok dflow1 /\ f_fa dflow4 = [Some 1%nat; Some 0%nat; None] /\
  @run_solver_g Z (exact_ops 1) floor (Z.to_nat 3000) 2 down_mus down_oms = Err OutOfFuel /\
  @run_solver_g Z (exact_ops 1) floor 100 1 [mkMu 0 0 (table []); mkMu 0 1 (table [1; 0])] [] = Ok (Some 0) /\
  (below 7 6 = 1 /\ floor 7 6 = 1 /\ below 6 6 = 0 /\ floor 6 6 = 1 /\ below (-6) 6 = -2 /\ floor (-7) 6 = -2).
Proof.
  split; [exact down_admissible|]. split; [exact drun_flow1|]. split; [vm_compute; reflexivity|]. split; [exact (down_endless _)|].
  split; [vm_compute; reflexivity|vm_compute; repeat split].
Qed.
