(** * Property C111: assertions *)
From Coq Require Import Floats.SpecFloat.
From Verif Require Import Base Data UniqueQueue LCT ProblemDefine Flow ProblemSolver NDebug Spec SolverProof NDebugProof ExampleData.
From Verif Require Import NonConvex NonConvexEndless.
Local Open Scope Z_scope.

(** C111: built with NDEBUG, solve() does what it does with assertions unless one of them fails; this holds for all
    inputs, also malformed ones, and whatever Data is. *)
Theorem C111_release_same :
  forall (D : Type) (ops : DataOps D) (fuel : nat) (n : Z) (mus : list (MuLimit D)) (oms : list (OmegaLimit D)),
    run_solver fuel n mus oms = Err AssertFail \/ run_solver_r fuel n mus oms = run_solver fuel n mus oms.
Proof. exact (fun D ops fuel n mus oms => run_freed fuel n mus oms). Qed.
Print Assumptions C111_release_same.

(** The assertions in merge() and in the constructor of Flow do not fail for any arguments. *)
Theorem C111_dead_assertions :
  forall (D : Type) (ops : DataOps D),
    (forall s : solver D, merge_limits_r s = merge_limits s) /\
    (forall (fuel n : nat) (M : D) (U : Z) (limits : list (OmegaLimit D)), flow_new_r fuel n M U limits = flow_new fuel n M U limits).
Proof. exact (fun D ops => conj merge_limits_free flow_new_free). Qed.
Print Assumptions C111_dead_assertions.

(** So the release build returns the optimum. *)
Theorem C111_release_solution :
  forall (one : Z) (n : nat) (mus : list (MuLimit Z)) (oms : list (OmegaLimit Z)) (K : Z) (fuel : nat),
    0 < one -> admissible n mus oms K -> solver_fuel n (length oms) K <= Z.of_nat fuel ->
    exists r, @run_solver_r Z (exact_ops one) fuel (Z.of_nat n) mus oms = Ok r /\ solution n mus oms r.
Proof. exact release_solution. Qed.
Print Assumptions C111_release_solution.

(** an assertion that a wrong call makes fail: in the release build set_fa() overwrites the father *)
Example C111_example :
  admissible 3 ex_mus ex_oms 3 /\ @run_solver_r Z (exact_ops 1) ex_steps 3 ex_mus ex_oms = Ok (Some 2) /\
  (let h := [mkNode None None None (0, None) 0 0; mkNode (Some 0%nat) None None (5, Some 1%nat) 5 0; mkNode None None None (0, None) 0 0] in
   @set_fa Z (exact_ops 1) 9 h 1 (Some 2%nat) = Err AssertFail /\
   exists h', @set_fa_r Z (exact_ops 1) 9 h 1 (Some 2%nat) = Ok h' /\ map n_fa h' = [None; Some 2%nat; None]).
Proof.
  split; [exact ex_admissible|]. split; [vm_compute; reflexivity|]. cbv zeta. split; [vm_compute; reflexivity|].
  eexists. split; vm_compute; reflexivity.
Qed.

(** the run of C109 is the same in the release build *)
Example C111_endless : forall fuel, @run_solver_r Z (exact_ops 1) fuel 2 knot_mus knot_oms = Err OutOfFuel.
Proof. intro fuel. destruct (@run_freed Z (exact_ops 1) fuel 2 knot_mus knot_oms) as [H|H]; rewrite (knot_endless fuel) in H; [discriminate|exact H]. Qed.
