(** * Property C109: without convexity solve() need not return *)
From Coq Require Import Floats.SpecFloat.
From Verif Require Import Base Data LCT ProblemDefine Flow ProblemSolver Spec FloatSpec FloatExample NonConvex NonConvexEndless NonConvexDouble.
Local Open Scope Z_scope.

(** C109: all that the solver asks for except convexity does not suffice for it to return: for some
    such problem with an optimum no number of steps is enough, neither with exact numbers nor with doubles. *)
Theorem C109_return_refuted :
  exists n mus oms K v, admissible_but_convex n mus oms K /\ optimum n mus oms v /\
    (forall fuel, @run_solver Z (exact_ops 1) fuel (Z.of_nat n) mus oms = Err OutOfFuel) /\
    exists musf omsf, problem_is 0 musf omsf mus oms /\
      forall fuel, @run_solver spec_float f64_ops fuel (Z.of_nat n) musf omsf = Err OutOfFuel.
Proof. exact endless_without_convexity. Qed.
Print Assumptions C109_return_refuted.

(** The reason: two nodes of the link-cut tree become each other's father, which splay() does not survive. *)
Theorem C109_tree_endless : forall fuel, (100 <= fuel)%nat -> @access Z (exact_ops 1) fuel (knot None) 1 = Err OutOfFuel.
Proof. exact knot_access. Qed.
Print Assumptions C109_tree_endless.

(** x1 in 0..2 at costs 1, 2, -6; x2 in 0..1 at costs 2, 1; x2 - x1 at most omega in -2..1 at costs 2, 0, 2, 0;
    the constructor accepts it, and the sixth turn makes the knot *)
Example C109_example :
  admissible_but_convex 2 knot_mus knot_oms 2 /\ ~ convex_on (cost (table [1; 2; -6])) 0 2 /\
  @solver_new Z (exact_ops 1) 100 2 knot_mus knot_oms = Ok ksolver /\
  f_nodes kflow3 = knot None /\ f_fa kflow2 = [None; None; Some 1%nat] /\ f_fa kflow3 = [None; Some 2%nat; Some 1%nat] /\
  @run_solver Z (exact_ops 1) (Z.to_nat 3000) 2 knot_mus knot_oms = Err OutOfFuel.
Proof.
  split; [exact knot_wf|]. split; [intro H; specialize (H 1 ltac:(lia)); vm_compute in H; apply H; reflexivity|].
  split; [exact krun_new|]. split; [exact knot_nodes|]. split; [vm_compute; reflexivity|]. split; [vm_compute; reflexivity|].
  exact (knot_endless _).
Qed.
