(** * Properties C25, C26, C27, C30, C37

    Repeated use of a Flow, WrappedDouble, the ternary search of the tests, and
    what can go wrong with [Data] = double. *)
From Coq Require Import Floats.SpecFloat.
From Verif Require Import Base Data ProblemDefine Flow ProblemSolver Spec FlowSpec FloatSpec Oracles WrappedDouble.
From Verif Require Import SolverProof OracleProof FlowProps ExampleData MiscProof.
Local Open Scope Z_scope.

(** C25: a Flow can be used once: calling min_cost() again may return another
    value. *)
Theorem C25_single_use : exists s s1 s2 v1 v2,
  @flow_new Z (exact_ops 1) ex_steps 2 20 3 ex_limits = Ok s /\
  @min_cost Z (exact_ops 1) ex_steps s = Ok (s1, v1) /\
  @min_cost Z (exact_ops 1) ex_steps s1 = Ok (s2, v2) /\ v1 <> v2.
Proof. exact twice_differs. Qed.
Print Assumptions C25_single_use.

(** the network is well formed and the fuel sufficient: the first value is right *)
Example C25_example : network_wf 2 20 2 3 ex_limits /\ flow_iterations 2 4 2 <= Z.of_nat ex_steps.
Proof. split; [exact ex_network_wf|exact ex_flow_fuel]. Qed.

(** C26: over exact numbers the comparisons of WrappedDouble are consistent *)
Theorem C26_consistent : forall (one eps a b : Z), 0 <= eps ->
  let lt := @wd_lt Z (exact_ops one) eps in
  let le := @wd_le Z (exact_ops one) eps in
  let gt := @wd_gt Z (exact_ops one) eps in
  let ge := @wd_ge Z (exact_ops one) eps in
  let eq := @wd_eq Z (exact_ops one) Z.abs eps in
  (if lt a b then 1 else 0) + (if eq a b then 1 else 0) + (if gt a b then 1 else 0) = 1 /\
  le a b = negb (gt a b) /\ ge a b = negb (lt a b) /\
  eq a a = true /\ eq a b = eq b a /\ lt a b = gt b a /\ le a b = ge b a /\
  le a b = (lt a b || eq a b)%bool.
Proof. exact wd_laws. Qed.
Print Assumptions C26_consistent.

(** but == is not transitive *)
Theorem C26_not_transitive : forall one : Z, exists eps a b c : Z, 0 < eps /\
  @wd_eq _ (exact_ops one) Z.abs eps a b = true /\ @wd_eq _ (exact_ops one) Z.abs eps b c = true /\
  @wd_eq _ (exact_ops one) Z.abs eps a c = false.
Proof. exact wd_not_transitive. Qed.
Print Assumptions C26_not_transitive.

(** and over doubles, as compiled, the laws fail: none of <, ==, > holds for 2
    and 2 + 1e-4, while both <= and >= do *)
Theorem C26_consistent_refuted : exists a b : spec_float,
  f64_is 0 a 2 /\ f64_is 51 b 4503824807351865 /\
  @wd_lt _ f64_ops eps64 a b = false /\ @wd_eq _ f64_ops SFabs eps64 a b = false /\ @wd_gt _ f64_ops eps64 a b = false /\
  @wd_le _ f64_ops eps64 a b = true /\ @wd_ge _ f64_ops eps64 a b = true.
Proof. exact wd64_inconsistent. Qed.
Print Assumptions C26_consistent_refuted.

Example C26_example :
  @wd_lt Z (exact_ops 1) 5 10 16 = true /\ @wd_eq Z (exact_ops 1) Z.abs 5 10 15 = true /\ @wd_gt Z (exact_ops 1) 5 16 10 = true.
Proof. repeat split. Qed.

(** C27: infeasible problems are reported whatever the size of the costs.  False
    for doubles: with costs 2^54 an answer comes out. *)
Theorem C27_infeasible_double_refuted : exists n K fuel musf omsf mus oms v,
  admissible n mus oms K /\ problem_is 0 musf omsf mus oms /\ infeasible n mus oms /\
  @run_solver _ f64_ops fuel (Z.of_nat n) musf omsf = Ok (Some v).
Proof.
  exact big_refutes.
Qed.
Print Assumptions C27_infeasible_double_refuted.

(** C30: the ternary search of the tests *)
Theorem C30_ternary : forall (one : Z) (f : Fn Z) (l u : Z) (fuel : nat),
  l <= u -> INT_MIN <= l -> u <= INT_MAX -> u - l <= INT_MAX ->
  defined_on f l u -> convex_on (cost f) l u -> u - l <= Z.of_nat fuel ->
  exists p, @function_min Z (exact_ops one) fuel f l u = Ok (cost f p) /\
    l <= p <= u /\ forall x, l <= x <= u -> cost f p <= cost f x.
Proof. exact function_min_least. Qed.
Print Assumptions C30_ternary.

Example C30_example :
  defined_on (sq 2 3) (-10) 40 /\ convex_on (cost (sq 2 3)) (-10) 40 /\
  @function_min Z (exact_ops 1) 50 (sq 2 3) (-10) 40 = Ok 0.
Proof. split; [apply sq_wf; lia|]. split; [apply sq_wf; lia|]. vm_compute. reflexivity. Qed.

(** C37: with doubles, costs that are convex and exactly representable are
    enough for the int range to suffice.  False: potentials rise until an int
    overflows on two nodes with linear costs. *)
Theorem C37_double_ints_refuted : exists n K fuel musf omsf mus oms v,
  admissible n mus oms K /\ problem_is 30 musf omsf mus oms /\ solution n mus oms (Some v) /\
  @run_solver _ f64_ops fuel (Z.of_nat n) musf omsf = Err IntOverflow.
Proof. exact slope_refutes. Qed.
Print Assumptions C37_double_ints_refuted.
