(** * Property C68: the int capacity solve() needs *)
From Verif Require Import Base Data ProblemDefine Flow ProblemSolver Spec FlowSpec ExampleData Capacity.
Local Open Scope Z_scope.

(** C68: the answer is right whenever the inputs are within a third of the int
    range and the network fits; [near] and [flow_fits] do not depend on the
    costs.  The theorems C01-C04 use the simpler [int_fits]. *)
Theorem C68_solve_capacity :
  forall (one : Z) (n : nat) (mus : list (MuLimit Z)) (oms : list (OmegaLimit Z)) (B K U : Z) (fuel : nat),
    0 < one -> well_formed n mus oms -> bounded_by n mus oms B -> 0 <= B -> 3 * B <= INT_MAX ->
    near n mus oms K U -> flow_fits n K U -> flow_iterations n (length oms + n) K <= Z.of_nat fuel ->
    (exists v, @run_solver Z (exact_ops one) fuel (Z.of_nat n) mus oms = Ok (Some v) /\ optimum n mus oms v) \/
    (@run_solver Z (exact_ops one) fuel (Z.of_nat n) mus oms = Ok None /\ infeasible n mus oms).
Proof. exact solve_capacity. Qed.
Print Assumptions C68_solve_capacity.

(** C68: the documented capacity is enough for solve() if the ranges of the
    variables contain 0 and no omega limit has a negative upper bound. *)
Theorem C68_solve_documented :
  forall (one : Z) (n : nat) (mus : list (MuLimit Z)) (oms : list (OmegaLimit Z)) (U : Z) (fuel : nat),
    0 < one -> well_formed n mus oms -> 0 <= U ->
    6 * Z.of_nat (n + 1) * bit_ceil (Z.of_nat (n + 1) * U) <= INT_MAX ->
    (forall i m, (1 <= i <= n)%nat -> nth_error mus i = Some m -> m_l m <= 0 <= m_u m /\ m_u m - m_l m <= U) ->
    (forall o a b, In o oms -> nth_error mus (o_i o) = Some a -> nth_error mus (o_j o) = Some b ->
       0 <= o_u o /\ o_u o - (m_l a - m_u b) <= U /\ - INT_MAX <= 3 * o_l o) ->
    flow_iterations n (length oms + n) (Z.max 1 U) <= Z.of_nat fuel ->
    (exists v, @run_solver Z (exact_ops one) fuel (Z.of_nat n) mus oms = Ok (Some v) /\ optimum n mus oms v) \/
    (@run_solver Z (exact_ops one) fuel (Z.of_nat n) mus oms = Ok None /\ infeasible n mus oms).
Proof. exact solve_documented. Qed.
Print Assumptions C68_solve_documented.

(** both apply to a problem to which C01-C04 do not *)
Example C68_example :
  (well_formed 2 wide_mus wide_oms /\ 6 * Z.of_nat (2 + 1) * bit_ceil (Z.of_nat (2 + 1) * 22000000) <= INT_MAX /\
   (forall i m, (1 <= i <= 2)%nat -> nth_error wide_mus i = Some m -> m_l m <= 0 <= m_u m /\ m_u m - m_l m <= 22000000) /\
   (forall o a b, In o wide_oms -> nth_error wide_mus (o_i o) = Some a -> nth_error wide_mus (o_j o) = Some b ->
      0 <= o_u o /\ o_u o - (m_l a - m_u b) <= 22000000 /\ - INT_MAX <= 3 * o_l o) /\
   near 2 wide_mus wide_oms 12000000 22000000 /\ flow_fits 2 12000000 22000000) /\
  ~ int_fits 2 12000000 /\
  @run_solver Z (exact_ops 1) (Z.to_nat 10000) 2 wide_mus wide_oms = Ok (Some 128712025).
Proof. split; [exact wide_near|]. split; [unfold int_fits, INT_MAX; lia|vm_compute; reflexivity]. Qed.

(** C68: without that condition it is not enough: one variable between 700000000
    and 767108864 makes solve() overflow. *)
Theorem C68_solve_documented_refuted : exists n mus U,
  well_formed n mus [] /\ bounded_by n mus [] 767108864 /\
  (forall i m, (1 <= i <= n)%nat -> nth_error mus i = Some m -> m_u m - m_l m <= U) /\
  6 * Z.of_nat (n + 1) * bit_ceil (Z.of_nat (n + 1) * U) <= INT_MAX /\
  optimum n mus [] 0 /\
  forall fuel, (1000 <= fuel)%nat -> @run_solver Z (exact_ops 1) fuel (Z.of_nat n) mus [] = Err IntOverflow.
Proof. exact distant_overflows. Qed.
Print Assumptions C68_solve_documented_refuted.
