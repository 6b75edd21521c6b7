(** * Other types as [Data] *)
From Verif Require Import Base Data ProblemDefine ProblemSolver Spec SolverProof FlowSpec ExampleData FloatExample MachSpec MachProof.
Local Open Scope Z_scope.

(** C81: with an integer type as [Data] the answer is exact if [run_bound] is
    within the range of the type, whatever happens when the type overflows. *)
Theorem C81_machine_integers :
  forall (B : Z) (ops : DataOps Z) (n : nat) (mus : list (MuLimit Z)) (oms : list (OmegaLimit Z)) (K A : Z) (fuel : nat),
    machine_ops B ops ->
    admissible n mus oms K ->
    costs_within n mus oms A ->
    run_bound n (length oms) K 1 A <= B ->
    solver_fuel n (length oms) K <= Z.of_nat fuel ->
    (exists v, @run_solver Z ops fuel (Z.of_nat n) mus oms = Ok (Some v) /\ optimum n mus oms v) \/
    (@run_solver Z ops fuel (Z.of_nat n) mus oms = Ok None /\ infeasible n mus oms).
Proof. exact machine_exact. Qed.
Print Assumptions C81_machine_integers.

(** Two's complement with [w] bits is such a type. *)
Theorem C81_wrap : forall w, 1 < w -> machine_ops (2 ^ (w - 1) - 1) (wrap_ops w).
Proof. exact wrap_machine. Qed.
Print Assumptions C81_wrap.

(** That costs and optimum are numbers of the type is not enough. *)
Theorem C81_costs_fit_refuted : exists n mus oms K fuel,
  admissible n mus oms K /\ solver_fuel n (length oms) K <= Z.of_nat fuel /\ optimum n mus oms 0 /\
  (forall i m x, (1 <= i <= n)%nat -> nth_error mus i = Some m -> m_l m <= x <= m_u m -> fits (2 ^ 31 - 1) (cost (m_fn m) x)) /\ oms = [] /\
  @run_solver Z (wrap_ops 32) fuel (Z.of_nat n) mus oms = Ok None.
Proof. exact machine_wrong. Qed.
Print Assumptions C81_costs_fit_refuted.

Example C81_example :
  admissible 3 ex_mus ex_oms 3 /\ costs_within 3 ex_mus ex_oms 95 /\ run_bound 3 4 3 1 95 <= 2 ^ 31 - 1 /\
  @run_solver Z (wrap_ops 32) ex_steps 3 ex_mus ex_oms = Ok (Some 2) /\
  @run_solver Z (wrap_ops 32) ex_steps 3 ex_mus cyc_oms = Ok None.
Proof.
  split; [exact ex_admissible|]. split; [exact ex_costs|]. split; [vm_compute; discriminate|]. split; vm_compute; reflexivity.
Qed.
