(** * The work of [ProblemSolver::solve] *)
From Verif Require Import Base BaseLemmas Data ProblemDefine Flow ProblemSolver.
From Verif Require Import Spec FlowSpec WorkSpec FlowTotal SolverProof PrimalSolve.
Local Open Scope Z_scope.

Theorem solve_work (one : Z) n mus oms K fuel sv limits :
  0 < one -> admissible n mus oms K -> solver_fuel n (length oms) K <= Z.of_nat fuel ->
  @solver_new Z (exact_ops one) fuel (Z.of_nat n) mus oms = Ok sv -> s_n sv <> SIZE_MAX ->
  @merge_limits Z (exact_ops one) sv = Ok (Some limits) ->
  exists vmax M U s s' r,
    @calc Z (exact_ops one) fuel limits = Ok (vmax, M, U) /\
    @flow_new Z (exact_ops one) fuel n M U limits = Ok s /\
    @scaling_loop Z (exact_ops one) fuel fuel s = Ok s' /\
    (length limits <= length oms + n)%nat /\
    (r = 0%nat \/ 2 ^ Z.of_nat r < 4 * Z.of_nat (n + 1) * U) /\ U <= 3 * K /\
    @phases_run (exact_ops one) fuel
      (firstn r (Z.to_nat (phase_iterations n (length limits) (4 * K) U + 1) ::
                 repeat (Z.to_nat (round_iterations n (length limits))) r)) s s'.
Proof.
  intros H1 HA Hfuel EN Hn EM.
  destruct (solver_network one H1 n mus oms K fuel sv limits HA Hfuel EN Hn EM) as (vmax & M & U & EC & HU & HW & HF & _ & HL & _).
  destruct (total_work_far one fuel n M (2 * K) U limits HW HF) as (s & s' & r & E1 & E2 & E3 & E4).
  exists vmax, M, U, s, s', r. replace (2 * (2 * K)) with (4 * K) in E3 by lia.
  split; [exact EC|]. split; [exact E1|]. split; [exact E4|]. split; [exact HL|]. split; [exact E2|]. split; [exact HU|exact E3].
Qed.
