(** * Properties C66 and C67: optimal values and optimal flow can be read off the
    state in which [Flow::min_cost] ends *)
From Verif Require Import Base Data ProblemDefine Flow ProblemSolver Spec FlowSpec FlowProps SolverProof PrimalSpec FlowPrimal PrimalSolve PrimalExample ExampleData.
Local Open Scope Z_scope.

(** C66: the potentials, moved so that none of them is a whole number and
    rounded down, are node values of least penalised cost. *)
Theorem C66_potentials_optimal :
  forall (one : Z) (fuel n : nat) (M K U : Z) (limits : list (OmegaLimit Z)),
    network_wf n M K U limits ->
    flow_iterations n (length limits) K <= Z.of_nat fuel ->
    0 < U ->
    forall s, @flow_new Z (exact_ops one) fuel n M U limits = Ok s ->
    exists s' v, @min_cost Z (exact_ops one) fuel s = Ok (s', v) /\ network_min M limits v /\
      (exists theta, 0 <= theta < 2 * Z.of_nat (n + 1) /\ offset_free n theta s') /\
      (forall theta, offset_free n theta s' -> network_cost M limits (rounded n theta s') = v).
Proof. exact primal_read. Qed.
Print Assumptions C66_potentials_optimal.

(** C66: in a run of solve() that returns a value they are optimal values of the
    variables. *)
Theorem C66_solution_read :
  forall (one : Z), 0 < one ->
  forall (n : nat) (mus : list (MuLimit Z)) (oms : list (OmegaLimit Z)) (K : Z) (fuel : nat) (v : Z),
    admissible n mus oms K -> solver_fuel n (length oms) K <= Z.of_nat fuel ->
    @run_solver Z (exact_ops one) fuel (Z.of_nat n) mus oms = Ok (Some v) ->
    exists sv limits vmax M U s s',
      @solver_new Z (exact_ops one) fuel (Z.of_nat n) mus oms = Ok sv /\ @merge_limits Z (exact_ops one) sv = Ok (Some limits) /\
      @calc Z (exact_ops one) fuel limits = Ok (vmax, M, U) /\
      @flow_new Z (exact_ops one) fuel n M U limits = Ok s /\ @min_cost Z (exact_ops one) fuel s = Ok (s', v) /\
      (0 < U -> forall theta, offset_free n theta s' ->
         exists om, feasible n mus oms (fun i => rounded n theta s' i - rounded n theta s' 0) om /\
           total_cost n mus oms (fun i => rounded n theta s' i - rounded n theta s' 0) om = v).
Proof. exact primal_solve. Qed.
Print Assumptions C66_solution_read.

Example C66_example :
  network_wf 2 20 2 3 ex_limits /\ flow_iterations 2 4 2 <= Z.of_nat ex_steps /\
  final_reading ex_steps 2 20 3 1 ex_limits = Some (8, [-3; 3; 2; -1], [31; 31; 30], [0; 0; 0]) /\
  map (fun p => (p + 1) mod 6) [31; 31; 30] = [2; 2; 1] /\
  network_cost 20 ex_limits (fun i => nth i [0; 0; 0] 0) = 8.
Proof. split; [exact ex_network_wf|]. split; [exact ex_flow_fuel|]. vm_compute. auto. Qed.

(** the problem of C01's example: mu = 1, 0, 2 costs 2.  The offset 1 is not
    free (39 + 1 is divisible by 8) and its values are not optimal. *)
Example C66_solution_example :
  admissible 3 ex_mus ex_oms 3 /\
  problem_reading 0 = Some (4, 2, [30; 39; 31; 47], [0; 1; 0; 2]) /\
  problem_reading 5 = Some (4, 2, [30; 39; 31; 47], [0; 1; 0; 2]) /\
  total_cost 3 ex_mus ex_oms (fun i => nth i [0; 1; 0; 2] 0) (fun k => nth k [1; 1; 2; 1] 0) = 2 /\
  problem_reading 1 = Some (4, 2, [30; 39; 31; 47], [0; 2; 1; 3]) /\
  total_cost 3 ex_mus ex_oms (fun i => nth i [0; 2; 1; 3] 0) (fun k => nth k [1; 1; 2; 1] 0) = 8.
Proof. split; [exact ex_admissible|]. vm_compute. auto. Qed.

(** C67: the flow is a circulation of largest value, and that value is the
    returned number. *)
Theorem C67_flow_optimal :
  forall (one : Z) (fuel n : nat) (M K U : Z) (limits : list (OmegaLimit Z)),
    network_wf n M K U limits ->
    flow_iterations n (length limits) K <= Z.of_nat fuel ->
    0 < U ->
    forall s, @flow_new Z (exact_ops one) fuel n M U limits = Ok s ->
    exists s' v, @min_cost Z (exact_ops one) fuel s = Ok (s', v) /\ circulation n M limits s' /\
      dual_value limits (fun k => flow_on s' (2 * k)) v /\
      (forall y v', conserves n limits y -> (forall k, (k < length limits)%nat -> - M <= y k <= M) ->
         dual_value limits y v' -> v' <= v).
Proof. exact dual_read. Qed.
Print Assumptions C67_flow_optimal.

(** the flow of C66_example has the value 8, the zero flow only -2 *)
Example C67_example :
  dual_value ex_limits (fun k => nth k [-3; 3; 2; -1] 0) 8 /\
  conserves 2 ex_limits (fun k => nth k [-3; 3; 2; -1] 0) /\ dual_value ex_limits (fun _ => 0) (-2).
Proof. exact dual_example. Qed.
