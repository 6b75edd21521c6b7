(** * Optimal solutions of problems that differ by little *)
From Verif Require Import Base Data ProblemDefine ProblemSolver Spec FracSpec ProxSpec SolverProof ExampleData ProxProof FracExamples ProxExamples.
Local Open Scope Z_scope.

(** C90: if ranges and costs of all variables, or of one omega limit, move by at
    most one, then every optimal solution of the first problem has one of the second
    with values that differ by at most one. *)
Theorem C90_one_step :
  forall (one : Z), 0 < one ->
  forall (n : nat) (mus : list (MuLimit Z)) (oms : list (OmegaLimit Z)) (mus' : list (MuLimit Z)) (oms' : list (OmegaLimit Z)) (K : Z) (fuel : nat) (v v' : Z),
    admissible n mus oms K ->
    admissible n mus' oms' K ->
    one_step n mus oms mus' oms' ->
    solver_fuel n (length oms) K <= Z.of_nat fuel ->
    @run_solver Z (exact_ops one) fuel (Z.of_nat n) mus oms = Ok (Some v) ->
    @run_solver Z (exact_ops one) fuel (Z.of_nat n) mus' oms' = Ok (Some v') ->
    forall mu, solves n mus oms v mu -> exists mu', solves n mus' oms' v' mu' /\ moved_by n 1 mu mu'.
Proof. exact run_close. Qed.
Print Assumptions C90_one_step.

(** after k steps through feasible problems they differ by at most k *)
Theorem C90_steps :
  forall (one : Z), 0 < one ->
  forall (n : nat) (K : Z) (k : nat) (mus : list (MuLimit Z)) (oms : list (OmegaLimit Z)) (mus' : list (MuLimit Z)) (oms' : list (OmegaLimit Z)),
    steps n K k mus oms mus' oms' ->
  forall (fuel : nat) (v v' : Z),
    admissible n mus oms K ->
    solver_fuel n (length oms) K <= Z.of_nat fuel ->
    @run_solver Z (exact_ops one) fuel (Z.of_nat n) mus oms = Ok (Some v) ->
    @run_solver Z (exact_ops one) fuel (Z.of_nat n) mus' oms' = Ok (Some v') ->
    forall mu, solves n mus oms v mu -> exists mu', solves n mus' oms' v' mu' /\ moved_by n (Z.of_nat k) mu mu'.
Proof. exact run_steps. Qed.
Print Assumptions C90_steps.

(** ranges and targets of two variables move by one, then a limit on their difference *)
Example C90_example :
  admissible 2 (aims 0 5 5 0) (link 2) 6 /\ steps 2 6 2 (aims 0 5 5 0) (link 2) (aims 1 6 6 1) (link 1) /\
  one_step 2 (aims 0 5 5 0) (link 2) (aims 1 6 6 1) (link 2) /\
  solver_fuel 2 1 6 <= Z.of_nat ex_steps /\
  @run_solver Z (exact_ops 1) ex_steps 2 (aims 0 5 5 0) (link 2) = Ok (Some 9) /\
  @run_solver Z (exact_ops 1) ex_steps 2 (aims 1 6 6 1) (link 2) = Ok (Some 9) /\
  @run_solver Z (exact_ops 1) ex_steps 2 (aims 1 6 6 1) (link 1) = Ok (Some 10) /\
  solves 2 (aims 0 5 5 0) (link 2) 9 (vals [3; 1]).
Proof.
  split; [apply aims_admissible; lia|]. split; [exact aims_steps|]. split; [left; split; [apply aims_step; lia|reflexivity]|].
  split; [vm_compute; discriminate|]. split; [vm_compute; reflexivity|]. split; [vm_compute; reflexivity|]. split; [vm_compute; reflexivity|].
  exact (aims_solves 0 5 5 0 2 3 1 ltac:(lia) ltac:(lia) ltac:(lia) ltac:(lia)).
Qed.

(** two omega limits at once can move a value by two *)
Theorem C90_two_limits_refuted :
  exists (n : nat) (mus : list (MuLimit Z)) (oms oms' : list (OmegaLimit Z)) (K : Z) (fuel : nat) (v v' : Z) (mu : nat -> Z),
    admissible n mus oms K /\ admissible n mus oms' K /\ Forall2 om_step oms oms' /\
    solver_fuel n (length oms) K <= Z.of_nat fuel /\
    @run_solver Z (exact_ops 1) fuel (Z.of_nat n) mus oms = Ok (Some v) /\
    @run_solver Z (exact_ops 1) fuel (Z.of_nat n) mus oms' = Ok (Some v') /\
    solves n mus oms v mu /\
    forall mu', solves n mus oms' v' mu' -> ~ moved_by n 1 mu mu'.
Proof. exact two_limits_refuted. Qed.
Print Assumptions C90_two_limits_refuted.
