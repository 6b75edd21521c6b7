(** * Property C108: optimal values move in one direction *)
From Verif Require Import Base Data ProblemDefine ProblemSolver Spec FracSpec SolverProof ExampleData FracExamples Client MonotoneSpec MonotoneProof.
Local Open Scope Z_scope.

(** C108: two problems with the same omega limits, in the second of which every variable is
    drawn upwards.  The smaller of two optimal values is optimal in the first, the larger in the second. *)
Theorem C108_min_max :
  forall (one : Z) (n : nat) (mus mus' : list (MuLimit Z)) (oms : list (OmegaLimit Z)) (K : Z) (fuel : nat) (v v' : Z),
    0 < one -> admissible n mus oms K -> admissible n mus' oms K ->
    solver_fuel n (length oms) K <= Z.of_nat fuel -> drawn_up n mus mus' ->
    @run_solver Z (exact_ops one) fuel (Z.of_nat n) mus oms = Ok (Some v) ->
    @run_solver Z (exact_ops one) fuel (Z.of_nat n) mus' oms = Ok (Some v') ->
    forall mu mu', solves n mus oms v mu -> solves n mus' oms v' mu' ->
    solves n mus oms v (fun i => Z.min (mu i) (mu' i)) /\ solves n mus' oms v' (fun i => Z.max (mu i) (mu' i)).
Proof. exact run_two. Qed.
Print Assumptions C108_min_max.

(** So none of the values that [find_solution] (C101) finds gets smaller. *)
Theorem C108_values_rise :
  forall (one : Z) (n : nat) (mus mus' : list (MuLimit Z)) (oms : list (OmegaLimit Z)) (K : Z) (fuel k : nat) (v v' : Z) (xs xs' : list Z),
    0 < one -> admissible n mus oms K -> admissible n mus' oms K ->
    solver_fuel n (length oms) K <= Z.of_nat fuel -> 2 * K < 2 ^ Z.of_nat k -> drawn_up n mus mus' ->
    @find_solution (exact_ops one) (S k) fuel n mus oms = Ok (Some (v, xs)) ->
    @find_solution (exact_ops one) (S k) fuel n mus' oms = Ok (Some (v', xs')) ->
    forall i, (1 <= i <= n)%nat -> values xs i <= values xs' i.
Proof. exact find_two. Qed.
Print Assumptions C108_values_rise.

(** only variable 2 is drawn up, and all three rise *)
Example C108_example :
  admissible 3 ex_mus ex_oms 3 /\ admissible 3 up_mus ex_oms 3 /\ drawn_up 3 ex_mus up_mus /\
  @find_solution (exact_ops 1) 4 ex_steps 3 ex_mus ex_oms = Ok (Some (2, [1; 0; 2])) /\
  @find_solution (exact_ops 1) 4 ex_steps 3 up_mus ex_oms = Ok (Some (-6, [2; 3; 3])).
Proof.
  split; [exact ex_admissible|]. split; [exact up_admissible|]. split.
  - intros i m m' Hi E E'. destruct i as [|[|[|[|i]]]]; try lia; cbn [ex_mus up_mus nth_error] in E, E'; injection E as <-; injection E' as <-;
      cbn [m_l m_u m_fn cost sq]; repeat split; try lia.
  - split; vm_compute; reflexivity.
Qed.
