(** * Properties C39 to C43

    The sizes of the numbers of a whole run, and runs on doubles and on
    WrappedDouble. *)
From Coq Require Import Floats.SpecFloat.
From Verif Require Import Base Data ProblemDefine Flow ProblemSolver SolverChecked Spec FlowSpec FloatSpec WrappedDouble.
From Verif Require Import SolverProof FloatRun FloatWrapped ExampleData FloatExample.
Local Open Scope Z_scope.

(** C39: no number of type Data computed between the constructor and the result
    exceeds [run_bound]; [run_solver_chk] is the model with that size asserted
    for every result of an arithmetic operation (SolverChecked.v). *)
Theorem C39_run_sizes : forall (one : Z) (n : nat) (mus : list (MuLimit Z)) (oms : list (OmegaLimit Z)) (K A : Z) (fuel : nat),
  0 < one -> admissible n mus oms K -> costs_within n mus oms A -> solver_fuel n (length oms) K <= Z.of_nat fuel ->
  exists r, @run_solver_chk Z (exact_ops one) (within (run_bound n (length oms) K one A)) fuel (Z.of_nat n) mus oms = Ok r /\
            @run_solver Z (exact_ops one) fuel (Z.of_nat n) mus oms = Ok r.
Proof. exact run_sizes. Qed.
Print Assumptions C39_run_sizes.

Example C39_example : admissible 3 ex_mus ex_oms 3 /\ costs_within 3 ex_mus ex_oms 95 /\ run_bound 3 4 3 1 95 = 140576 /\
  @run_solver_chk Z (exact_ops 1) (within 140576) ex_steps 3 ex_mus ex_oms = Ok (Some 2) /\
  @run_solver_chk Z (exact_ops 1) (within 70) ex_steps 3 ex_mus ex_oms = Err AssertFail.
Proof. split; [exact ex_admissible|]. split; [exact ex_costs|]. split; [reflexivity|]. split; vm_compute; reflexivity. Qed.

(** C40: on doubles the library returns the exact optimum, or nullopt exactly
    for infeasible problems, as long as the costs are multiples of 2^-k and
    [run_bound], in units of 2^-k, is below 2^53. *)
Theorem C40_doubles_exact : forall (k : Z) (n : nat) (musf : list (MuLimit spec_float)) (omsf : list (OmegaLimit spec_float))
  (mus : list (MuLimit Z)) (oms : list (OmegaLimit Z)) (K A : Z) (fuel : nat),
  0 <= k <= 52 -> problem_is k musf omsf mus oms -> admissible n mus oms K -> costs_within n mus oms A ->
  run_bound n (length oms) K (2 ^ k) A < 2 ^ 53 -> solver_fuel n (length oms) K <= Z.of_nat fuel ->
  (exists f v, @run_solver spec_float f64_ops fuel (Z.of_nat n) musf omsf = Ok (Some f) /\ f64_is k f v /\ optimum n mus oms v) \/
  (@run_solver spec_float f64_ops fuel (Z.of_nat n) musf omsf = Ok None /\ infeasible n mus oms).
Proof. exact doubles_exact. Qed.
Print Assumptions C40_doubles_exact.

(** costs in quarters *)
Example C40_example : problem_is 2 (dbl_mus 2 ex_mus) (dbl_oms 2 ex_oms) ex_mus ex_oms /\ run_bound 3 4 3 (2 ^ 2) 95 < 2 ^ 53 /\
  @run_solver _ f64_ops ex_steps 3 (dbl_mus 2 ex_mus) (dbl_oms 2 ex_oms) = Ok (Some (dbl 2 2)).
Proof. split; [apply (ex_dbl 2); auto|]. split; [reflexivity|]. apply (ex_dbl 2); auto. Qed.

(** C41: comparing exact numbers with a tolerance below the grid of the costs
    changes nothing. *)
Theorem C41_tolerance_exact : forall (g one eps : Z) (n : nat) (mus' : list (MuLimit Z)) (oms' : list (OmegaLimit Z))
  (mus : list (MuLimit Z)) (oms : list (OmegaLimit Z)) (K : Z) (fuel : nat),
  0 <= eps < g -> 0 < one -> problem_times g mus' oms' mus oms -> admissible n mus oms K ->
  solver_fuel n (length oms) K <= Z.of_nat fuel ->
  (exists v, @run_solver Z (wd_exact_ops (g * one) eps) fuel (Z.of_nat n) mus' oms' = Ok (Some (g * v)) /\ optimum n mus oms v) \/
  (@run_solver Z (wd_exact_ops (g * one) eps) fuel (Z.of_nat n) mus' oms' = Ok None /\ infeasible n mus oms).
Proof. exact tolerance_exact. Qed.
Print Assumptions C41_tolerance_exact.

(** a tolerance equal to the grid is too much: the answer can be hundreds of
    tolerances away *)
Theorem C41_tolerance_refuted : exists g one eps n mus' oms' mus oms K fuel v v',
  eps = g /\ 0 < one /\ problem_times g mus' oms' mus oms /\ admissible n mus oms K /\
  solver_fuel n (length oms) K <= Z.of_nat fuel /\ optimum n mus oms v /\
  @run_solver Z (wd_exact_ops (g * one) eps) fuel (Z.of_nat n) mus' oms' = Ok (Some v') /\ v' = g * v + 512 * eps.
Proof. exact flat_refutes_exact. Qed.
Print Assumptions C41_tolerance_refuted.

Example C41_example :
  problem_times 10 (times_mus 10 ex_mus) (times_oms 10 ex_oms) ex_mus ex_oms /\
  @run_solver _ (wd_exact_ops 30 9) ex_steps 3 (times_mus 10 ex_mus) (times_oms 10 ex_oms) = Ok (Some 20) /\
  @run_solver _ (wd_exact_ops 30 9) ex_steps 3 (times_mus 10 ex_mus) (times_oms 10 cyc_oms) = Ok None.
Proof. exact ex_times. Qed.

(** C42: the same for WrappedDouble as compiled: with costs that are multiples
    of 2^-13 or coarser the answer is exact, tolerance and rounding included. *)
Theorem C42_wrapped_double_exact : forall (k : Z) (n : nat) (musf : list (MuLimit spec_float)) (omsf : list (OmegaLimit spec_float))
  (mus : list (MuLimit Z)) (oms : list (OmegaLimit Z)) (K A : Z) (fuel : nat),
  0 <= k <= 13 -> problem_is k musf omsf mus oms -> admissible n mus oms K -> costs_within n mus oms A ->
  run_bound n (length oms) K (2 ^ k) A < 2 ^ 50 -> solver_fuel n (length oms) K <= Z.of_nat fuel ->
  (exists f v, @run_solver spec_float wd64_ops fuel (Z.of_nat n) musf omsf = Ok (Some f) /\ f64_is k f v /\ optimum n mus oms v) \/
  (@run_solver spec_float wd64_ops fuel (Z.of_nat n) musf omsf = Ok None /\ infeasible n mus oms).
Proof. exact wrapped_exact. Qed.
Print Assumptions C42_wrapped_double_exact.

(** multiples of 2^-14, the next finer grid: the answer can be wrong *)
Theorem C42_wrapped_double_refuted : exists n musf omsf mus oms K A fuel f v,
  problem_is 14 musf omsf mus oms /\ admissible n mus oms K /\ costs_within n mus oms A /\
  run_bound n (length oms) K (2 ^ 14) A < 2 ^ 50 /\ solver_fuel n (length oms) K <= Z.of_nat fuel /\
  optimum n mus oms v /\
  @run_solver spec_float wd64_ops fuel (Z.of_nat n) musf omsf = Ok (Some f) /\ f64_is 14 f (v + 512).
Proof. exact flat_refutes_double. Qed.
Print Assumptions C42_wrapped_double_refuted.

Example C42_example : problem_is 13 (dbl_mus 13 ex_mus) (dbl_oms 13 ex_oms) ex_mus ex_oms /\ run_bound 3 4 3 (2 ^ 13) 95 < 2 ^ 50 /\
  @run_solver _ wd64_ops ex_steps 3 (dbl_mus 13 ex_mus) (dbl_oms 13 ex_oms) = Ok (Some (dbl 13 2)).
Proof. split; [apply (ex_dbl 13); auto|]. split; [reflexivity|]. apply (ex_dbl 13); auto. Qed.

(** C43: on such values the comparisons of WrappedDouble are the ordinary ones *)
Theorem C43_wrapped_comparisons : forall (k : Z) (f g : spec_float) (x y : Z),
  0 <= k <= 13 -> f64_is k f x -> f64_is k g y -> Z.abs x < 2 ^ 50 -> Z.abs y < 2 ^ 50 ->
  @wd_lt _ f64_ops eps64 f g = (x <? y) /\ @wd_le _ f64_ops eps64 f g = (x <=? y) /\
  @wd_gt _ f64_ops eps64 f g = (y <? x) /\ @wd_ge _ f64_ops eps64 f g = (y <=? x) /\
  @wd_eq _ f64_ops SFabs eps64 f g = (x =? y).
Proof. exact wd64_grid. Qed.
Print Assumptions C43_wrapped_comparisons.

(** neighbours on the grid 2^-13 near 2^36, where doubles are 2^-16 apart *)
Example C43_example : f64_is 13 (dbl 13 (2 ^ 49 + 1)) (2 ^ 49 + 1) /\ f64_is 13 (dbl 13 (2 ^ 49 + 2)) (2 ^ 49 + 2) /\
  @wd_lt _ f64_ops eps64 (dbl 13 (2 ^ 49 + 1)) (dbl 13 (2 ^ 49 + 2)) = true /\
  @wd_lt _ f64_ops eps64 (dbl 14 1) (dbl 14 2) = false.
Proof. repeat split; vm_compute; reflexivity. Qed.
