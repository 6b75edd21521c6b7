(** * Property C91

    [Data] set to float, long double or another binary floating-point type. *)
From Coq Require Import Floats.SpecFloat.
From Verif Require Import Base Data ProblemDefine ProblemSolver Spec FlowSpec BinSpec SolverProof BinRun ExampleData BinExample.
Local Open Scope Z_scope.

(** C91: with a precision of [prec] bits the library returns the exact optimum,
    or nullopt exactly for infeasible problems, as long as the costs are
    multiples of 2^-k and [run_bound], in units of 2^-k, is below 2^prec. Every
    int must be in range of the format; it need not be a number of the format. *)
Theorem C91_formats_exact : forall (prec emax k : Z),
  1 < prec -> prec + 3 <= emax -> 33 <= emax -> 0 <= k <= emax - 3 ->
  forall (n : nat) (musf : list (MuLimit spec_float)) (omsf : list (OmegaLimit spec_float))
  (mus : list (MuLimit Z)) (oms : list (OmegaLimit Z)) (K A : Z) (fuel : nat),
  bin_problem prec emax k musf omsf mus oms -> admissible n mus oms K -> costs_within n mus oms A ->
  run_bound n (length oms) K (2 ^ k) A < 2 ^ prec -> solver_fuel n (length oms) K <= Z.of_nat fuel ->
  bin_solution prec emax k n mus oms (@run_solver spec_float (bin_ops prec emax) fuel (Z.of_nat n) musf omsf).
Proof. exact bin_exact. Qed.
Print Assumptions C91_formats_exact.

(** with 53 bits this is the model of double *)
Theorem C91_double : bin_ops 53 1024 = f64_ops.
Proof. exact (eq_refl f64_ops). Qed.
Print Assumptions C91_double.

(** float: it is not enough that every cost and the optimum are floats; the
    value returned can be below the optimum *)
Theorem C91_costs_refuted : exists n musf omsf mus oms K fuel f v v',
  bin_problem 24 128 0 musf omsf mus oms /\ admissible n mus oms K /\ solver_fuel n (length oms) K <= Z.of_nat fuel /\
  optimum n mus oms v /\ Z.abs v < 2 ^ 24 /\
  @run_solver spec_float (bin_ops 24 128) fuel (Z.of_nat n) musf omsf = Ok (Some f) /\ bin_is 24 128 0 f v' /\ v' < v.
Proof. exact steep_refutes. Qed.
Print Assumptions C91_costs_refuted.

(** float and the long double of x86, costs in quarters *)
Example C91_example : forall prec emax, (prec, emax) = (24, 128) \/ (prec, emax) = (64, 16384) ->
  bin_problem prec emax 2 (bin_mus prec emax 2 ex_mus) (bin_oms prec emax 2 ex_oms) ex_mus ex_oms /\
  run_bound 3 4 3 (2 ^ 2) 95 < 2 ^ prec /\
  @run_solver _ (bin_ops prec emax) ex_steps 3 (bin_mus prec emax 2 ex_mus) (bin_oms prec emax 2 ex_oms) = Ok (Some (bin prec emax 2 2)).
Proof. exact ex_bin. Qed.
