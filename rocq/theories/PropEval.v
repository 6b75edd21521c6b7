(** * Property C94: how often, and where, the cost functions are called *)
From Verif Require Import Base Data ProblemDefine Flow ProblemSolver Spec SolverProof ExampleData EvalSpec EvalLog EvalErase EvalTotal.
Local Open Scope Z_scope.

(** C94: on an admissible problem the constructor and solve() call the cost functions
    only with arguments in their ranges, and never the function of entry 0.  The
    number of calls is polynomial: [solve_evals], where [m] is the number of limits
    after merging, [U] the width of the widest and [ph] the number of rounds.  A
    call of a merged limit calls the functions of all the omega limits merged in
    it, at most [d]. *)
Theorem C94_cost_calls :
  forall (one : Z) (n : nat) (mus : list (MuLimit Z)) (oms : list (OmegaLimit Z)) (K : Z) (fuel d : nat),
    0 < one -> admissible n mus oms K -> solver_fuel n (length oms) K <= Z.of_nat fuel ->
    (1 <= d)%nat -> (forall i j, (parallel oms i j <= d)%nat) ->
    exists r calls m U ph,
      run_solver_n one fuel (Z.of_nat n) (note_mus 0 mus) (note_oms 0 oms) = Ok (r, calls) /\
      @run_solver Z (exact_ops one) fuel (Z.of_nat n) mus oms = Ok r /\
      Forall (inside mus oms) calls /\
      (m <= length oms + n)%nat /\ 0 <= U <= 3 * K /\
      (ph = 0%nat \/ 2 ^ Z.of_nat ph < 4 * Z.of_nat (n + 1) * U) /\
      Z.of_nat (length calls) <= solve_evals n (length oms) m K U ph d.
Proof. exact solve_evals_ok. Qed.
Print Assumptions C94_cost_calls.

(** ... and recording the calls changes nothing, whatever the functions do: also when
    a function throws or the problem is malformed. *)
Theorem C94_same_run :
  forall (one : Z) (fuel : nat) (n : Z) (mus : list (MuLimit Z)) (oms : list (OmegaLimit Z)),
    unnote (run_solver_n one fuel n (note_mus 0 mus) (note_oms 0 oms)) = @run_solver Z (exact_ops one) fuel n mus oms.
Proof. exact run_solver_unnote. Qed.
Print Assumptions C94_same_run.

(** three variables and four omega limits, two each between the same variables: 533
    calls, 229 of them of functions of variables.  One of the functions throws
    everywhere: that of entry 0. *)
Example C94_example :
  admissible 3 ex_mus ex_oms 3 /\ solver_fuel 3 4 3 <= Z.of_nat ex_steps /\ (forall i j, (parallel ex_oms i j <= 2)%nat) /\
  match run_solver_n 1 ex_steps 3 (note_mus 0 ex_mus) (note_oms 0 ex_oms) with
  | Ok (r, calls) =>
      r = Some 2 /\ length calls = 533%nat /\
      firstn 5 calls = [(OfOmega 0, 0); (OfOmega 0, 1); (OfOmega 0, -1); (OfOmega 0, 0); (OfOmega 1, -1)] /\
      length (filter (fun c => match fst c with OfMu _ => true | OfOmega _ => false end) calls) = 229%nat
  | Err _ => False
  end.
Proof.
  split; [exact ex_admissible|]. split; [exact ex_fuel|]. split.
  - intros i j. destruct i as [|[|[|[|i]]]], j as [|[|[|[|j]]]]; cbn; auto.
  - vm_compute. auto.
Qed.
