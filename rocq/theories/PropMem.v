(** * Property C97: cost functions with a memory *)
From Verif Require Import Base Data ProblemDefine Flow ProblemSolver Spec SolverProof ExampleData MemRun MemSpec MemSim MemExample.
Local Open Scope Z_scope.

(** C97: the cost functions may use a memory [St].  If, as long as the memory is in
    good order ([inv]), each call in the range of a limit returns what an ordinary
    function returns and leaves the memory in good order, then solve() returns what it
    returns for the ordinary functions.  This does not depend on the order in which the
    operands of an expression are evaluated ([ord]). *)
Theorem C97_memory :
  forall (St : Type) (inv : St -> Prop) (ord : nat -> bool) (one : Z) (n : nat)
    (mus : list (MuLimit (mem St Z))) (mus' : list (MuLimit Z)) (oms : list (OmegaLimit (mem St Z))) (oms' : list (OmegaLimit Z))
    (K : Z) (fuel : nat) (s : St),
    0 < one -> admissible n mus' oms' K -> solver_fuel n (length oms') K <= Z.of_nat fuel ->
    Forall2 (mu_answers inv within) mus mus' -> Forall2 (om_answers inv within) oms oms' -> inv s ->
    exists r s',
      @run_solver_m St Z (exact_ops one) ord fuel (Z.of_nat n) mus oms s = Ok (r, s') /\ inv s' /\
      @run_solver Z (exact_ops one) fuel (Z.of_nat n) mus' oms' = Ok r.
Proof. exact (fun St inv => @memory_solve St inv). Qed.
Print Assumptions C97_memory.

(** ... and for any type of costs, doubles for example, and any input on which the solver
    returns with the ordinary functions: *)
Theorem C97_any_data :
  forall (St D : Type) (ops : DataOps D) (ord : nat -> bool) (inv : St -> Prop) (fuel : nat) (n : Z)
    (mus : list (MuLimit (mem St D))) (mus' : list (MuLimit D)) (oms : list (OmegaLimit (mem St D))) (oms' : list (OmegaLimit D))
    (r : option D) (s : St),
    Forall2 (mu_answers inv anywhere) mus mus' -> Forall2 (om_answers inv anywhere) oms oms' -> inv s ->
    run_solver fuel n mus' oms' = Ok r ->
    exists s', run_solver_m ord fuel n mus oms s = Ok (r, s') /\ inv s'.
Proof. exact (fun St D ops => @memory_same St D ops). Qed.
Print Assumptions C97_any_data.

(** the functions of the example problem with a cache: the result is the same, and each
    value was computed once: 25 instead of 533 times *)
Example C97_example :
  Forall2 (mu_answers (right (fns ex_mus ex_oms)) within) (cached_mus 0 ex_mus) ex_mus /\
  Forall2 (om_answers (right (fns ex_mus ex_oms)) within) (cached_oms 4 ex_oms) ex_oms /\
  right (fns ex_mus ex_oms) [] /\
  (forall b : bool, match @run_solver_m cache Z (exact_ops 1) (fun _ => b) ex_steps 3 (cached_mus 0 ex_mus) (cached_oms 4 ex_oms) [] with
   | Ok (r, c) => r = Some 2 /\ length c = 25%nat
   | Err _ => False
   end).
Proof.
  split; [apply cached_mus_answer|]. split; [apply (cached_oms_answer within ex_mus)|]. split; [constructor|].
  intros [|]; vm_compute; auto.
Qed.

(** Functions must not change their mind.  One variable from 0 to 1, all answers 0 except
    the 14th, which is 5: solve() returns nullopt.  With other answers from {0, 5} it
    returns -5. *)
Theorem C97_fickle_refuted :
  (exists h, Forall (fun v => v = 0 \/ v = 5) h /\ length h = 14%nat /\
     @run_solver_m nat Z (exact_ops 1) (fun _ => true) 100 1 (one_variable h) [] 0%nat = Ok (None, 17%nat)) /\
  (exists h, Forall (fun v => v = 0 \/ v = 5) h /\
     exists k, @run_solver_m nat Z (exact_ops 1) (fun _ => true) 100 1 (one_variable h) [] 0%nat = Ok (Some (-5), k)).
Proof. exact (conj fickle_nullopt fickle_negative). Qed.
Print Assumptions C97_fickle_refuted.
