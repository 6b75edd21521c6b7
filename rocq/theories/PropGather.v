(** * Properties C113 and C114: gathering the limits *)
From Coq Require Import Floats.SpecFloat Permutation.
From Verif Require Import Base Data LCT ProblemDefine Flow ProblemSolver Spec SolverProof FloatSpec FloatExample NonConvex Gather GatherProof GatherExample.
Local Open Scope Z_scope.

(** C113: [merge_any_order shuffle] is merge_limits() with the contents of the map listed in another order, as an unordered map
    might do.  The answer is the same. *)
Theorem C113_unordered_map : forall (one : Z) (shuffle : list (OmegaLimit Z) -> list (OmegaLimit Z)) n mus oms K fuel,
  (forall l, Permutation l (shuffle l)) ->
  0 < one -> admissible n mus oms K -> solver_fuel n (length oms) K <= Z.of_nat fuel ->
  @run_solver_b Z (exact_ops one) (@merge_any_order Z (exact_ops one) shuffle) fuel (Z.of_nat n) mus oms =
  @run_solver Z (exact_ops one) fuel (Z.of_nat n) mus oms.
Proof. exact (fun one shuffle n mus oms K fuel HP => any_order_same one shuffle HP n mus oms K fuel). Qed.
Print Assumptions C113_unordered_map.

(** With doubles it need not be: for some admissible problem whose costs are integers below 2^53 the reverse order gives a larger answer. *)
Theorem C113_double_refuted : exists n mus oms K,
  admissible n mus oms K /\ problem_is 0 (dbl_mus 0 mus) (dbl_oms 0 oms) mus oms /\
  exists a b, @run_solver spec_float f64_ops 1000 (Z.of_nat n) (dbl_mus 0 mus) (dbl_oms 0 oms) = Ok (Some a) /\
    @run_solver_b spec_float f64_ops (@merge_any_order _ f64_ops (@rev _)) 1000 (Z.of_nat n) (dbl_mus 0 mus) (dbl_oms 0 oms) = Ok (Some b) /\
    SFltb a b = true.
Proof. exact order_in_doubles. Qed.
Print Assumptions C113_double_refuted.

(** C114: merging the limits on the same pair of variables is not needed for the answer: without it, and with all the limits in any
    order, the answer is the same. *)
Theorem C114_no_merge : forall (one : Z) (shuffle : list (OmegaLimit Z) -> list (OmegaLimit Z)) n mus oms K fuel,
  (forall l, Permutation l (shuffle l)) ->
  0 < one -> admissible n mus oms K -> solver_fuel n (length oms) K <= Z.of_nat fuel ->
  @run_solver_b Z (exact_ops one) (no_merge shuffle) fuel (Z.of_nat n) mus oms =
  @run_solver Z (exact_ops one) fuel (Z.of_nat n) mus oms.
Proof. exact (fun one shuffle n mus oms K fuel HP => no_merge_same one shuffle HP n mus oms K fuel). Qed.
Print Assumptions C114_no_merge.

(** three limits on three pairs, three on one pair, and two that contradict each other, which only merging notices before the flow *)
Definition clash_oms : list (OmegaLimit Z) := [mkOm 0 0 (table [0]) 2 1; mkOm (-1) (-1) (table []) 1 2].
Definition clash_mus : list (MuLimit Z) := [mkMu 0 0 (table []); mkMu 0 1 (table [0; 0]); mkMu 0 1 (table [0; 1])].
Example C113_example :
  (forall l : list (OmegaLimit Z), Permutation l (rev l)) /\ admissible 3 sum_mus sum_oms 1 /\
  @run_solver_b Z (exact_ops 1) (@merge_any_order _ (exact_ops 1) (@rev _)) 1000 3 sum_mus sum_oms = Ok (Some (2 ^ 53 + 2)) /\
  @run_solver Z (exact_ops 1) 1000 3 sum_mus sum_oms = Ok (Some (2 ^ 53 + 2)).
Proof. split; [exact (@Permutation_rev _)|]. split; [exact sum_admissible|]. split; vm_compute; reflexivity. Qed.
Example C114_example :
  admissible 3 sum_mus pair_oms 1 /\
  @run_solver_b Z (exact_ops 1) (no_merge (@rev _)) 1000 3 sum_mus pair_oms = Ok (Some (2 ^ 53 + 2)) /\
  @run_solver Z (exact_ops 1) 1000 3 sum_mus pair_oms = Ok (Some (2 ^ 53 + 2)) /\
  (exists s l, @solver_new Z (exact_ops 1) 1000 2 clash_mus clash_oms = Ok s /\
     @merge_limits Z (exact_ops 1) s = Ok None /\ no_merge (fun l => l) s = Ok (Some l)) /\
  @run_solver_b Z (exact_ops 1) (no_merge (fun l => l)) 1000 2 clash_mus clash_oms = Ok None.
Proof.
  split; [exact pair_admissible|]. split; [vm_compute; reflexivity|]. split; [vm_compute; reflexivity|].
  split; [eexists _, _; split; [vm_compute; reflexivity|]; split; vm_compute; reflexivity|vm_compute; reflexivity].
Qed.
