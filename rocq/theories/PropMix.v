(** * Property C115: the answer is concave in the costs *)
From Verif Require Import Base Data LCT ProblemDefine Flow ProblemSolver Spec NonConvex SolverProof MixSpec MixProof Decide.
Local Open Scope Z_scope.

(** C115: for two problems that differ in their costs only, and nonnegative a and b, the answer for a times the costs of the first plus b times those of
    the second is at least a times the first answer plus b times the second.  When a and b are positive it is equal exactly if
    the two problems have an optimal solution in common. *)
Theorem C115_concave : forall one a b n mus oms mus' oms' K fuel,
  0 < one -> 0 <= a -> 0 <= b -> same_shape mus oms mus' oms' -> admissible n mus oms K -> admissible n mus' oms' K ->
  solver_fuel n (length oms) K <= Z.of_nat fuel ->
  exists r r' s, @run_solver Z (exact_ops one) fuel (Z.of_nat n) mus oms = Ok r /\ @run_solver Z (exact_ops one) fuel (Z.of_nat n) mus' oms' = Ok r' /\
    @run_solver Z (exact_ops one) fuel (Z.of_nat n) (mix_mus a b mus mus') (mix_oms a b oms oms') = Ok s /\
    match r, r', s with
    | Some v, Some v', Some w => a * v + b * v' <= w /\
        ((exists mu om, best n mus oms mu om /\ best n mus' oms' mu om) -> w = a * v + b * v') /\
        (0 < a -> 0 < b -> w = a * v + b * v' -> exists mu om, best n mus oms mu om /\ best n mus' oms' mu om)
    | None, None, None => True
    | _, _, _ => False
    end.
Proof. exact (fun one a b n mus oms mus' oms' K fuel H => mix_concave one H a b n mus oms mus' oms' K fuel). Qed.
Print Assumptions C115_concave.

(** x1, x2 in 0..2; x1 - x2 at most omega in 0..1; the first costs draw to 0, the others to 2: 3 * 1 + 2 * 2 < 15 *)
Definition low_mus : list (MuLimit Z) := [mkMu 0 0 (table []); mkMu 0 2 (table [0; 1; 4]); mkMu 0 2 (table [1; 2; 3])].
Definition low_oms : list (OmegaLimit Z) := [mkOm 0 1 (table [0; 1]) 1 2].
Definition high_mus : list (MuLimit Z) := [mkMu 0 0 (table []); mkMu 0 2 (table [4; 2; 1]); mkMu 0 2 (table [3; 1; 1])].
Definition high_oms : list (OmegaLimit Z) := [mkOm 0 1 (table [0; 0]) 1 2].
Example C115_example :
  same_shape low_mus low_oms high_mus high_oms /\ admissible 2 low_mus low_oms 2 /\ admissible 2 high_mus high_oms 2 /\
  @run_solver Z (exact_ops 1) 1000 2 low_mus low_oms = Ok (Some 1) /\ @run_solver Z (exact_ops 1) 1000 2 high_mus high_oms = Ok (Some 2) /\
  @run_solver Z (exact_ops 1) 1000 2 (mix_mus 3 2 low_mus high_mus) (mix_oms 3 2 low_oms high_oms) = Ok (Some 15).
Proof.
  split.
  { split; [reflexivity|]. split; [|repeat constructor].
    intros i m m' Hi E E'. destruct i as [|[|[|i]]]; try lia; cbn [low_mus high_mus nth_error] in E, E'; try (destruct i; discriminate); injection E as <-; injection E' as <-; auto. }
  split; [apply problem_okb_ok; vm_compute; reflexivity|]. split; [apply problem_okb_ok; vm_compute; reflexivity|].
  split; [vm_compute; reflexivity|]. split; vm_compute; reflexivity.
Qed.
