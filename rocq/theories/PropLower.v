(** * Property C118: why the limits are merged before calc() *)
From Verif Require Import Base Data LCT ProblemDefine Flow ProblemSolver Spec SolverProof NonConvex Gather GatherExample LowerProof Decide.
Local Open Scope Z_scope.

(** C118: ProblemSolver.hpp:31, a comment, says that calc() is given the merged limits because that may lower its values.  It never
    raises them: the three values for the merged limits are at most those for the limits as they are. *)
Theorem C118_merging_lowers : forall one n mus oms K fuel (s : solver Z) L L',
  admissible n mus oms K -> solver_fuel n (length oms) K <= Z.of_nat fuel ->
  @solver_new Z (exact_ops one) fuel (Z.of_nat n) mus oms = Ok s -> s_n s <> SIZE_MAX ->
  @merge_limits Z (exact_ops one) s = Ok (Some L) -> no_merge (fun l => l) s = Ok (Some L') ->
  exists V M U V' M' U', @calc Z (exact_ops one) fuel L = Ok (V, M, U) /\ @calc Z (exact_ops one) fuel L' = Ok (V', M', U') /\
    V <= V' /\ M <= M' /\ U <= U'.
Proof. exact merging_lowers. Qed.
Print Assumptions C118_merging_lowers.

(** two limits on one pair: all three values are lower after merging *)
Definition low_mus : list (MuLimit Z) := [mkMu 0 0 (table []); mkMu 0 0 (table [0]); mkMu 0 2 (table [0; 0; 0])].
Definition low_oms : list (OmegaLimit Z) := [mkOm 0 3 (table [0; 0; 4; 8]) 2 1; mkOm (-3) (-1) (table []) 1 2].
Definition calc_of (gather : solver Z -> res (option (list (OmegaLimit Z)))) : res (Z * Z * Z) :=
  s <- @solver_new Z (exact_ops 1) 1000 2 low_mus low_oms ;;
  if s_n s =? SIZE_MAX then Err BadCall else
  r <- gather s ;;
  match r with Some L => @calc Z (exact_ops 1) 1000 L | None => Err BadCall end.
Example C118_example :
  admissible 2 low_mus low_oms 3 /\ solver_fuel 2 (length low_oms) 3 <= Z.of_nat (Z.to_nat (solver_fuel 2 (length low_oms) 3)) /\
  calc_of (@merge_limits Z (exact_ops 1)) = Ok (4, 5, 2) /\ calc_of (no_merge (fun l => l)) = Ok (8, 9, 3).
Proof. split; [apply problem_okb_ok; vm_compute; reflexivity|]. split; [lia|]. split; vm_compute; reflexivity. Qed.
