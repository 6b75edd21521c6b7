(** * Property C107: the order of the active nodes does not matter *)
From Coq Require Import Permutation.
From Verif Require Import Base Data ProblemDefine Flow ProblemSolver Spec FlowSpec SolverProof AnyOrder AnyOrderProof ExampleData.
Local Open Scope Z_scope.

(** C107: let the nodes waiting in [uq] be rearranged before every turn, in a way that
    may depend on the whole state.  solve() ends within the same number of steps and returns the same. *)
Theorem C107_any_order :
  forall (one : Z) (order : flow Z -> list nat -> list nat), reorders order ->
  forall (n : nat) (mus : list (MuLimit Z)) (oms : list (OmegaLimit Z)) (K : Z) (fuel : nat),
    0 < one -> admissible n mus oms K -> solver_fuel n (length oms) K <= Z.of_nat fuel ->
    @run_solver_o Z (exact_ops one) order fuel (Z.of_nat n) mus oms = @run_solver Z (exact_ops one) fuel (Z.of_nat n) mus oms.
Proof. exact order_solve. Qed.
Print Assumptions C107_any_order.

(** min_cost() by itself *)
Theorem C107_min_cost :
  forall (one : Z) (order : flow Z -> list nat -> list nat), reorders order ->
  forall (fuel n : nat) (M K U : Z) (limits : list (OmegaLimit Z)),
    network_wf n M K U limits -> flow_iterations n (length limits) K <= Z.of_nat fuel ->
    exists s s1 s2 v,
      @flow_new Z (exact_ops one) fuel n M U limits = Ok s /\
      @min_cost Z (exact_ops one) fuel s = Ok (s1, v) /\
      @min_cost_o Z (exact_ops one) order fuel s = Ok (s2, v).
Proof. exact min_cost_o_ok. Qed.
Print Assumptions C107_min_cost.

(** last come, first served: the same value, though with another flow and other potentials *)
Definition lifo (s : flow Z) (l : list nat) : list nat := rev l.

Definition C107_ends (order : flow Z -> list nat -> list nat) : res (list Z * list Z * Z) :=
  s <- @solver_new Z (exact_ops 1) ex_steps 3 ex_mus ex_oms ;;
  r <- @merge_limits Z (exact_ops 1) s ;;
  match r with
  | None => Err BadCall
  | Some limits =>
      '(_, M, U) <- @calc Z (exact_ops 1) ex_steps limits ;;
      s <- @flow_new Z (exact_ops 1) ex_steps 3 M U limits ;;
      '(t, v) <- @min_cost_o Z (exact_ops 1) order ex_steps s ;;
      Ok (f_flows t, f_scal t, v)
  end.

Example C107_example :
  reorders lifo /\ admissible 3 ex_mus ex_oms 3 /\ solver_fuel 3 (length ex_oms) 3 <= Z.of_nat ex_steps /\
  @run_solver_o Z (exact_ops 1) lifo ex_steps 3 ex_mus ex_oms = Ok (Some 2) /\
  C107_ends lifo = Ok ([-2; 2; 1; -1; -2; 2; 3; -3; -1; 1], [30; 39; 31; 46], 2) /\
  C107_ends (fun _ l => l) = Ok ([-4; 4; 3; -3; -4; 4; 7; -7; -3; 3], [30; 39; 31; 47], 2) /\
  @run_solver_o Z (exact_ops 1) (fun _ l => skipn 1 l) ex_steps 3 ex_mus ex_oms = Err EmptyQueue.
Proof.
  split; [intros s l; apply Permutation_rev|]. split; [exact ex_admissible|]. split; [exact ex_fuel|]. vm_compute. repeat split.
Qed.
