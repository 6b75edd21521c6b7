(** * Property C105: the link-cut tree is only a faster forest *)
From Verif Require Import Base Data LCT LCTSpec LCTRun ProblemDefine Flow ProblemSolver Spec FlowSpec SolverProof.
From Verif Require Import CallSpec TreeFlow TreeProof ExampleData.
Local Open Scope Z_scope.

(** C105: put any type of forests in place of the link-cut tree.  If it answers every
    permitted program as a plain forest does, solve() returns the same. *)
Theorem C105_any_forest :
  forall (one : Z) (H : Type) (new : nat -> H) (call : H -> lct_op -> res (H * lct_out))
         (n : nat) (mus : list (MuLimit Z)) (oms : list (OmegaLimit Z)) (K : Z) (fuel : nat),
    0 < one -> implements_forest (n + 1) (new (n + 1)%nat) call ->
    admissible n mus oms K -> solver_fuel n (length oms) K <= Z.of_nat fuel ->
    run_solver_t one call new fuel (Z.of_nat n) mus oms = @run_solver Z (exact_ops one) fuel (Z.of_nat n) mus oms.
Proof. exact tree_solve. Qed.
Print Assumptions C105_any_forest.

(** min_cost() on it ends with the same value and the same fields, nodes apart *)
Theorem C105_min_cost :
  forall (one : Z) (H : Type) (new : nat -> H) (call : H -> lct_op -> res (H * lct_out))
         (fuel n : nat) (M K U : Z) (limits : list (OmegaLimit Z)),
    implements_forest (n + 1) (new (n + 1)%nat) call ->
    network_wf n M K U limits ->
    flow_iterations n (length limits) K <= Z.of_nat fuel ->
    exists s s' v h,
      @flow_new Z (exact_ops one) fuel n M U limits = Ok s /\
      @min_cost Z (exact_ops one) fuel s = Ok (s', v) /\
      min_cost_t one call fuel (strip s) (new (n + 1)%nat) = Ok (strip s', h, v).
Proof. exact tree_min_cost. Qed.
Print Assumptions C105_min_cost.

(** the link-cut tree is such a type ... *)
Theorem C105_link_cut_tree :
  forall (one : Z) (fuel N : nat),
    (N < fuel)%nat -> implements_forest N (repeat (@node0 Z (exact_ops one)) N) (lct_call one fuel).
Proof. exact lct_implements. Qed.
Print Assumptions C105_link_cut_tree.

(** ... and so are two plain vectors of parents and values *)
Theorem C105_plain : forall (N : nat), implements_forest N (plain_new N) plain_call.
Proof. exact plain_implements. Qed.
Print Assumptions C105_plain.

(** a forest that forgets to add along the path does not answer like one, and the result changes *)
Definition lazy_call (h : plain) (op : lct_op) : res (plain * lct_out) :=
  match op with AddPath _ _ => Ok (h, ONone) | _ => plain_call h op end.

Example C105_example :
  admissible 3 ex_mus ex_oms 3 /\ solver_fuel 3 (length ex_oms) 3 <= Z.of_nat ex_steps /\
  run_solver_t 1 plain_call plain_new ex_steps 3 ex_mus ex_oms = Ok (Some 2) /\
  @run_solver Z (exact_ops 1) ex_steps 3 ex_mus ex_oms = Ok (Some 2) /\
  run_solver_t 1 lazy_call plain_new ex_steps 3 ex_mus ex_oms = Ok (Some (-200)).
Proof. split; [exact ex_admissible|]. split; [exact ex_fuel|]. vm_compute. auto. Qed.
