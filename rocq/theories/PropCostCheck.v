(** * Properties C116 and C117: the assertions of CostScaling *)
From Coq Require Import Floats.SpecFloat.
From Verif Require Import Base Data ProblemDefine Flow Oracles CostScaling CostCheck CostCheckProof.
Local Open Scope Z_scope.

(** C116: test/CostScaling.cpp:43-45, as text in a comment, asserts after each
    push that the capacities of an arc and its reverse still add up to the
    capacity the arc was added with.  With exact numbers it cannot fail, whatever
    the arcs: MinCost with the assertion does what MinCost without it does. *)
Theorem C116_commented_assertion : forall one fuel n (arcs : list (InputEdge Z)),
  @cs_min_cost_c Z (exact_ops one) (@check_totals Z (exact_ops one) (totals arcs)) fuel n arcs = @cs_min_cost Z (exact_ops one) fuel n arcs.
Proof. exact check_exact. Qed.
Print Assumptions C116_commented_assertion.

(** The copy of MinCost used above differs from MinCost in the check only. *)
Theorem C116_copy : forall D (ops : DataOps D) fuel n (arcs : list (InputEdge D)),
  cs_min_cost_c (fun _ => Ok tt) fuel n arcs = cs_min_cost fuel n arcs.
Proof. exact (@check_none). Qed.
Print Assumptions C116_copy.

(** With doubles it can fail: the sums are rounded. *)
Theorem C116_double_refuted : exists n arcs v, @cs_min_cost spec_float f64_ops 300 n arcs = Ok (true, v) /\
  @cs_min_cost_c spec_float f64_ops (@check_totals _ f64_ops (totals arcs)) 300 n arcs = Err AssertFail.
Proof. exact check_double. Qed.
Print Assumptions C116_double_refuted.

(** The check does look at the capacities: a changed one is noticed. *)
Example C116_example :
  @check_totals Z (exact_ops 1) [5; 5] [mkArc None 1 1 3; mkArc None 0 (-1) 2] = Ok tt /\
  @check_totals Z (exact_ops 1) [5; 5] [mkArc None 1 1 3; mkArc None 0 (-1) 3] = Err AssertFail /\
  @cs_min_cost_c Z (exact_ops 64) (@check_totals Z (exact_ops 64) (totals [mkIn 0 1 1 1; mkIn 1 0 (-2) 1])) 300 2 [mkIn 0 1 1 1; mkIn 1 0 (-2) 1] = Ok (true, 1) /\
  @cs_min_cost_c Z (exact_ops 64) (@check_totals Z (exact_ops 64) [1; 2; 1; 1]) 300 2 [mkIn 0 1 1 1; mkIn 1 0 (-2) 1] = Err AssertFail.
Proof. repeat split; vm_compute; reflexivity. Qed.

(** C117: MinCost is not safe on every arc list.  An arc from a node to itself can
    make the assertion of modify() (test/CostScaling.cpp:54) fail, on arcs that
    MinCost deals with once that arc is left out; C44 needs its condition that
    the ends of an arc differ. *)
Theorem C117_self_loop_refuted : exists n arcs, Forall (fun e : InputEdge Z => (in_u e < n)%nat /\ (in_v e < n)%nat /\ 0 <= in_cap e) arcs /\
  @cs_min_cost Z (exact_ops 64) 300 n arcs = Err AssertFail /\
  @cs_min_cost Z (exact_ops 64) 300 n (filter (fun e => negb (in_u e =? in_v e)%nat) arcs) = Ok (true, 1).
Proof. exact loop_assert. Qed.
Print Assumptions C117_self_loop_refuted.
