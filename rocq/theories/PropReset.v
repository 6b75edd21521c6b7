(** * Property C106: nothing needs to be reset between rounds *)
From Verif Require Import Base Data UniqueQueue LCT ProblemDefine Flow Spec FlowSpec TreeFlow Reset ResetProof ExampleData.
Local Open Scope Z_scope.

(** C106: initialization() resets [current_edge] only; other resets are commented out.
    If all were carried out at the start of every round, with new nodes as well, min_cost()
    would return the same value and end with the same fields, nodes apart. *)
Theorem C106_resets_unneeded :
  forall (one : Z) (fuel n : nat) (M K U : Z) (limits : list (OmegaLimit Z)),
    network_wf n M K U limits ->
    flow_iterations n (length limits) K <= Z.of_nat fuel ->
    exists s s' t' v,
      @flow_new Z (exact_ops one) fuel n M U limits = Ok s /\
      @min_cost Z (exact_ops one) fuel s = Ok (s', v) /\
      @min_cost_full Z (exact_ops one) fuel s = Ok (t', v) /\
      strip s' = strip t'.
Proof. exact reset_nothing. Qed.
Print Assumptions C106_resets_unneeded.

(** the nodes do differ *)
Example C106_example :
  network_wf 2 20 2 3 ex_limits /\ flow_iterations 2 4 2 <= Z.of_nat ex_steps /\
  match @flow_new Z (exact_ops 1) ex_steps 2 20 3 ex_limits with
  | Ok s =>
      match @min_cost Z (exact_ops 1) ex_steps s, @min_cost_full Z (exact_ops 1) ex_steps s with
      | Ok (s', v), Ok (t', w) =>
          v = 8 /\ w = 8 /\ f_flows s' = f_flows t' /\ f_scal s' = f_scal t' /\
          map (@n_val Z) (f_nodes s') <> map (@n_val Z) (f_nodes t')
      | _, _ => False
      end
  | Err _ => False
  end.
Proof. split; [exact ex_network_wf|]. split; [exact ex_flow_fuel|]. vm_compute. repeat split; discriminate. Qed.
