(** * Property C119: the total work of min_cost() in closed form *)
From Verif Require Import Base Data LCT LCTSpec LCTRun LCTTime LCTAmortRun ProblemDefine Flow FlowSpec WorkSpec FlowLog CallSpec ClosedProof ExampleData.
Local Open Scope Z_scope.

(** C119: with N = n + 1 nodes and m limits, none further from 0 than U, the loop of
    refine() makes at most 24 N (m + N) (log2 (N U) + 2) iterations in all rounds together. *)
Theorem C119_iterations :
  forall (one : Z) (fuel n : nat) (M K U : Z) (limits : list (OmegaLimit Z)),
    network_wf n M K U limits ->
    flow_iterations n (length limits) K <= Z.of_nat fuel ->
    K <= U ->
    exists s s' ks,
      @flow_new Z (exact_ops one) fuel n M U limits = Ok s /\
      @scaling_loop Z (exact_ops one) fuel fuel s = Ok s' /\
      @phases_run (exact_ops one) fuel ks s s' /\
      Z.of_nat (length ks) <= Z.log2 (Z.of_nat (n + 1) * U) + 2 /\
      Z.of_nat (list_sum ks) <=
        24 * Z.of_nat (n + 1) * (Z.of_nat (length limits) + Z.of_nat (n + 1)) * (Z.log2 (Z.of_nat (n + 1) * U) + 2).
Proof. exact closed_iterations. Qed.
Print Assumptions C119_iterations.

(** C119: the calls of the link-cut tree, and all their turns of splaying *)
Theorem C119_splaying :
  forall (one : Z) (fuel n : nat) (M K U : Z) (limits : list (OmegaLimit Z)),
    network_wf n M K U limits ->
    flow_iterations n (length limits) K <= Z.of_nat fuel ->
    K <= U ->
    exists s s' v os outs c,
      @flow_new Z (exact_ops one) fuel n M U limits = Ok s /\
      min_cost_l one fuel s = Ok ((s', v), os) /\
      @min_cost Z (exact_ops one) fuel s = Ok (s', v) /\
      lct_calls_s one fuel (f_nodes s) os = Ok (f_nodes s', outs, c) /\
      Z.of_nat (length os) <=
        432 * Z.of_nat (n + 1) * (Z.of_nat (length limits) + Z.of_nat (n + 1)) * (Z.log2 (Z.of_nat (n + 1) * U) + 2) /\
      Z.of_nat c <=
        432 * Z.of_nat (n + 1) * (Z.of_nat (length limits) + Z.of_nat (n + 1)) * (Z.log2 (Z.of_nat (n + 1) * U) + 2)
        * (91 * Z.log2 (Z.of_nat (n + 1)) + 14).
Proof. exact closed_calls. Qed.
Print Assumptions C119_splaying.

(** the network of C93: 140 calls and 568 turns; the bounds are far above these *)
Example C119_example : network_wf 2 20 2 3 ex_limits /\ flow_iterations 2 4 2 <= Z.of_nat ex_steps /\ 2 <= 3 /\ length ex_limits = 4%nat /\
  24 * 3 * (4 + 3) * (Z.log2 (3 * 3) + 2) = 2520 /\ 432 * 3 * (4 + 3) * (Z.log2 (3 * 3) + 2) = 45360.
Proof. split; [exact ex_network_wf|]. split; [exact ex_flow_fuel|]. split; [lia|]. split; [reflexivity|]. split; reflexivity. Qed.
