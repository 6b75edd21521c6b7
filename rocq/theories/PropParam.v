(** * Property C102: the parameters M and U of Flow *)
From Verif Require Import Base Data ProblemDefine Flow ProblemSolver Spec FlowSpec FlowProps ExampleData FlowParam.
Local Open Scope Z_scope.

(** C102: Flow may be given any larger M than [calc] computes, and any positive U, even one
    that is less than the width of a range: [min_cost] still exceeds the threshold iff the
    limits cannot be satisfied, and is the optimum if they can. *)
Theorem C102_any_parameters :
  forall (one : Z) (fuel n : nat) (K : Z) (limits : list (OmegaLimit Z)) (vmax M U M' U' : Z),
    0 < one -> (forall o, In o limits -> range_wf n K o) ->
    @calc Z (exact_ops one) fuel limits = Ok (vmax, M, U) -> M <= M' -> 0 < U' -> flow_fits n K U' ->
    flow_iterations n (length limits) K <= Z.of_nat fuel ->
    exists s s' v, @flow_new Z (exact_ops one) fuel n M' U' limits = Ok s /\ @min_cost Z (exact_ops one) fuel s = Ok (s', v) /\
      (vmax < v <-> forall nu, ~ satisfied limits nu) /\
      (v <= vmax -> (exists nu, satisfied limits nu /\ true_cost limits nu = v) /\
                    forall nu, satisfied limits nu -> v <= true_cost limits nu).
Proof. exact any_parameters. Qed.
Print Assumptions C102_any_parameters.

(** An M that exceeds all slopes is not enough. *)
Theorem C102_slopes_refuted :
  exists (n : nat) (M K U : Z) (limits : list (OmegaLimit Z)) (s s' : flow Z) (v : Z),
    network_wf n M K U limits /\ 0 < U /\ (forall o, In o limits -> o_u o - o_l o <= U) /\
    @flow_new Z (exact_ops 1) (Z.to_nat 3000) n M U limits = Ok s /\ @min_cost Z (exact_ops 1) (Z.to_nat 3000) s = Ok (s', v) /\
    (exists nu, satisfied limits nu) /\ forall nu, satisfied limits nu -> v < true_cost limits nu.
Proof. exact slopes_too_small. Qed.
Print Assumptions C102_slopes_refuted.

(** M and U of [calc]: 13 and 6; the same answer with others *)
Example C102_example :
  @calc Z (exact_ops 1) (Z.to_nat 100) pulled = Ok (12, 13, 6) /\ flow_fits 3 6 1 /\ flow_fits 3 6 7 /\
  flow_result (Z.to_nat 3000) 3 13 6 pulled = Ok (Ok 8) /\ flow_result (Z.to_nat 3000) 3 13 1 pulled = Ok (Ok 8) /\
  flow_result (Z.to_nat 3000) 3 500 7 pulled = Ok (Ok 8) /\ flow_result (Z.to_nat 3000) 3 1 6 pulled = Ok (Ok 4).
Proof.
  split; [vm_compute; reflexivity|]. split; [unfold flow_fits, INT_MAX; repeat split; try lia; intros _; vm_compute; discriminate|].
  split; [unfold flow_fits, INT_MAX; repeat split; try lia; intros _; vm_compute; discriminate|]. repeat split; vm_compute; reflexivity.
Qed.
