(** * Properties of the limits, of [calc] and of [Flow]

    [Ok] means: no int overflow, no access outside an object, no null
    dereference, no failing assert, no empty queue, no call of a callback where
    it is undefined, and every loop finished within [fuel] iterations. *)
From Verif Require Import Base Data ProblemDefine Flow ProblemSolver Spec FlowSpec FlowChecked.
From Verif Require Import FlowProps FlowStates ExampleData.
Local Open Scope Z_scope.

(** C05: if every range contains 0, an int that holds the documented number is
    enough; [INT_MAX] in [limit_wf] bounds the limits only by the type int. *)
Theorem C05_documented_capacity :
  forall (one : Z) (fuel n : nat) (M U : Z) (limits : list (OmegaLimit Z)),
    0 <= M -> 0 <= U ->
    6 * Z.of_nat (n + 1) * bit_ceil (Z.of_nat (n + 1) * U) <= INT_MAX ->
    (forall o, In o limits -> limit_wf n M INT_MAX o /\ o_l o <= 0 <= o_u o /\ o_u o - o_l o <= U) ->
    flow_iterations n (length limits) (Z.max 1 U) <= Z.of_nat fuel ->
    exists s s' v, @flow_new Z (exact_ops one) fuel n M U limits = Ok s /\
      @min_cost Z (exact_ops one) fuel s = Ok (s', v) /\ network_min M limits v.
Proof. exact documented_fits. Qed.
Print Assumptions C05_documented_capacity.

Example C05_example :
  6 * Z.of_nat (2 + 1) * bit_ceil (Z.of_nat (2 + 1) * 3) = 288 /\
  (exists s s', @flow_new Z (exact_ops 1) ex_steps 2 20 3 ex_limits = Ok s /\
     @min_cost Z (exact_ops 1) ex_steps s = Ok (s', 8)).
Proof. split; [reflexivity|apply flow_result_ok; vm_compute; reflexivity]. Qed.

(** C05: the documented bound alone is not enough: it does not depend on where
    the ranges lie. *)
Theorem C05_documented_capacity_refuted :
  exists (n : nat) (M U : Z) (limits : list (OmegaLimit Z)) (s : flow Z),
    6 * Z.of_nat (n + 1) * bit_ceil (Z.of_nat (n + 1) * U) <= INT_MAX /\
    (forall o, In o limits -> limit_wf n M INT_MAX o /\ o_u o - o_l o <= U) /\
    @flow_new Z (exact_ops 1) (Z.to_nat 2000) n M U limits = Ok s /\
    @min_cost Z (exact_ops 1) (Z.to_nat 2000) s = Err IntOverflow.
Proof. exact far_overflows. Qed.
Print Assumptions C05_documented_capacity_refuted.

(** C05: a bound that takes the position of the ranges into account. *)
Theorem C05_capacity :
  forall (one : Z) (fuel n : nat) (M K U : Z) (limits : list (OmegaLimit Z)),
    network_wf n M K U limits ->
    flow_iterations n (length limits) K <= Z.of_nat fuel ->
    consistent U limits ->
    exists s s' v, @flow_new Z (exact_ops one) fuel n M U limits = Ok s /\
      @min_cost Z (exact_ops one) fuel s = Ok (s', v) /\ network_min M limits v.
Proof. exact flow_min. Qed.
Print Assumptions C05_capacity.

(** C13: the minimum of a limit; [guard_om o] fails on every call outside the
    range. *)
Theorem C13_limit_min :
  forall (one : Z) (fuel : nat) (o : OmegaLimit Z),
    (32 <= fuel)%nat -> o_l o <= o_u o -> int_ok (o_l o) (o_u o) ->
    defined_on (o_fn o) (o_l o) (o_u o) -> convex_on (cost (o_fn o)) (o_l o) (o_u o) ->
    exists v, @limit_min Z (exact_ops one) fuel o = Ok v /\ @limit_min Z (exact_ops one) fuel (guard_om o) = Ok v /\
      (exists p, o_l o <= p <= o_u o /\ cost (o_fn o) p = v) /\
      (forall x, o_l o <= x <= o_u o -> v <= cost (o_fn o) x).
Proof. exact limit_min_prop. Qed.
Print Assumptions C13_limit_min.

Example C13_example : @limit_min Z (exact_ops 1) 32 (mkOm (-1000000) 2147483 (sq 3 1234567) 1 2) = Ok 0 /\
  @limit_min Z (exact_ops 1) 32 (guard_om (mkOm 5 9 (sq 2 3) 1 2)) = Ok 8.
Proof. split; vm_compute; reflexivity. Qed.

(** C14: preprocessing charges a difference d the cheapest omega >= d. *)
Theorem C14_pre_processing :
  forall (one : Z) (fuel : nat) (o : OmegaLimit Z),
    (32 <= fuel)%nat -> o_l o <= o_u o -> int_ok (o_l o) (o_u o) ->
    defined_on (o_fn o) (o_l o) (o_u o) -> convex_on (cost (o_fn o)) (o_l o) (o_u o) ->
    exists o', @pre_processing Z (exact_ops one) fuel o = Ok o' /\
      o_l o' = o_l o /\ o_u o' = o_u o /\ o_i o' = o_i o /\ o_j o' = o_j o /\
      (forall d, d <= o_u o -> exists v, o_fn o' d = Ok v /\
          (exists w, Z.max (o_l o) d <= w <= o_u o /\ cost (o_fn o) w = v) /\
          (forall w, Z.max (o_l o) d <= w <= o_u o -> v <= cost (o_fn o) w)) /\
      (forall d, d < o_u o -> cost (o_fn o') d <= cost (o_fn o') (d + 1)) /\
      (forall l', convex_on (cost (o_fn o')) l' (o_u o)).
Proof. exact pre_processing_prop. Qed.
Print Assumptions C14_pre_processing.

Example C14_example :
  match @pre_processing Z (exact_ops 1) 40 (mkOm (-5) 9 (sq 2 3) 1 2) with
  | Ok o' => map (o_fn o') [-100; -5; 2; 3; 4; 9]
  | Err _ => []
  end = [Ok 0; Ok 0; Ok 0; Ok 0; Ok 2; Ok 72].
Proof. vm_compute. reflexivity. Qed.

(** C15: reversing a limit, once and twice. *)
Theorem C15_reverse :
  forall (o : OmegaLimit Z),
    - INT_MAX <= o_l o -> o_l o <= o_u o -> o_u o <= INT_MAX ->
    exists o' o'', reverse o = Ok o' /\ reverse o' = Ok o'' /\
      o_i o' = o_j o /\ o_j o' = o_i o /\ o_l o' = - o_u o /\ o_u o' = - o_l o /\
      (forall d, o_l o <= d <= o_u o -> o_fn o' (- d) = o_fn o d) /\
      o_i o'' = o_i o /\ o_j o'' = o_j o /\ o_l o'' = o_l o /\ o_u o'' = o_u o /\
      (forall d, o_l o <= d <= o_u o -> o_fn o'' d = o_fn o d).
Proof. exact reverse_prop. Qed.
Print Assumptions C15_reverse.

Example C15_reverse_example :
  match reverse (mkOm (-5) 9 (sq 2 3) 1 2) with
  | Ok o' => Some (o_l o', o_u o', o_i o', o_j o', o_fn o' (-4))
  | Err _ => None
  end = Some (-9, 5, 2%nat, 1%nat, Ok 2).
Proof. vm_compute. reflexivity. Qed.

(** C15: merging two limits between the same nodes. *)
Theorem C15_merge :
  forall (one : Z) (o other : OmegaLimit Z),
    o_i o = o_i other -> o_j o = o_j other ->
    exists o' err, @merge Z (exact_ops one) o other = Ok (o', err) /\
      (forall d, o_l o' <= d <= o_u o' <-> (o_l o <= d <= o_u o) /\ (o_l other <= d <= o_u other)) /\
      (err = true <-> forall d, ~ ((o_l o <= d <= o_u o) /\ (o_l other <= d <= o_u other))) /\
      o_i o' = o_i o /\ o_j o' = o_j o /\
      (forall d a b, o_fn o d = Ok a -> o_fn other d = Ok b -> o_fn o' d = Ok (a + b)).
Proof. exact merge_prop. Qed.
Print Assumptions C15_merge.

Example C15_merge_example :
  let show x := match x with
                | Ok (o', err) => Some (o_l o', o_u o', o_fn o' 5, err)
                | Err _ => None
                end in
  show (@merge Z (exact_ops 1) (mkOm (-5) 9 (sq 2 3) 1 2) (mkOm 1 12 absf 1 2)) = Some (1, 9, Ok 13, false) /\
  show (@merge Z (exact_ops 1) (mkOm (-5) 0 (sq 2 3) 1 2) (mkOm 1 12 absf 1 2)) = Some (1, 0, Ok 13, true).
Proof. split; vm_compute; reflexivity. Qed.

(** C16: the threshold of [calc] separates satisfied from violated. *)
Theorem C16_threshold_separates :
  forall (one : Z) (fuel n : nat) (K : Z) (limits : list (OmegaLimit Z)),
    0 < one -> 0 <= K -> 2 * K <= INT_MAX ->
    (forall o, In o limits -> range_wf n K o) ->
    (32 <= fuel)%nat ->
    exists vmax M U,
      @calc Z (exact_ops one) fuel limits = Ok (vmax, M, U) /\ 0 <= M /\
      0 <= U <= 2 * K /\ (forall o, In o limits -> o_u o - o_l o <= U) /\
      (forall o, In o limits -> limit_wf n M K o) /\
      (forall nu, satisfied limits nu -> network_cost M limits nu = true_cost limits nu /\ true_cost limits nu <= vmax) /\
      (forall nu, ~ satisfied limits nu -> vmax < network_cost M limits nu).
Proof. exact calc_separates. Qed.
Print Assumptions C16_threshold_separates.

Example C16_example : exists vmax M U,
  @calc Z (exact_ops 1) ex_steps ex_limits = Ok (vmax, M, U) /\ (vmax, M, U) = (22, 25, 3) /\
  true_cost ex_limits (fun i => nth i [0; 0; 0] 0) = 8 /\
  network_cost M ex_limits (fun i => nth i [0; 0; -1] 0) = 32.
Proof. eexists _, _, _. repeat split; vm_compute; reflexivity. Qed.

(** C17: the flow value decides feasibility and is the optimum. *)
Theorem C17_flow_decides :
  forall (one : Z) (fuel n : nat) (K : Z) (limits : list (OmegaLimit Z)) (vmax M U : Z),
    0 < one -> (forall o, In o limits -> range_wf n K o) ->
    @calc Z (exact_ops one) fuel limits = Ok (vmax, M, U) -> flow_fits n K U -> consistent U limits ->
    flow_iterations n (length limits) K <= Z.of_nat fuel ->
    exists s s' v, @flow_new Z (exact_ops one) fuel n M U limits = Ok s /\
      @min_cost Z (exact_ops one) fuel s = Ok (s', v) /\
      network_min M limits v /\
      (vmax < v <-> forall nu, ~ satisfied limits nu) /\
      (v <= vmax -> (exists nu, satisfied limits nu /\ true_cost limits nu = v) /\
                    forall nu, satisfied limits nu -> v <= true_cost limits nu).
Proof. exact flow_decides. Qed.
Print Assumptions C17_flow_decides.

Example C17_example : network_wf 2 20 2 3 ex_limits /\ consistent 3 ex_limits /\
  exists s s', @flow_new Z (exact_ops 1) ex_steps 2 25 3 ex_limits = Ok s /\
    @min_cost Z (exact_ops 1) ex_steps s = Ok (s', 8).
Proof.
  split; [exact ex_network_wf|]. split; [intros H; discriminate H|].
  apply flow_result_ok. vm_compute. reflexivity.
Qed.

(** C17: without the consistency condition (only needed when every range is a
    single value) the returned value can be wrong. *)
Theorem C17_single_values_refuted :
  exists (n : nat) (M K U : Z) (limits : list (OmegaLimit Z)) (s s' : flow Z) (v : Z),
    network_wf n M K U limits /\
    @flow_new Z (exact_ops 1) (Z.to_nat 2000) n M U limits = Ok s /\
    @min_cost Z (exact_ops 1) (Z.to_nat 2000) s = Ok (s', v) /\
    ~ network_min M limits v.
Proof. exact clash_wrong. Qed.
Print Assumptions C17_single_values_refuted.

(** C18: every phase ends with a circulation. *)
Theorem C18_phase_circulation :
  forall (one : Z) (fuel n : nat) (M K U : Z) (limits : list (OmegaLimit Z)),
    network_wf n M K U limits ->
    flow_iterations n (length limits) K <= Z.of_nat fuel ->
    forall (kap : Z) (s : flow Z),
      @phase_state fuel n M K U limits (exact_ops one) kap s -> 2 <= f_eps s ->
      exists s', @phase Z (exact_ops one) fuel s = Ok s' /\ circulation n M limits s'.
Proof. exact phase_circulates. Qed.
Print Assumptions C18_phase_circulation.

(** C19: every phase halves the error; potentials do not decrease. *)
Theorem C19_phase_halves :
  forall (one : Z) (fuel n : nat) (M K U : Z) (limits : list (OmegaLimit Z)),
    network_wf n M K U limits ->
    flow_iterations n (length limits) K <= Z.of_nat fuel ->
    forall (kap : Z) (s : flow Z),
      @phase_state fuel n M K U limits (exact_ops one) kap s -> 2 <= f_eps s ->
      exists s', @phase Z (exact_ops one) fuel s = Ok s' /\ f_eps s' = f_eps s /\
        optimal_within n M (Z.quot (f_eps s) 2) limits s' /\
        (forall v, (v <= n)%nat -> potential s v <= potential s' v).
Proof. exact phase_halves. Qed.
Print Assumptions C19_phase_halves.

(** C20: the run in which every tree operation first checks its contract is the
    run of the code. *)
Theorem C20_phase_contract :
  forall (one : Z) (fuel n : nat) (M K U : Z) (limits : list (OmegaLimit Z)),
    network_wf n M K U limits ->
    flow_iterations n (length limits) K <= Z.of_nat fuel ->
    forall (kap : Z) (s : flow Z),
      @phase_state fuel n M K U limits (exact_ops one) kap s -> 2 <= f_eps s ->
      exists s', @phase Z (exact_ops one) fuel s = Ok s' /\ @phase_chk Z (exact_ops one) any_number fuel s = Ok s'.
Proof. exact phase_contract. Qed.
Print Assumptions C20_phase_contract.

(** C38: so is the run in which every computed number of type Data is also
    tested against the bound. *)
Theorem C38_phase_sizes :
  forall (one : Z) (fuel n : nat) (M K U : Z) (limits : list (OmegaLimit Z)),
    network_wf n M K U limits ->
    flow_iterations n (length limits) K <= Z.of_nat fuel ->
    forall (kap : Z) (s : flow Z),
      @phase_state fuel n M K U limits (exact_ops one) kap s -> 2 <= f_eps s ->
      exists s', @phase Z (exact_ops one) fuel s = Ok s' /\
        @phase_chk Z (exact_ops one) (within (size_bound (length limits) M)) fuel s = Ok s'.
Proof. exact phase_sizes. Qed.
Print Assumptions C38_phase_sizes.

(** C21: bounds on the potentials and on the iterations of the main loop. *)
Theorem C21_phase_work :
  forall (one : Z) (fuel n : nat) (M K U : Z) (limits : list (OmegaLimit Z)),
    network_wf n M K U limits ->
    flow_iterations n (length limits) K <= Z.of_nat fuel ->
    forall (kap : Z) (s : flow Z),
      @phase_state fuel n M K U limits (exact_ops one) kap s -> 2 <= f_eps s ->
      exists s1 s2 s',
        @push_all_admissible_edge Z (exact_ops one) (initialization s) = Ok s1 /\
        @refine_loop Z (exact_ops one) fuel
          (Z.to_nat (phase_iterations n (length limits) kap (Z.quot (f_eps s) 2) + 1)) s1 = Ok s2 /\
        @phase Z (exact_ops one) fuel s = Ok s' /\
        forall v, (v <= n)%nat -> exists r : nat,
          potential s' v = potential s v + Z.of_nat r * Z.quot (f_eps s) 2 /\
          Z.of_nat r * Z.quot (f_eps s) 2 <= Z.of_nat n * (kap + Z.quot (f_eps s) 2).
Proof. exact phase_work_bound. Qed.
Print Assumptions C21_phase_work.

(** C18-C21 and C38 apply to every phase of a run and to its last state. *)
Theorem C18_run_states :
  forall (one : Z) (fuel n : nat) (M K U : Z) (limits : list (OmegaLimit Z)),
    network_wf n M K U limits ->
    flow_iterations n (length limits) K <= Z.of_nat fuel ->
    forall (s : flow Z),
      consistent U limits -> @flow_new Z (exact_ops one) fuel n M U limits = Ok s ->
      exists s1 s2 v kap,
        @scaling_loop Z (exact_ops one) fuel fuel s = Ok s1 /\
        @scaling_loop_chk Z (exact_ops one) (within (size_bound (length limits) M)) fuel fuel s = Ok s1 /\
        @min_cost Z (exact_ops one) fuel s = Ok (s2, v) /\
        @phase_state fuel n M K U limits (exact_ops one) kap s1 /\ f_eps s1 < 2 /\
        circulation n M limits s1 /\ optimal_within n M kap limits s1.
Proof. exact run_states. Qed.
Print Assumptions C18_run_states.

(** the hypotheses of C18-C21 hold at the start of this run, and the phases move
    flow and potentials *)
Example C18_C21_example :
  network_wf 2 20 2 3 ex_limits /\ flow_iterations 2 4 2 <= Z.of_nat ex_steps /\
  exists s s', @phase_state ex_steps 2 20 2 3 ex_limits (exact_ops 1) 12 s /\ f_eps s = 32 /\
    @scaling_loop Z (exact_ops 1) ex_steps ex_steps s = Ok s' /\
    (f_flows s', f_imb s', f_scal s') = ([-3; 3; 3; -3; 2; -2; -1; 1], [0; 0; 0], [31; 31; 30]).
Proof.
  split; [exact ex_network_wf|]. split; [exact ex_flow_fuel|].
  edestruct (flow_trace_ok ex_steps 2 20 3 ex_limits) as (s & s' & E1 & E2 & E3 & E4); [vm_compute; reflexivity|].
  exists s, s'. split; [apply ps_first; exact E1|]. split; [exact E2|]. split; [exact E3|exact E4].
Qed.

(** C38: the test is not idle; in this run some number exceeds [2 * M]. *)
Example C38_example :
  size_bound 4 20 = 8000 /\
  exists s, @flow_new Z (exact_ops 1) ex_steps 2 20 3 ex_limits = Ok s /\
    @scaling_loop_chk Z (exact_ops 1) (within 40) ex_steps ex_steps s = Err AssertFail.
Proof. split; [reflexivity|]. apply flow_test_fails_ok. vm_compute. reflexivity. Qed.
