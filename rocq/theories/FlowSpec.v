(** * Words used in the properties of [Flow]

    Nothing here uses a function of the model of Flow.cpp; only the fields of
    the state ([flows], [scaling], [imbalances]) and the given limits. *)
From Verif Require Import Base ProblemDefine Flow Spec.
Local Open Scope Z_scope.

(** ** Input *)
Definition limit_wf (n : nat) (M K : Z) (o : OmegaLimit Z) : Prop :=
  o_l o <= o_u o /\ defined_on (o_fn o) (o_l o) (o_u o) /\ convex_on (cost (o_fn o)) (o_l o) (o_u o) /\
  (forall t, o_l o <= t < o_u o -> - M <= cost (o_fn o) (t + 1) - cost (o_fn o) t <= M) /\
  (o_i o <= n)%nat /\ (o_j o <= n)%nat /\ - K <= o_l o /\ o_u o <= K.

(** the int computations of [Flow(n, M, U, limits)] fit *)
Definition flow_fits (n : nat) (K U : Z) : Prop :=
  0 <= U /\ 1 <= K /\ 2 * K <= INT_MAX /\ 2 * Z.of_nat (n + 1) <= INT_MAX /\ 4 * Z.of_nat (n + 1) * U <= INT_MAX /\
  (0 < U -> Z.of_nat n * (2 * Z.of_nat (n + 1) * K + 4 * bit_ceil (Z.of_nat (n + 1) * U)) <= INT_MAX).

Definition network_wf (n : nat) (M K U : Z) (limits : list (OmegaLimit Z)) : Prop :=
  0 <= M /\ (forall o, In o limits -> limit_wf n M K o) /\ flow_fits n K U.

(** number of main-loop iterations that suffices for a phase that starts from a
    [kap]-optimal circulation and uses steps of [h] *)
Definition phase_iterations (n m : nat) (kap h : Z) : Z :=
  Z.of_nat n * (kap + h) / h * (8 * Z.of_nat m + 3 * Z.of_nat (n + 1))
  + 6 * Z.of_nat m + 2 * Z.of_nat (n + 1).

(** iterations that suffice for every loop of [min_cost()] *)
Definition flow_iterations (n m : nat) (K : Z) : Z :=
  phase_iterations n m (2 * Z.of_nat (n + 1) * K) 1 + 33.

(** ** State *)
Definition flow_on (s : flow Z) (e : nat) : Z := nth e (f_flows s) 0.
Definition potential (s : flow Z) (v : nat) : Z := nth v (f_scal s) 0.
Definition imbalance (s : flow Z) (v : nat) : Z := nth v (f_imb s) 0.

(** flow into [v] minus flow out of [v]; limit [k] is edge [2k] from i to j *)
Definition net_inflow (limits : list (OmegaLimit Z)) (s : flow Z) (v : nat) : Z :=
  sumZ (map (fun k => let o := nth k limits OmegaLimit0 in
                      (if Nat.eqb (o_j o) v then flow_on s (2 * k) else 0)
                      - (if Nat.eqb (o_i o) v then flow_on s (2 * k) else 0)) (seq 0 (length limits))).

Definition circulation (n : nat) (M : Z) (limits : list (OmegaLimit Z)) (s : flow Z) : Prop :=
  length (f_flows s) = (2 * length limits)%nat /\
  (forall k, (k < length limits)%nat ->
     flow_on s (2 * k + 1) = - flow_on s (2 * k) /\ - M <= flow_on s (2 * k) <= M) /\
  (forall v, (v <= n)%nat -> imbalance s v = 0 /\ net_inflow limits s v = 0).

(** [kap]-optimality: in units of 1/(2(n+1)), every slope of the penalised cost
    to the left of the potential difference minus [kap] is at most the flow, and
    every slope to the right of the difference plus [kap] is at least the flow *)
Definition optimal_within (n : nat) (M kap : Z) (limits : list (OmegaLimit Z)) (s : flow Z) : Prop :=
  forall k o, nth_error limits k = Some o ->
    let d := potential s (o_i o) - potential s (o_j o) in
    let x := flow_on s (2 * k) in
    (forall t, 2 * Z.of_nat (n + 1) * t < d - kap -> penalised M o (t + 1) - penalised M o t <= x) /\
    (forall t, d + kap < 2 * Z.of_nat (n + 1) * (t + 1) -> x <= penalised M o (t + 1) - penalised M o t).

(** ** The states in which the phases of a run start
    [phase_state kap s]: the loop condition of Flow.cpp:31 is evaluated in state
    [s]; [kap] is the optimality error that [s] should have. *)
Inductive phase_state (fuel n : nat) (M K U : Z) (limits : list (OmegaLimit Z)) {ops : Data.DataOps Z}
  : Z -> flow Z -> Prop :=
| ps_first s :
    flow_new fuel n M U limits = Ok s ->
    phase_state fuel n M K U limits (2 * Z.of_nat (n + 1) * K) s
| ps_next kap s s' :
    phase_state fuel n M K U limits kap s -> 2 <= f_eps s -> phase fuel s = Ok s' ->
    phase_state fuel n M K U limits (Z.quot (f_eps s) 2) (with_eps s' (Z.quot (f_eps s') 2)).

(** ** Tests applied to every number of type Data that a run computes *)
Definition any_number (z : Z) : bool := true.
Definition within (B z : Z) : bool := Z.abs z <=? B.

(** the numbers of a run with [m] limits and slopes within [-M,M] *)
Definition size_bound (m : nat) (M : Z) : Z := 80 * (Z.of_nat m + 1) * M.
