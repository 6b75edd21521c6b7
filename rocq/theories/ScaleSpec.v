(** * What CostScaling::MinCost is supposed to compute

    This file mentions only the input type of MinCost: a list of arcs from
    [in_u] to [in_v] with a cost per unit and a capacity.  Capacities and flows
    are integers: multiples of a fixed unit. *)
From Verif Require Import Base ProblemDefine CostScaling Spec.
Local Open Scope Z_scope.

Definition arc_of (A : list (InputEdge Z)) (k : nat) : InputEdge Z := nth k A (mkIn 0 0 0 0).

(** flow into and out of node [v]; [y k] is the flow of arc [k] *)
Definition inflow (A : list (InputEdge Z)) (y : nat -> Z) (v : nat) : Z :=
  sumZ (map (fun k => if Nat.eqb (in_v (arc_of A k)) v then y k else 0) (seq 0 (length A))).
Definition outflow (A : list (InputEdge Z)) (y : nat -> Z) (v : nat) : Z :=
  sumZ (map (fun k => if Nat.eqb (in_u (arc_of A k)) v then y k else 0) (seq 0 (length A))).

(** nodes are 0..N-1 *)
Definition circulation (N : nat) (A : list (InputEdge Z)) (y : nat -> Z) : Prop :=
  (forall k, (k < length A)%nat -> 0 <= y k <= in_cap (arc_of A k)) /\
  (forall v, (v < N)%nat -> inflow A y v = outflow A y v).

Definition circulation_cost (A : list (InputEdge Z)) (y : nat -> Z) : Z :=
  sumZ (map (fun k => y k * in_cost (arc_of A k)) (seq 0 (length A))).

Definition least_cost (N : nat) (A : list (InputEdge Z)) (c : Z) : Prop :=
  (exists y, circulation N A y /\ circulation_cost A y = c) /\
  (forall y, circulation N A y -> c <= circulation_cost A y).

(** the arcs make sense: nodes exist, no loops, capacities not negative,
    costs at most [K] in absolute value *)
Definition arcs_wf (N : nat) (A : list (InputEdge Z)) (K : Z) : Prop :=
  forall a, In a A -> (in_u a < N)%nat /\ (in_v a < N)%nat /\ in_u a <> in_v a /\ 0 <= in_cap a /\ - K <= in_cost a <= K.

(** every negative cost below -1 of an arc that can carry flow is matched by an
    equally large positive cost of some arc (the initial epsilon looks at
    positive costs only) *)
Definition costs_covered (A : list (InputEdge Z)) : Prop :=
  forall a, In a A -> 0 < in_cap a -> in_cost a < -1 -> exists b, In b A /\ - in_cost a <= in_cost b.

(** number of loop rounds that suffice *)
Definition scaling_fuel (N : nat) (m : nat) (K : Z) : Z :=
  let n := Z.of_nat N in let k := Z.of_nat m in
  (7 * n * n + 1) * ((n + 1) * (2 * n * k) + n * n + 1) + Z.log2 (K * n) + 1.

(** ** SimpleSolver
    the differences between the largest and the smallest cost of every limit
    add up to at most [S] *)
Definition spread_within (n : nat) (mus : list (MuLimit Z)) (oms : list (OmegaLimit Z)) (S : Z) : Prop :=
  exists wm wo : nat -> Z,
    (forall i m x y, (1 <= i <= n)%nat -> nth_error mus i = Some m -> m_l m <= x <= m_u m -> m_l m <= y <= m_u m ->
       cost (m_fn m) x - cost (m_fn m) y <= wm i) /\
    (forall k o x y, nth_error oms k = Some o -> o_l o <= x <= o_u o -> o_l o <= y <= o_u o ->
       cost (o_fn o) x - cost (o_fn o) y <= wo k) /\
    sumZ (map wm (seq 1 n)) + sumZ (map wo (seq 0 (length oms))) <= S.

(** number of loop rounds that suffice; [k] omega limits *)
Definition simple_fuel (n k : nat) (K : Z) : Z :=
  scaling_fuel (n + 1) ((n + k) * Z.to_nat (6 * K + 2)) (2 * K) + 3 * K + 1.
