(** * How often the cost functions are called: specification *)
From Verif Require Import Base Data ProblemDefine WorkSpec.
Local Open Scope Z_scope.

(** the cost function of variable [i], or of the omega limit at position [k] *)
Inductive user_fn := OfMu (i : nat) | OfOmega (k : nat).
(** a call of a cost function with its argument *)
Definition user_call : Type := user_fn * Z.

(** the call is one of a function of the problem inside its range *)
Definition inside (mus : list (MuLimit Z)) (oms : list (OmegaLimit Z)) (c : user_call) : Prop :=
  match fst c with
  | OfMu i => exists m, (1 <= i)%nat /\ nth_error mus i = Some m /\ m_l m <= snd c <= m_u m
  | OfOmega k => exists o, nth_error oms k = Some o /\ o_l o <= snd c <= o_u o
  end.

(** the number of omega limits between variables [i] and [j], in either order *)
Definition joins {D} (i j : nat) (o : OmegaLimit D) : bool :=
  (Nat.eqb (o_i o) i && Nat.eqb (o_j o) j) || (Nat.eqb (o_i o) j && Nat.eqb (o_j o) i).
Definition parallel {D} (oms : list (OmegaLimit D)) (i j : nat) : nat := length (filter (joins i j) oms).

(** halvings of a range of width [w] *)
Definition halvings (w : Z) : Z := if w <=? 0 then 0 else Z.log2 w + 1.

(** evaluations of functions of limits, for [n + 1] nodes and [m] limits of width at most [U]:
    in a round of Flow.cpp:31-35 with [steps] steps of the loop 74-78, *)
Definition round_evals (n m : nat) (steps : Z) : Z := 4 * steps + 2 * Z.of_nat (n + 1) + 4 * Z.of_nat m.
(** in [min_cost] with [r] rounds, *)
Definition min_cost_evals (n m : nat) (K U : Z) (r : nat) : Z :=
  match r with
  | O => 0
  | S r => round_evals n m (first_round_steps n m K U) + Z.of_nat r * round_evals n m (round_steps n m)
  end + 2 * Z.of_nat m * (2 * halvings U + 1).
(** and in [calc] *)
Definition calc_evals (m : nat) (U : Z) : Z := Z.of_nat m * (2 * halvings U + 5).

(** calls of cost functions in the constructor with [p] omega limits and in
    [solve], when at most [d] of them are between the same two variables *)
Definition solve_evals (n p m : nat) (K U : Z) (r d : nat) : Z :=
  2 * Z.of_nat p * halvings (2 * K) + Z.of_nat d * (calc_evals m U + min_cost_evals n m (2 * K) U r).
