(** * Bounds on the loop turns of [Flow::min_cost] *)
From Verif Require Import Base WorkSpec.
Local Open Scope Z_scope.

(** turns of one call of a link-cut tree over the n + 1 nodes of the solver *)
Definition tree_turns (n : nat) : Z := 8 * Z.of_nat (n + 1) + 3.

(** turns of one step: at most four calls *)
Definition step_cost (n : nat) : Z := 4 * tree_turns n + 1.

(** turns of one round of Flow.cpp:31-35 whose loop 74-78 takes [steps] steps: the
    steps, the cuts of 80-82, the loops 59-70, the fill of 53 and the round itself *)
Definition round_cost (n m : nat) (steps : Z) : Z :=
  step_cost n * steps + Z.of_nat (n + 1) * (2 * tree_turns n + 1) + 2 * Z.of_nat m + 2 * Z.of_nat (n + 1) + 1.

(** turns of [r] rounds *)
Definition rounds_cost (n m : nat) (K U : Z) (r : nat) : Z :=
  match r with
  | O => 0
  | S r => round_cost n m (first_round_steps n m K U) + Z.of_nat r * round_cost n m (round_steps n m)
  end.

(** turns of min_cost() with [r] rounds; the minimum of one function takes at most
    32 turns (37-42) *)
Definition min_cost_turns (n m : nat) (K U : Z) (r : nat) : Z := rounds_cost n m K U r + 66 * Z.of_nat m.

(** turns of the constructors, merge_limits() and calc() for [k] omega limits *)
Definition setup_turns (n k : nat) : Z :=
  2 * Z.of_nat k * Z.of_nat k + 76 * Z.of_nat k + 50 * Z.of_nat n + 37.

(** turns of a whole run on [n] variables and [k] omega limits with all limits in
    [-K, K]; U is 1 in the worst case, and there are at most log2 (12 (n + 1) K)
    rounds *)
Definition solver_turns (n k : nat) (K : Z) : Z :=
  setup_turns n k + min_cost_turns n (k + n) (2 * K) 1 (Z.to_nat (Z.log2 (12 * Z.of_nat (n + 1) * K))).
