(** * Bounds on the calls of the link-cut tree made by [Flow::min_cost] *)
From Verif Require Import Base WorkSpec.
Local Open Scope Z_scope.

(** calls in one round of Flow.cpp:31-35 whose loop 74-78 takes [steps] steps: at
    most four in every step, and two for every cut of 80-82 *)
Definition round_calls (n : nat) (steps : Z) : Z := 4 * steps + 2 * Z.of_nat (n + 1).

(** calls in [r] rounds *)
Definition min_cost_calls (n m : nat) (K U : Z) (r : nat) : Z :=
  match r with
  | O => 0
  | S r => round_calls n (first_round_steps n m K U) + Z.of_nat r * round_calls n (round_steps n m)
  end.
