(** * Node values read off the potentials that [Flow::min_cost] leaves behind

    Only fields of the state are used.  Potentials count units of 1/(2(n+1))
    (Flow.hpp:72). *)
From Verif Require Import Base ProblemDefine Flow Spec FlowSpec.
Local Open Scope Z_scope.

(** the potentials, moved by [theta] and rounded down to whole numbers *)
Definition rounded (n : nat) (theta : Z) (s : flow Z) (i : nat) : Z :=
  (potential s i + theta) / (2 * Z.of_nat (n + 1)).

(** no moved potential is a whole number *)
Definition offset_free (n : nat) (theta : Z) (s : flow Z) : Prop :=
  forall i, (i <= n)%nat -> (potential s i + theta) mod (2 * Z.of_nat (n + 1)) <> 0.

(** [y] is a circulation on the limits: at every node inflow equals outflow *)
Definition conserves (n : nat) (limits : list (OmegaLimit Z)) (y : nat -> Z) : Prop :=
  forall v, (v <= n)%nat ->
    sumZ (map (fun k => let o := nth k limits OmegaLimit0 in
                        (if Nat.eqb (o_j o) v then y k else 0) - (if Nat.eqb (o_i o) v then y k else 0)) (seq 0 (length limits))) = 0.

(** [a] is the least value of cost(w) - y w on the range of [o] *)
Definition least_tilted (o : OmegaLimit Z) (y a : Z) : Prop :=
  (exists w, o_l o <= w <= o_u o /\ cost (o_fn o) w - y * w = a) /\
  (forall w, o_l o <= w <= o_u o -> a <= cost (o_fn o) w - y * w).

(** [v] is the value of the circulation [y] *)
Definition dual_value (limits : list (OmegaLimit Z)) (y : nat -> Z) (v : Z) : Prop :=
  exists a, (forall k o, nth_error limits k = Some o -> least_tilted o (y k) (a k)) /\
    v = sumZ (map a (seq 0 (length limits))).
