(** * Machine integers as [Data]

    ProblemDefine.hpp:6-10 tells users to change [Data] to what they need. *)
From Verif Require Import Base Data.
Local Open Scope Z_scope.

(** [fits B x]: x lies within -B..B *)
Definition fits (B x : Z) : Prop := Z.abs x <= B.

(** Integer arithmetic that is right on numbers within -B..B as long as the
    result lies within -B..B, too; nothing is said about other results.  Division
    by two is needed on even numbers only. *)
Record machine_ops (B : Z) (ops : DataOps Z) : Prop := {
  mach_zero : @dzero Z ops = 0;
  mach_one : @done Z ops = 1;
  mach_add : forall a b, fits B a -> fits B b -> fits B (a + b) -> @dadd Z ops a b = a + b;
  mach_sub : forall a b, fits B a -> fits B b -> fits B (a - b) -> @dsub Z ops a b = a - b;
  mach_opp : forall a, fits B a -> @dopp Z ops a = - a;
  mach_mul : forall a w, fits B a -> INT_MIN <= w <= INT_MAX -> fits B (a * w) -> @dmuli Z ops a w = a * w;
  mach_half : forall a, fits B (2 * a) -> @dhalf Z ops (2 * a) = a;
  mach_lt : forall a b, fits B a -> fits B b -> @dlt Z ops a b = (a <? b);
  mach_le : forall a b, fits B a -> fits B b -> @dle Z ops a b = (a <=? b);
  mach_eq : forall a b, fits B a -> fits B b -> @deq Z ops a b = (a =? b)
}.

(** two's complement with [w] bits, overflow wraps around *)
Definition wrap (w x : Z) : Z := (x + 2 ^ (w - 1)) mod 2 ^ w - 2 ^ (w - 1).

Definition wrap_ops (w : Z) : DataOps Z := {|
  dzero := 0; done := 1;
  dadd := fun a b => wrap w (a + b); dsub := fun a b => wrap w (a - b); dopp := fun a => wrap w (- a);
  dmuli := fun a b => wrap w (a * b); dhalf := fun a => wrap w (Z.quot a 2);
  dlt := Z.ltb; dle := Z.leb; deq := Z.eqb
|}.
