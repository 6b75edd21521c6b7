(** * The tolerance of WrappedDouble

    Values of doubles are written in units of 2^-1074, of which every finite
    double is a multiple. *)
From Coq Require Import ZArith Floats.SpecFloat.
Local Open Scope Z_scope.

(** the double 1e-4 of WrappedDouble.hpp:46 is 7378697629483821 * 2^-66 *)
Definition tol : Z := 7378697629483821 * 2 ^ (1074 - 66).

(** [is_infinity s f]: f is the infinity of sign s *)
Definition is_infinity (s : bool) (f : spec_float) : bool :=
  match f with S754_infinity t => Bool.eqb s t | _ => false end.
