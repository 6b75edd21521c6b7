(** * WrappedDouble's [operator<<] (src/include/WrappedDouble.hpp:40-41) and constructors

    [out << x.m_value] for a stream with the default format is
    [printf("%.6g", x)]: six significant digits of the exact value, ties to even,
    without trailing zeros, with an exponent if it is below -4 or above 5. *)
From Coq Require Import Strings.String Strings.Ascii.
From Coq Require Import Floats.SpecFloat.
From Verif Require Import Base Data Printing Text.
Local Open Scope Z_scope.

(** WrappedDouble.hpp:14; every int is a double *)
Definition wd_of_int (z : Z) : spec_float := f64_of_Z z.
(** WrappedDouble.hpp:13; a size_t is rounded to the nearest double *)
Definition wd_of_size (z : Z) : spec_float := f64_of_Z z.

(** the largest L with 10^L <= z, for [z >= 1] *)
Fixpoint log10_loop (fuel : nat) (z : Z) : Z :=
  match fuel with
  | O => 0
  | S fuel => if z <? 10 then 0 else 1 + log10_loop fuel (z / 10)
  end.
Definition log10 (z : Z) : Z := log10_loop (Z.to_nat (Z.log2 z)) z.

(** a / b > 0 rounded to six significant digits: the digits d, from 10^5 to
    10^6 - 1, and the exponent X, with the value d * 10^(X - 5). Doubles are above
    10^-400. *)
Definition significant (a b : Z) : Z * Z :=
  let X := log10 (a * 10 ^ 400 / b) - 400 in
  let d := half_even (a * 10 ^ Z.max 0 (5 - X)) (b * 10 ^ Z.max 0 (X - 5)) in
  if d =? 10 ^ 6 then (10 ^ 5, X + 1) else (d, X).

(** trailing zeros after the point, and the point if nothing is left after it;
    the text is given backwards *)
Fixpoint strip_back (t : list ascii) : list ascii :=
  match t with
  | "0"%char :: r => strip_back r
  | "."%char :: r => r
  | _ => t
  end.
Definition strip (t : list ascii) : list ascii := rev (strip_back (rev t)).

(** at least two digits of the exponent *)
Definition exponent_text (X : Z) : list ascii :=
  chars "e" ++ chars (if X <? 0 then "-" else "+") ++ (if Z.abs X <? 10 then chars "0" else []) ++ show (Z.abs X).

Definition general (a b : Z) : list ascii :=
  let '(d, X) := significant a b in
  if (-4 <=? X) && (X <=? 5) then strip (decimals (Z.to_nat (5 - X)) d)
  else strip (decimals 5 d) ++ exponent_text X.

(** WrappedDouble.hpp:40-41, the characters written; a NaN is written without its
    sign, which the model does not have *)
Definition wd_stream (x : spec_float) : list ascii :=
  match x with
  | S754_zero s => sign_text s ++ chars "0"
  | S754_infinity s => sign_text s ++ chars "inf"
  | S754_nan => chars "nan"
  | S754_finite s m e => sign_text s ++ general (Zpos m * 2 ^ Z.max 0 e) (2 ^ Z.max 0 (- e))
  end.
