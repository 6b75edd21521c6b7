(** * The type [Data] (src/include/ProblemDefine.hpp:15, 3rd/lct/LCT.hpp:9)

    The code uses on [Data] only the operations collected here.  The model is
    polymorphic in them, so that the same definitions run on exact numbers and
    on IEEE binary64. *)
From Coq Require Import ZArith Bool.
From Coq Require Import Floats.SpecFloat.
From Verif Require Import Base.

Class DataOps (D : Type) := {
  dzero : D;                    (* Data(0) *)
  done  : D;                    (* Data(1) *)
  dadd  : D -> D -> D;          (* a + b, a += b *)
  dsub  : D -> D -> D;          (* a - b, a -= b *)
  dopp  : D -> D;               (* -a *)
  dmuli : D -> Z -> D;          (* a * w with w an int *)
  dhalf : D -> D;               (* a /= 2 *)
  dlt   : D -> D -> bool;       (* a < b (and b > a) *)
  dle   : D -> D -> bool;       (* a <= b *)
  deq   : D -> D -> bool        (* a == b *)
}.

(** std::max: returns the first argument unless it is less than the second. *)
Definition dmax {D} `{DataOps D} (a b : D) : D := if dlt a b then b else a.

(** std::min: returns the first argument unless the second is less. *)
Definition dmin {D} `{DataOps D} (a b : D) : D := if dlt b a then b else a.

(** ** Exact instance
    [Data] counts multiples of [1/one].  Every finite double is a multiple of
    2^-1074, so with [one = 2^1074] every finite double is represented, and the
    code only adds, subtracts, negates, compares and multiplies by ints, all of
    which are exact here.  [dhalf] is exact on even numbers; the value the code
    halves is proved to be even. *)
Definition exact_ops (one : Z) : DataOps Z := {|
  dzero := 0%Z;
  done := one;
  dadd := Z.add;
  dsub := Z.sub;
  dopp := Z.opp;
  dmuli := Z.mul;
  dhalf := fun a => Z.quot a 2;
  dlt := Z.ltb;
  dle := Z.leb;
  deq := Z.eqb
|}.

(** ** IEEE binary64 instance, from the standard library's [SpecFloat]
    (round to nearest even; NaN compares false, as in C++). *)
Definition f64_prec : Z := 53%Z.
Definition f64_emax : Z := 1024%Z.
Definition f64_of_Z (z : Z) : spec_float :=
  binary_normalize f64_prec f64_emax z 0 false.

Definition f64_ops : DataOps spec_float := {|
  dzero := S754_zero false;
  done := f64_of_Z 1;
  dadd := SFadd f64_prec f64_emax;
  dsub := SFsub f64_prec f64_emax;
  dopp := SFopp;
  dmuli := fun a w => SFmul f64_prec f64_emax a (f64_of_Z w);
  dhalf := fun a => SFdiv f64_prec f64_emax a (f64_of_Z 2);
  dlt := SFltb;
  dle := SFleb;
  deq := SFeqb
|}.
