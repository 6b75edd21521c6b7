(** * The class [WrappedDouble] (src/include/WrappedDouble.hpp)

    The comparisons are modelled over any number type with addition,
    subtraction and comparisons, so that they can be read with exact numbers
    and with IEEE binary64.  [prettyPrint] is in Text.v; [operator<<] and the
    constructors from size_t and int are not modelled. *)
From Coq Require Import Floats.SpecFloat.
From Verif Require Import Base Data.
Local Open Scope Z_scope.

Section Wrapped.
Context {D : Type} {ops : DataOps D}.
Variable dabs : D -> D.         (* std::abs *)
Variable eps : D.               (* WrappedDouble.hpp:46 *)

(** WrappedDouble.hpp:27-30; [!(x > eps)] *)
Definition wd_eq (a b : D) : bool := negb (dlt eps (dabs (dsub a b))).
(** WrappedDouble.hpp:31-32 *)
Definition wd_lt (a b : D) : bool := dlt (dadd a eps) b.
(** WrappedDouble.hpp:33-34 *)
Definition wd_le (a b : D) : bool := dle (dsub a eps) b.
(** WrappedDouble.hpp:35-36; [x > y] is [y < x] *)
Definition wd_gt (a b : D) : bool := dlt b (dsub a eps).
(** WrappedDouble.hpp:37-38; [x >= y] is [y <= x] *)
Definition wd_ge (a b : D) : bool := dle b (dadd a eps).

(** WrappedDouble.hpp:18-25: arithmetic is that of the wrapped number, so as
    [Data] only the comparisons change.  [std::max] and [std::min] use [<]. *)
Definition wd_ops : DataOps D := {|
  dzero := dzero; done := done; dadd := dadd; dsub := dsub; dopp := dopp;
  dmuli := dmuli; dhalf := dhalf;
  dlt := wd_lt; dle := wd_le; deq := wd_eq
|}.
End Wrapped.

(** WrappedDouble.hpp:46, the double nearest to 1e-4: 7378697629483821 * 2^-66 *)
Definition eps64 : spec_float := S754_finite false 7378697629483821 (-66).

(** the class over doubles *)
Definition wd64_ops : DataOps spec_float := @wd_ops _ f64_ops SFabs eps64.

(** the class over exact numbers, with [Data(1)] = [one] *)
Definition wd_exact_ops (one eps : Z) : DataOps Z := @wd_ops _ (exact_ops one) Z.abs eps.
