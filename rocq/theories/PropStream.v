(** * Properties C88 and C89: text and constructors of WrappedDouble *)
From Coq Require Import Strings.String Strings.Ascii.
From Coq Require Import Floats.SpecFloat QArith Qabs.
From Verif Require Import Base Data WrappedDouble FloatSpec WrappedSpec Printing Text TextSpec TextStream TextStreamProof StreamCases.
Local Open Scope Z_scope.

(** C88: operator<< writes a decimal number with at most six significant digits;
    no such number is nearer to the value, and it is within 0.0005 percent. *)
Theorem C88_stream_rounded : forall x z, f64_is 1074 x z ->
  exists v k, read_number (wd_stream x) = Some (v, k) /\ six_digits (units z) v k /\
    (apart (units z) (decimal v k) <= (1 # 200000) * Qabs (units z))%Q.
Proof. exact stream_rounded. Qed.
Print Assumptions C88_stream_rounded.

(** numbers with the same text differ by at most 0.0005 percent of either *)
Theorem C88_same_text : forall x y z w, f64_is 1074 x z -> f64_is 1074 y w -> wd_stream x = wd_stream y ->
  (apart (units z) (units w) <= (1 # 200000) * (Qabs (units z) + Qabs (units w)))%Q.
Proof. exact stream_same. Qed.
Print Assumptions C88_same_text.

(** an integer with at most six digits is written as such; there are two zeros *)
Theorem C88_integers : forall x n, f64_is 0 x n -> Z.abs n < 10 ^ 6 ->
  wd_stream x = show n \/ x = S754_zero true /\ n = 0 /\ wd_stream x = chars "-0".
Proof. exact stream_int. Qed.
Print Assumptions C88_integers.

(** The texts of numbers that are not [==] may be the same, as those of 1000000
    and 1000001, *)
Theorem C88_unequal_refuted : exists x y z w, f64_is 1074 x z /\ f64_is 1074 y w /\
  @wd_eq _ f64_ops SFabs eps64 x y = false /\ @wd_lt _ f64_ops eps64 x y = true /\ wd_stream x = wd_stream y.
Proof. exact unequal_same. Qed.
Print Assumptions C88_unequal_refuted.

(** and those of numbers that are [==] may differ: 0 and 0.00005. *)
Theorem C88_equal_refuted : exists x y z w, f64_is 1074 x z /\ f64_is 1074 y w /\
  @wd_eq _ f64_ops SFabs eps64 x y = true /\ wd_stream x <> wd_stream y.
Proof. exact equal_apart. Qed.
Print Assumptions C88_equal_refuted.

(** 2.0001; 2; -2^-80; the largest and the smallest double; 999999.5, half way
    between 999999 and 1000000; 0.0001; 0.0000125; an infinity *)
Example C88_example :
  f64_is 1074 (S754_finite false 4503824807351865 (-51)) (4503824807351865 * 2 ^ 1023) /\
  wd_stream (S754_finite false 4503824807351865 (-51)) = chars "2.0001" /\
  wd_stream (S754_finite false 4503599627370496 (-51)) = chars "2" /\
  wd_stream (S754_finite true 4503599627370496 (-132)) = chars "-8.27181e-25" /\
  wd_stream (S754_finite false 9007199254740991 971) = chars "1.79769e+308" /\
  wd_stream (S754_finite false 1 (-1074)) = chars "4.94066e-324" /\
  wd_stream (S754_finite false 8589930297032704 (-33)) = chars "1e+06" /\
  wd_stream eps64 = chars "0.0001" /\
  wd_stream (S754_finite false 7378697629483820 (-69)) = chars "1.25e-05" /\
  wd_stream (S754_infinity true) = chars "-inf" /\
  read_number (chars "-8.27181e-25") = Some (-827181, -30) /\ read_number (chars "2.0001") = Some (20001, -4) /\
  read_number (chars "1e+06") = Some (1, 6) /\ read_number (chars "1.") = Some (1, 0) /\ read_number (chars ".5") = None.
Proof. vm_compute. repeat split. Qed.

(** C89: the constructor from int is exact, and the ints keep their order and
    their text (up to six digits). *)
Theorem C89_int : forall z, INT_MIN <= z <= INT_MAX ->
  f64_is 0 (wd_of_int z) z /\ (Z.abs z < 10 ^ 6 -> wd_stream (wd_of_int z) = show z).
Proof. exact int_text. Qed.
Print Assumptions C89_int.

Theorem C89_int_order : forall a b, INT_MIN <= a <= INT_MAX -> INT_MIN <= b <= INT_MAX ->
  @wd_lt _ f64_ops eps64 (wd_of_int a) (wd_of_int b) = (a <? b) /\
  @wd_le _ f64_ops eps64 (wd_of_int a) (wd_of_int b) = (a <=? b) /\
  @wd_gt _ f64_ops eps64 (wd_of_int a) (wd_of_int b) = (b <? a) /\
  @wd_ge _ f64_ops eps64 (wd_of_int a) (wd_of_int b) = (b <=? a) /\
  @wd_eq _ f64_ops SFabs eps64 (wd_of_int a) (wd_of_int b) = (a =? b).
Proof. exact int_compare. Qed.
Print Assumptions C89_int_order.

(** The one from size_t is exact up to 2^53 and within a relative 2^-53 above; *)
Theorem C89_size : forall n, 0 <= n < 2 ^ 64 ->
  exists w, f64_is 1074 (wd_of_size n) w /\ 2 ^ 53 * Z.abs (w - n * 2 ^ 1074) <= n * 2 ^ 1074 /\ (n <= 2 ^ 53 -> w = n * 2 ^ 1074).
Proof. exact of_size. Qed.
Print Assumptions C89_size.

(** different sizes can become the same number. *)
Theorem C89_size_refuted : exists n n', 0 <= n < n' /\ n' < 2 ^ 64 /\ wd_of_size n = wd_of_size n'.
Proof. exact sizes_same. Qed.
Print Assumptions C89_size_refuted.

Example C89_example : wd_of_int (-3) = S754_finite true 6755399441055744 (-51) /\ wd_stream (wd_of_int (-3)) = chars "-3" /\
  wd_of_size (2 ^ 64 - 1) = S754_finite false 4503599627370496 12.
Proof. vm_compute. repeat split. Qed.
