(** * The text of generated graphs; WrappedDouble on all doubles *)
From Coq Require Import Strings.String Strings.Ascii Floats.SpecFloat.
From Verif Require Import Base Data WrappedDouble Generator GenSpec Printing Text FloatSpec WrappedSpec.
From Verif Require Import GenExample TextProof WrappedLaws TextTies.
Local Open Scope Z_scope.

(** C77: with double costs TinyGen writes its text without leaving the buffer of
    90 characters, *)
Theorem C77_info_text : forall (n mlimit : Z) (multi : bool) (node_limit edge_limit fun_limit : Z * Z) (sd s : Z) (fuel : nat),
  tiny_args n mlimit multi node_limit edge_limit fun_limit -> drawable multi n -> 2 ^ 48 + 2 <= Z.of_nat fuel ->
  exists g s' text, @tiny_gen spec_float f64_ops fuel n mlimit multi node_limit edge_limit fun_limit sd true ([], s) = Ok (g, ([], s')) /\
    info_text g = Ok text.
Proof. intros n ml multi nl el fl sd s fuel. exact (info_fits fuel n ml multi nl el fl sd s). Qed.
Print Assumptions C77_info_text.

(** every coefficient w/4 is shown exactly, *)
Theorem C77_coefficients : forall w, INT_MIN <= w <= INT_MAX ->
  exists whole tenths hundredths, fixed 2 (@quarter spec_float f64_ops w) =
      (if w <? 0 then chars "-" else []) ++ show whole ++ chars "." ++ show tenths ++ show hundredths /\
    0 <= whole /\ 0 <= tenths <= 9 /\ 0 <= hundredths <= 9 /\ 25 * Z.abs w = 100 * whole + 10 * tenths + hundredths.
Proof. exact quarter_shown. Qed.
Print Assumptions C77_coefficients.

(** and the text determines the graph, callbacks included. *)
Theorem C77_info_determines : forall fuel n mlimit multi node_limit edge_limit fun_limit sd s g st
    fuel' n' mlimit' multi' node_limit' edge_limit' fun_limit' sd' s' g' st' text,
  tiny_args n mlimit multi node_limit edge_limit fun_limit ->
  @tiny_gen spec_float f64_ops fuel n mlimit multi node_limit edge_limit fun_limit sd true ([], s) = Ok (g, st) ->
  tiny_args n' mlimit' multi' node_limit' edge_limit' fun_limit' ->
  @tiny_gen spec_float f64_ops fuel' n' mlimit' multi' node_limit' edge_limit' fun_limit' sd' true ([], s') = Ok (g', st') ->
  info_text g = Ok text -> info_text g' = Ok text ->
  gr_n g = gr_n g' /\ gr_m g = gr_m g' /\ gr_node g = gr_node g' /\ gr_edge g = gr_edge g'.
Proof. exact info_determines. Qed.
Print Assumptions C77_info_determines.

Example C77_example : tiny_args 2 3 false (-2, 2) (-2, 6) (-10, 10) /\
  match @tiny_gen spec_float f64_ops gen_steps 2 3 false (-2, 2) (-2, 6) (-10, 10) 1 true ([], 0) with
  | Ok (g, _) => info_text g = Ok (chars "{
	2
	{
		{}
		{-1, 1, [](int x) { return 0.50 * x * x + -7.75 * x + -4.75; }}
		{0, 2, [](int x) { return 1.25 * x * x + 0.75 * x + 7.00; }}
	}
	{
		{{-1, 4, [](int x) { return 4.25 * x * x + -5.25 * x + 2.50; }}, 1, 2}
	}
}
")
  | Err _ => False
  end.
Proof. split; [unfold tiny_args, int_range, INT_MIN, INT_MAX; cbn [fst snd]; lia|]. vm_compute. reflexivity. Qed.

(** the widest coefficients leave 11 of the 90 characters *)
Example C77_widest : INT_MIN <= -2147483645 <= INT_MAX /\
  length (function_text (@quarter spec_float f64_ops (-2147483645), @quarter spec_float f64_ops (-2147483645), @quarter spec_float f64_ops (-2147483645))) = 79%nat.
Proof. split; [unfold INT_MIN, INT_MAX; lia|]. vm_compute. reflexivity. Qed.

(** C78: what the comparisons of WrappedDouble say about the values compared; x, y
    are the values of a, b in units of 2^-1074 and [tol] is eps. *)
Theorem C78_comparisons : forall a b x y, f64_is 1074 a x -> f64_is 1074 b y ->
  @wd_ge _ f64_ops eps64 a b = negb (@wd_lt _ f64_ops eps64 a b) /\
  @wd_le _ f64_ops eps64 a b = negb (@wd_gt _ f64_ops eps64 a b) /\
  @wd_eq _ f64_ops SFabs eps64 a b = @wd_eq _ f64_ops SFabs eps64 b a /\
  (@wd_lt _ f64_ops eps64 a b = true -> x + tol < y) /\
  (Z.abs (x + tol) < 2 ^ 53 * (y - x - tol) -> @wd_lt _ f64_ops eps64 a b = true) /\
  (@wd_gt _ f64_ops eps64 a b = true -> y + tol < x) /\
  (Z.abs (x - tol) < 2 ^ 53 * (x - y - tol) -> @wd_gt _ f64_ops eps64 a b = true) /\
  (Z.abs (x - y) <= tol -> @wd_eq _ f64_ops SFabs eps64 a b = true) /\
  (@wd_eq _ f64_ops SFabs eps64 a b = true -> (2 ^ 53 - 1) * Z.abs (x - y) <= 2 ^ 53 * tol).
Proof. exact wrapped_compare. Qed.
Print Assumptions C78_comparisons.

(** [<] is a strict order *)
Theorem C78_strict_order : forall a b c x y z, f64_is 1074 a x -> f64_is 1074 b y -> f64_is 1074 c z ->
  @wd_lt _ f64_ops eps64 a a = false /\
  (@wd_lt _ f64_ops eps64 a b = true -> @wd_lt _ f64_ops eps64 b a = false) /\
  (@wd_lt _ f64_ops eps64 a b = true -> @wd_lt _ f64_ops eps64 b c = true -> @wd_lt _ f64_ops eps64 a c = true).
Proof. exact wrapped_strict. Qed.
Print Assumptions C78_strict_order.

(** An infinity compares as in the extended order and is [==] only to itself; *)
Theorem C78_infinity : forall s b, b <> S754_nan ->
  @wd_lt _ f64_ops eps64 (S754_infinity s) b = s && negb (is_infinity true b) /\
  @wd_gt _ f64_ops eps64 (S754_infinity s) b = negb s && negb (is_infinity false b) /\
  @wd_ge _ f64_ops eps64 (S754_infinity s) b = negb (@wd_lt _ f64_ops eps64 (S754_infinity s) b) /\
  @wd_le _ f64_ops eps64 (S754_infinity s) b = negb (@wd_gt _ f64_ops eps64 (S754_infinity s) b) /\
  @wd_eq _ f64_ops SFabs eps64 (S754_infinity s) b = is_infinity s b.
Proof. exact infinite_left. Qed.
Print Assumptions C78_infinity.

Theorem C78_below_infinity : forall a s x, f64_is 1074 a x ->
  @wd_lt _ f64_ops eps64 a (S754_infinity s) = negb s /\ @wd_gt _ f64_ops eps64 a (S754_infinity s) = s /\
  @wd_ge _ f64_ops eps64 a (S754_infinity s) = s /\ @wd_le _ f64_ops eps64 a (S754_infinity s) = negb s /\
  @wd_eq _ f64_ops SFabs eps64 a (S754_infinity s) = false.
Proof. exact infinite_finite. Qed.
Print Assumptions C78_below_infinity.

(** with NaN the four orders are false and [==] is true. *)
Theorem C78_nan : forall a b, a = S754_nan \/ b = S754_nan ->
  @wd_lt _ f64_ops eps64 a b = false /\ @wd_gt _ f64_ops eps64 a b = false /\
  @wd_ge _ f64_ops eps64 a b = false /\ @wd_le _ f64_ops eps64 a b = false /\
  @wd_eq _ f64_ops SFabs eps64 a b = true.
Proof. exact nan_either. Qed.
Print Assumptions C78_nan.

(** the largest double is below infinity, and its difference with its opposite overflows *)
Example C78_top :
  let a := S754_finite false 9007199254740991 971 in
  f64_is 1074 a (9007199254740991 * 2 ^ 2045) /\ @wd_lt _ f64_ops eps64 a (S754_infinity false) = true /\
  @wd_lt _ f64_ops eps64 (SFopp a) a = true /\ @wd_eq _ f64_ops SFabs eps64 a (SFopp a) = false /\ SFsub 53 1024 a (SFopp a) = S754_infinity false.
Proof. repeat split. Qed.

(** But of a < b, a == b, a > b two can hold, and b > a need not follow from
    a < b; *)
Theorem C78_exclusive_refuted : exists a b x y, f64_is 1074 a x /\ f64_is 1074 b y /\
  @wd_lt _ f64_ops eps64 a b = true /\ @wd_eq _ f64_ops SFabs eps64 a b = true /\ @wd_gt _ f64_ops eps64 b a = false.
Proof. exact below_and_equal. Qed.
Print Assumptions C78_exclusive_refuted.

(** none of the three may hold; *)
Theorem C78_total_refuted : exists a b x y, f64_is 1074 a x /\ f64_is 1074 b y /\
  @wd_lt _ f64_ops eps64 a b = false /\ @wd_gt _ f64_ops eps64 a b = false /\ @wd_eq _ f64_ops SFabs eps64 a b = false.
Proof. exact none_of_three. Qed.
Print Assumptions C78_total_refuted.

(** and [==] is not transitive. *)
Theorem C78_transitive_refuted : exists a b c x y z, f64_is 1074 a x /\ f64_is 1074 b y /\ f64_is 1074 c z /\
  @wd_eq _ f64_ops SFabs eps64 a b = true /\ @wd_eq _ f64_ops SFabs eps64 b c = true /\ @wd_eq _ f64_ops SFabs eps64 a c = false.
Proof. exact equal_not_transitive. Qed.
Print Assumptions C78_transitive_refuted.

(** 2 and 2.5 *)
Example C78_example :
  let a := S754_finite false 4503599627370496 (-51) in let b := S754_finite false 5629499534213120 (-51) in
  f64_is 1074 a (2 * 2 ^ 1074) /\ f64_is 1074 b (5 * 2 ^ 1073) /\
  Z.abs (2 * 2 ^ 1074 + tol) < 2 ^ 53 * (5 * 2 ^ 1073 - 2 * 2 ^ 1074 - tol) /\
  @wd_lt _ f64_ops eps64 a b = true /\ @wd_gt _ f64_ops eps64 a b = false /\ @wd_eq _ f64_ops SFabs eps64 a b = false.
Proof. repeat split. Qed.

(** C79: WrappedDouble::prettyPrint replaces the string; values with the same text
    differ by at most 1e-6 and so are [==]. *)
Theorem C79_same_text : forall a b x y out out', f64_is 1074 a x -> f64_is 1074 b y ->
  wd_pretty_print a out = wd_pretty_print b out' ->
  10 ^ 6 * Z.abs (x - y) <= 2 ^ 1074 /\ @wd_eq _ f64_ops SFabs eps64 a b = true.
Proof. exact text_equal. Qed.
Print Assumptions C79_same_text.

(** The text is a sign, a whole number, a point and six digits, and it is the
    nearest such number; of two nearest ones it is the one with an even last
    digit. *)
Theorem C79_rounded : forall x z out, f64_is 1074 x z ->
  exists s w a b c d e f, 0 <= w /\ (0 <= a <= 9 /\ 0 <= b <= 9 /\ 0 <= c <= 9 /\ 0 <= d <= 9 /\ 0 <= e <= 9 /\ 0 <= f <= 9) /\
    wd_pretty_print x out = (if (s : bool) then chars "-" else []) ++ show w ++ chars "." ++ show a ++ show b ++ show c ++ show d ++ show e ++ show f /\
    (let v := w * 10 ^ 6 + a * 10 ^ 5 + b * 10 ^ 4 + c * 10 ^ 3 + d * 10 ^ 2 + e * 10 + f in
     let error := Z.abs (z * 10 ^ 6 - (if s then - v else v) * 2 ^ 1074) in
     2 * error <= 2 ^ 1074 /\ (2 * error = 2 ^ 1074 -> Z.even f = true)) /\
    (z < 0 -> s = true) /\ (0 < z -> s = false).
Proof. exact text_rounded. Qed.
Print Assumptions C79_rounded.

(** equal values may have different texts: 0 and -0, 0 and 0.00001 *)
Theorem C79_equal_text_refuted : exists a b x y, f64_is 1074 a x /\ f64_is 1074 b y /\
  @wd_eq _ f64_ops SFabs eps64 a b = true /\ wd_pretty_print a [] <> wd_pretty_print b [].
Proof. exact equal_but_shown_apart. Qed.
Print Assumptions C79_equal_text_refuted.

(** unlike Graph::prettyPrint it does not append *)
Theorem C79_append_refuted : exists a out, wd_pretty_print a out <> out ++ wd_pretty_print a [].
Proof. exact pretty_print_replaces. Qed.
Print Assumptions C79_append_refuted.

(** 2.0001; 2^-21, between 0.0000004 and 0.0000005, shown as 0; 0.0078125, half
    way between two texts *)
Example C79_example :
  wd_pretty_print (S754_finite false 4503824807351865 (-51)) (chars "x = ") = chars "2.000100" /\
  wd_pretty_print (S754_finite false 4503599627370496 (-73)) [] = chars "0.000000" /\
  wd_pretty_print (S754_finite true 4503599627370496 (-72)) [] = chars "-0.000001" /\
  wd_pretty_print (S754_finite false 5629499534213120 (-51)) [] = chars "2.500000" /\
  f64_is 1074 (S754_finite false 4503599627370496 (-59)) (2 ^ 1067) /\
  wd_pretty_print (S754_finite false 4503599627370496 (-59)) [] = chars "0.007812".
Proof. vm_compute. repeat split. Qed.
