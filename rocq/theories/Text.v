(** * Texts with doubles: the text [info] of TinyGen and WrappedDouble::prettyPrint

    [printf("%.df", x)] is modelled as C requires with correct rounding: the exact
    value of the double, rounded to [d] decimals, ties to even (the rounding mode
    is never changed). *)
From Coq Require Import Strings.String Strings.Ascii.
From Coq Require Import Floats.SpecFloat.
From Verif Require Import Base Data ProblemDefine Generator Printing.
Local Open Scope Z_scope.

Definition tab : ascii := ascii_of_nat 9.
Definition newline : ascii := ascii_of_nat 10.

(** a / b rounded to the nearest integer, ties to even *)
Definition half_even (a b : Z) : Z :=
  let w := a / b in
  let r := a mod b in
  if 2 * r <? b then w else if b <? 2 * r then w + 1 else if Z.even w then w else w + 1.

(** the [d] last decimal digits of [v], with leading zeros *)
Fixpoint digits (d : nat) (v : Z) : list ascii :=
  match d with
  | O => []
  | S d => digits d (v / 10) ++ show (v mod 10)
  end.

(** v / 10^d with [d] decimals, for [v >= 0] *)
Definition decimals (d : nat) (v : Z) : list ascii :=
  show (v / 10 ^ Z.of_nat d) ++ chars "." ++ digits d (v mod 10 ^ Z.of_nat d).

Definition sign_text (s : bool) : list ascii := if s then chars "-" else [].

(** printf("%.df", x) for [d > 0] *)
Definition fixed (d : nat) (x : spec_float) : list ascii :=
  match x with
  | S754_zero s => sign_text s ++ decimals d 0
  | S754_infinity s => sign_text s ++ chars "inf"
  | S754_nan => chars "nan"
  | S754_finite s m e =>
      sign_text s ++ decimals d (half_even (Zpos m * 10 ^ Z.of_nat d * 2 ^ Z.max 0 e) (2 ^ Z.max 0 (- e)))
  end.

(** generator.cpp:24, the characters sprintf writes *)
Definition function_text (t : spec_float * spec_float * spec_float) : list ascii :=
  let '(a, b, c) := t in
  chars "[](int x) { return " ++ fixed 2 a ++ chars " * x * x + " ++ fixed 2 b ++ chars " * x + " ++ fixed 2 c ++ chars "; }".

(** generator.cpp:21-26: [static char buf[90]]; sprintf also writes a 0 at the end *)
Definition print_function_text (t : spec_float * spec_float * spec_float) : res (list ascii) :=
  let s := function_text t in
  if (length s <? 90)%nat then Ok s else Err OutOfBounds.

(** generator.cpp:75-83, one iteration *)
Definition node_line (i : Z * Z * (spec_float * spec_float * spec_float)) : res (list ascii) :=
  let '(l, u, t) := i in
  f <- print_function_text t ;;
  Ok ([tab; tab] ++ chars "{" ++ show l ++ chars ", " ++ show u ++ chars ", " ++ f ++ chars "}" ++ [newline]).

(** generator.cpp:85-98, one iteration *)
Definition edge_line (x : Z * Z * (spec_float * spec_float * spec_float) * nat * nat) : res (list ascii) :=
  let '(l, u, t, i, j) := x in
  f <- print_function_text t ;;
  Ok ([tab; tab] ++ chars "{{" ++ show l ++ chars ", " ++ show u ++ chars ", " ++ f ++ chars "}" ++ chars ", " ++
      show_size i ++ chars ", " ++ show_size j ++ chars "}" ++ [newline]).

(** [s += line] for every element *)
Fixpoint lines {A} (line : A -> res (list ascii)) (l : list A) : res (list ascii) :=
  match l with
  | [] => Ok []
  | a :: l => t <- line a ;; r <- lines line l ;; Ok (t ++ r)
  end.

(** generator.cpp:70-99.  [gr_info] holds what the loops 75-83 and 85-98 of
    [tiny_gen] read, in their order. *)
Definition info_text (g : graph spec_float) : res (list ascii) :=
  ns <- lines node_line (fst (gr_info g)) ;;
  es <- lines edge_line (snd (gr_info g)) ;;
  Ok (chars "{" ++ [newline] ++ [tab] ++ show (gr_n g) ++ [newline] ++
      [tab] ++ chars "{" ++ [newline; tab; tab] ++ chars "{}" ++ [newline] ++ ns ++ [tab] ++ chars "}" ++ [newline] ++
      [tab] ++ chars "{" ++ [newline] ++ es ++ [tab] ++ chars "}" ++ [newline] ++
      chars "}" ++ [newline]).

(** WrappedDouble.hpp:42-43, the new value of [out]; std::to_string(double) is
    printf("%f"), six decimals *)
Definition wd_pretty_print (x : spec_float) (out : list ascii) : list ascii := fixed 6 x.
