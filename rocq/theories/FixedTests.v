(** * The fixed tests of test/test.cpp (lines 62-265)

    The framework testa is not part of the repository; TESTA_DEF_EQ_1(name, f,
    g, x) is taken to compare f(x) with g(x), here Test::bf_solve(x) with
    Test::fast_solve(x).  The costs are doubles as in the repository.  The
    arithmetic of the lambdas on int is checked for overflow. *)
From Coq Require Import Floats.SpecFloat.
From Verif Require Import Base Data ProblemDefine ProblemSolver Oracles CostScaling Generator TestSuite.
Local Open Scope Z_scope.

Section FixedTests.
Context {D : Type} {ops : DataOps D}.

(** an int returned where a Data is expected *)
Definition int_fn (f : Z -> res Z) : Fn D := fun x => v <- f x ;; Ok (of_int v).

(** [[](int) { return k; }] *)
Definition fn_const (k : Z) : Fn D := int_fn (fun _ => Ok k).
(** [[](int x) { return -x; }] and [[](int x) { return +x; }] *)
Definition fn_minus : Fn D := int_fn (fun x => ck (- x)).
Definition fn_plus : Fn D := int_fn (fun x => Ok x).
(** [[](int x) { return (x - d) * (x - d); }]; [d = -3] for [(x + 3) * (x + 3)] *)
Definition fn_square (d : Z) : Fn D := int_fn (fun x => y <- ck (x - d) ;; ck (y * y)).
(** [[](int x) { return a * x * x + b * x + c; }] *)
Definition fn_quad (a b c : Z) : Fn D :=
  int_fn (fun x => p <- ck (a * x) ;; p <- ck (p * x) ;; r <- ck (b * x) ;; s <- ck (p + r) ;; ck (s + c)).
Record fixed_test := mkFixed { x_n : nat; x_mus : list (MuLimit D); x_oms : list (OmegaLimit D) }.

Definition none : MuLimit D := no_node.

(** test.cpp:62-72 *)
Definition empty_graph : fixed_test := mkFixed 0 [none] [].
(** test.cpp:74-87 *)
Definition single_node_graph_1 : fixed_test := mkFixed 1 [none; mkMu (-9) 9 (fn_const 1)] [].
(** test.cpp:104-120 *)
Definition mini_graph_1 : fixed_test :=
  mkFixed 2 [none; mkMu (-2) 2 fn_minus; mkMu (-2) 2 fn_plus] [mkOm (-4) 4 (fn_square 3) 1 2].
(** test.cpp:122-138 *)
Definition mini_graph_2 : fixed_test :=
  mkFixed 2 [none; mkMu (-2) 2 fn_minus; mkMu (-2) 2 fn_plus] [mkOm (-4) 4 (fn_square (-3)) 1 2].
(** test.cpp:140-159 *)
Definition mini_graph_3 : fixed_test :=
  mkFixed 3
    [none; mkMu 0 0 (fn_quad 5 (-9) (-6)); mkMu 0 1 (fn_quad 8 8 (-6)); mkMu (-2) 1 (fn_quad 4 6 10)]
    [mkOm (-2) 3 (fn_quad 1 (-4) 9) 2 1; mkOm (-1) 3 (fn_quad 2 7 2) 3 2; mkOm 1 2 (fn_quad 2 8 (-2)) 3 1].
(** test.cpp:161-182 *)
Definition mini_graph_4 : fixed_test :=
  mkFixed 4
    [none; mkMu (-2) 0 (fn_quad 2 9 4); mkMu 1 2 (fn_quad 5 (-1) 6); mkMu (-1) 0 (fn_quad 0 10 5); mkMu 0 0 (fn_quad 0 10 5)]
    [mkOm 0 7 (fn_quad 4 9 (-1)) 2 4; mkOm 2 9 (fn_quad 8 5 (-7)) 1 4; mkOm 5 9 (fn_quad 10 9 4) 3 4; mkOm (-2) 1 (fn_quad 8 5 8) 1 2].
(** test.cpp:184-208 *)
Definition mini_graph_5 : fixed_test :=
  mkFixed 5
    [none; mkMu (-8) 0 (fn_quad 5 2 1); mkMu (-6) 3 (fn_quad 4 (-8) 4); mkMu (-10) (-10) (fn_quad 5 9 (-4));
     mkMu 4 5 (fn_quad 8 1 0); mkMu (-3) 0 (fn_quad 1 6 5)]
    [mkOm 10 12 (fn_quad 5 4 (-2)) 4 3; mkOm 10 15 (fn_quad 7 0 (-5)) 3 2; mkOm 17 20 (fn_quad 1 (-3) 0) 3 5;
     mkOm 12 18 (fn_quad 0 10 10) 5 1; mkOm 17 19 (fn_quad 1 (-7) 6) 3 1; mkOm 13 20 (fn_quad 3 (-3) (-8)) 4 5].
(** test.cpp:210-226 *)
Definition no_solution_1 : fixed_test :=
  mkFixed 2 [none; mkMu 0 0 (fn_const 0); mkMu 0 0 (fn_const 0)] [mkOm (-1) (-1) (fn_const 0) 1 2].
(** test.cpp:228-245 *)
Definition no_solution_2 : fixed_test :=
  mkFixed 2 [none; mkMu 0 3 (fn_const 0); mkMu 0 3 (fn_const 0)]
    [mkOm 0 1 (fn_const 0) 1 2; mkOm (-3) (-2) (fn_const 0) 2 1].
(** test.cpp:247-265 *)
Definition no_solution_3 : fixed_test :=
  mkFixed 3 [none; mkMu 0 0 (fn_const 0); mkMu 0 1 (fn_const 0); mkMu 0 0 (fn_const 0)]
    [mkOm (-1) (-1) (fn_const 0) 1 2; mkOm 0 0 (fn_const 0) 2 3].

(** the tests with int costs *)
Definition int_tests : list fixed_test := [
  empty_graph; single_node_graph_1; mini_graph_1; mini_graph_2; mini_graph_3; mini_graph_4; mini_graph_5;
  no_solution_1; no_solution_2; no_solution_3 ].

Definition fixed_fast (fuel : nat) (t : fixed_test) : res (option D) := run_solver fuel (Z.of_nat (x_n t)) (x_mus t) (x_oms t).
Definition fixed_bf (fuel : nat) (t : fixed_test) : res (option D) := bf_solve fuel (x_n t) (x_mus t) (x_oms t).

Definition run_fixed_test (fuel : nat) (t : fixed_test) : res unit :=
  a <- fixed_bf fuel t ;; b <- fixed_fast fuel t ;; assert_ (opt_eq a b).

End FixedTests.
Arguments fixed_test : clear implicits.

(** ** A cost with decimal fractions *)
(** the literals 1.2 and 3.4: a quotient of ints is rounded to the nearest
    double, as a literal is *)
Definition literal (a b : Z) : spec_float := SFdiv f64_prec f64_emax (f64_of_Z a) (f64_of_Z b).
(** [[](int x) { return (x - 1.2) * (x - 1.2) + 3.4; }] *)
Definition fn_decimal : Fn spec_float := fun x =>
  let y := SFsub f64_prec f64_emax (f64_of_Z x) (literal 12 10) in
  Ok (SFadd f64_prec f64_emax (SFmul f64_prec f64_emax y y) (literal 34 10)).

(** test.cpp:89-102 *)
Definition single_node_graph_2 : fixed_test spec_float := mkFixed 1 [@none spec_float; mkMu (-9) 9 fn_decimal] [].
Definition fixed_tests : list (fixed_test spec_float) := single_node_graph_2 :: @int_tests spec_float f64_ops.
