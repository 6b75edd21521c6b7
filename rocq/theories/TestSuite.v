(** * The tests themselves: test/test.cpp

    The framework testa is not part of the repository.  A test made by
    TESTA_DEF_VERIFY_WITH_TB(name, generator, verifier, function) is taken to
    call the generator with [name] and a callback that runs [function] on the
    given graph and hands the result and the graph to the verifier;
    TESTA_DEF_EQ_1(name, f, g, x) is taken to compare f(x) with g(x).  A failing
    comparison is [Err AssertFail]. *)
From Verif Require Import Base Data ProblemDefine ProblemSolver Oracles CostScaling Generator.
Local Open Scope Z_scope.

(** test.cpp:272-305: the arguments of TinyGen and the number of graphs for
    tests whose name starts with "Compare" and for the others *)
Record gen_spec := mkSpec {
  s_n : Z; s_m : Z; s_multi : bool; s_node : Z * Z; s_edge : Z * Z; s_fun : Z * Z; s_many : Z; s_few : Z }.

Definition SmallGen1 : gen_spec := mkSpec 5 10 false (-2, 2) (-2, 6) (-10, 10) 10000 100.
Definition SmallGen2 : gen_spec := mkSpec 4 10 true (-2, 2) (-2, 6) (-10, 10) 10000 100.
Definition HugeGen1 : gen_spec := mkSpec 50 100 false (-20, 20) (-20, 60) (-100, 100) 1000 10.
Definition HugeGen2 : gen_spec := mkSpec 50 200 true (-20, 20) (-20, 60) (-100, 100) 1000 10.
Definition HugeGen3 : gen_spec := mkSpec 100 300 true (-40, 40) (-40, 40) (-100, 100) 100 10.

(** Test::bf_solve, Test::simple_solve, Test::fast_solve; the three verifiers
    call the same functions *)
Inductive method := Exhaustive | Simple | Fast.

(** test.cpp:335-349; [t_compare]: the name starts with "Compare" *)
Record random_test := mkTest { t_compare : bool; t_gen : gen_spec; t_verifier : method; t_method : method }.

Definition random_tests : list random_test := [
  mkTest false SmallGen1 Exhaustive Simple;
  mkTest false SmallGen1 Exhaustive Fast;
  mkTest false SmallGen2 Exhaustive Simple;
  mkTest false SmallGen2 Exhaustive Fast;
  mkTest true SmallGen1 Simple Fast;
  mkTest true SmallGen2 Simple Fast;
  mkTest true HugeGen1 Simple Fast;
  mkTest true HugeGen2 Simple Fast;
  mkTest true HugeGen3 Simple Fast;
  mkTest false HugeGen1 Simple Simple;
  mkTest false HugeGen1 Fast Fast;
  mkTest false HugeGen2 Simple Simple;
  mkTest false HugeGen2 Fast Fast;
  mkTest false HugeGen3 Simple Simple;
  mkTest false HugeGen3 Fast Fast ].

Section TestSuite.
Context {D : Type} {ops : DataOps D}.

(** test.cpp:12-56 *)
Definition answer (m : method) (fuel : nat) (g : graph D) : res (option D) :=
  match m with
  | Exhaustive => bf_solve fuel (Z.to_nat (gr_n g)) (gr_node g) (gr_edge g)
  | Simple => simple_solve fuel (Z.to_nat (gr_n g)) (gr_node g) (gr_edge g)
  | Fast => run_solver fuel (gr_n g) (gr_node g) (gr_edge g)
  end.

(** operator== of std::optional *)
Definition opt_eq (a b : option D) : bool :=
  match a, b with
  | Some x, Some y => deq x y
  | None, None => true
  | _, _ => false
  end.

(** test.cpp:307-332 *)
Definition verify (m : method) (fuel : nat) (r : option D) (g : graph D) : res unit :=
  ans <- answer m fuel g ;; assert_ (opt_eq r ans).

(** one call of TinyGen with [gen_info = true] (generator.hpp) *)
Definition make (fuel : nat) (s : gen_spec) (i : nat) (st : fun_queue D * rng) : res (graph D * (fun_queue D * rng)) :=
  tiny_gen fuel (s_n s) (s_m s) (s_multi s) (s_node s) (s_edge s) (s_fun s) (Z.of_nat i) true st.

Definition run_random_test (fuel : nat) (t : random_test) (st : fun_queue D * rng) : res (fun_queue D * rng) :=
  let count := if t_compare t then s_many (t_gen t) else s_few (t_gen t) in
  for_each (seq 1 (Z.to_nat count)) st (fun st i =>
    '(g, st) <- make fuel (t_gen t) i st ;;
    r <- answer (t_method t) fuel g ;;
    _ <- verify (t_verifier t) fuel r g ;;
    Ok st).

End TestSuite.
