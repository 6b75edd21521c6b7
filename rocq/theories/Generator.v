(** * The random inputs of the test-suite: 3rd/generator, test/generator.cpp *)
From Verif Require Import Base Data ProblemDefine CostScaling.
Local Open Scope Z_scope.

(** ** testlib.h: class random_t
    The state is [seed], an unsigned long long.  [__testlib_fail], which ends
    the program, is [Err AssertFail]. *)
Definition rng : Type := Z.

(** testlib.h:1229-1231 *)
Definition rng_multiplier : Z := 25214903917.        (* 0x5DEECE66D *)
Definition rng_addend : Z := 11.                     (* 0xB *)
Definition rng_mask : Z := 2 ^ 48 - 1.

(** testlib.h:708 *)
Definition rng_step (seed : rng) : rng :=
  Z.land ((seed * rng_multiplier + rng_addend) mod 2 ^ 64) rng_mask.

(** testlib.h:706-710 for [bits <= 48] *)
Definition next_bits (bits : Z) (seed : rng) : Z * rng :=
  let seed := rng_step seed in (Z.shiftr seed (48 - bits), seed).

(** testlib.h:711-720 for [bits = 63]; [version] is -1 (testlib.h:1232), the
    tests never call registerGen, so [lowerBitCount] is 32 *)
Definition next_bits63 (seed : rng) : Z * rng :=
  let '(l, seed) := next_bits 31 seed in
  let '(r, seed) := next_bits 32 seed in
  (Z.lxor (Z.shiftl l 32) r, seed).

(** testlib.h:747-750 *)
Definition set_seed (s : Z) : rng := Z.land (Z.lxor s rng_multiplier) rng_mask.

(** testlib.h:779-782 and 801-804, the loop [do bits = ... while (bits >= limit)] *)
Fixpoint draw_below (fuel : nat) (gen : rng -> Z * rng) (limit : Z) (seed : rng) : res (Z * rng) :=
  match fuel with
  | O => Err OutOfFuel
  | S fuel =>
      let '(b, seed) := gen seed in
      if limit <=? b then draw_below fuel gen limit seed else Ok (b, seed)
  end.

(** testlib.h:770-785, [next(int n)] *)
Definition next_int (fuel : nat) (n : Z) (seed : rng) : res (Z * rng) :=
  if n <=? 0 then Err AssertFail
  else if Z.land n (- n) =? n then
    let '(b, seed) := next_bits 31 seed in Ok (Z.shiftr (n * b) 31, seed)
  else
    '(b, seed) <- draw_below fuel (next_bits 31) (INT_MAX / n * n) seed ;;
    Ok (b mod n, seed).

Definition LLONG_MAX : Z := 9223372036854775807.

(** testlib.h:795-807, [next(long long n)] *)
Definition next_ll (fuel : nat) (n : Z) (seed : rng) : res (Z * rng) :=
  if n <=? 0 then Err AssertFail
  else
    '(b, seed) <- draw_below fuel next_bits63 (LLONG_MAX / n * n) seed ;;
    Ok (b mod n, seed).

(** testlib.h:829-831, [next(int from, int to)]; the conversion to int is
    checked *)
Definition next_range (fuel : nat) (from to : Z) (seed : rng) : res (Z * rng) :=
  '(x, seed) <- next_ll fuel (to - from + 1) seed ;;
  r <- ck (x + from) ;;
  Ok (r, seed).

(** testlib.h:918-931, [wnext(int n, int type)] with [|type| < lim]; the loops
    [for (int i = 0; i < type; i++)] and [i < -type] *)
Definition wnext (fuel : nat) (n type : Z) (seed : rng) : res (Z * rng) :=
  if n <=? 0 then Err AssertFail
  else
    st <- next_int fuel n seed ;;
    st <- for_each (repeat tt (Z.to_nat type)) st (fun '(r, seed) _ =>
            '(x, seed) <- next_int fuel n seed ;; Ok (Z.max r x, seed)) ;;
    for_each (repeat tt (Z.to_nat (- type))) st (fun '(r, seed) _ =>
            '(x, seed) <- next_int fuel n seed ;; Ok (Z.min r x, seed)).

(** std::iter_swap *)
Definition vswap {A : Type} (l : list A) (i j : nat) : res (list A) :=
  a <- vget l i ;;
  b <- vget l j ;;
  l <- vset l i b ;;
  vset l j a.

(** testlib.h:4699-4704; the range is the part of [l] from [first] on *)
Definition shuffle {A : Type} (fuel : nat) (first : nat) (l : list A) (seed : rng) : res (list A * rng) :=
  for_each (seq 1 (length l - first - 1)) (l, seed) (fun '(l, seed) k =>
    w <- ck (Z.of_nat k + 1) ;;
    '(x, seed) <- next_int fuel w seed ;;
    l <- vswap l (first + k) (first + Z.to_nat x) ;;
    Ok (l, seed)).

(** ** gen.h: class UnrootTree
    gen.h:54-70; [shift] is 0 (gen.h:49) *)
Definition gen_tree (fuel : nat) (node : Z) (seed : rng) : res (list (Z * Z) * rng) :=
  let p := map Z.of_nat (seq 0 (Z.to_nat node)) in
  _ <- (if node <=? 0 then Err OutOfBounds else Ok tt) ;;       (* p.begin() + 1 *)
  '(p, seed) <- shuffle fuel 1 p seed ;;
  '(edge, seed) <- for_each (seq 1 (Z.to_nat node - 1)) ([], seed) (fun '(edge, seed) i =>
     '(f, seed) <- wnext fuel (Z.of_nat i) 0 seed ;;
     '(b, seed) <- next_int fuel 2 seed ;;
     pi <- vget p i ;;
     pf <- vget p (Z.to_nat f) ;;
     Ok (edge ++ [if b =? 0 then (pf, pi) else (pi, pf)], seed)) ;;
  shuffle fuel 0 edge seed.

(** ** gen.h: class Graph
    gen.h:196-222.  [g_e] holds the keys of the map [e] whose value is true. *)
Record gen_graph := mkGen {
  g_node : Z; g_side : Z; g_edge : list (Z * Z); g_e : list (Z * Z);
  g_direction : bool; g_multiply : bool; g_self_loop : bool; g_connect : bool }.

(** gen.h:260-267 *)
Definition gen_default : gen_graph := mkGen 1 0 [] [] false false false false.
(** gen.h:272-309 *)
Definition set_node (n : Z) (g : gen_graph) : gen_graph :=
  mkGen n (g_side g) (g_edge g) (g_e g) (g_direction g) (g_multiply g) (g_self_loop g) (g_connect g).
Definition set_side (m : Z) (g : gen_graph) : gen_graph :=
  mkGen (g_node g) m (g_edge g) (g_e g) (g_direction g) (g_multiply g) (g_self_loop g) (g_connect g).
Definition set_direction (f : bool) (g : gen_graph) : gen_graph :=
  mkGen (g_node g) (g_side g) (g_edge g) (g_e g) f (g_multiply g) (g_self_loop g) (g_connect g).
Definition set_multiply (f : bool) (g : gen_graph) : gen_graph :=
  mkGen (g_node g) (g_side g) (g_edge g) (g_e g) (g_direction g) f (g_self_loop g) (g_connect g).
Definition set_self_loop (f : bool) (g : gen_graph) : gen_graph :=
  mkGen (g_node g) (g_side g) (g_edge g) (g_e g) (g_direction g) (g_multiply g) f (g_connect g).
Definition set_connect (f : bool) (g : gen_graph) : gen_graph :=
  mkGen (g_node g) (g_side g) (g_edge g) (g_e g) (g_direction g) (g_multiply g) (g_self_loop g) f.
Definition with_edges (g : gen_graph) (edge e : list (Z * Z)) : gen_graph :=
  mkGen (g_node g) (g_side g) edge e (g_direction g) (g_multiply g) (g_self_loop g) (g_connect g).

Definition pair_eqb (a b : Z * Z) : bool := (fst a =? fst b) && (snd a =? snd b).
(** [e[{u,v}]] *)
Definition e_has (e : list (Z * Z)) (u v : Z) : bool := existsb (pair_eqb (u, v)) e.

(** gen.h:223-225 *)
Definition judge_self_loop (g : gen_graph) (u v : Z) : bool := negb (g_self_loop g) && (u =? v).
(** gen.h:226-231 *)
Definition judge_multiply (g : gen_graph) (u v : Z) : bool :=
  if g_multiply g then false
  else if e_has (g_e g) u v then true
  else negb (g_direction g) && e_has (g_e g) v u.

(** gen.h:232-249 *)
Definition gen_add_edge (fuel : nat) (g : gen_graph) (u v : Z) (seed : rng) : res (gen_graph * rng) :=
  '(edge, seed) <-
    (if g_direction g then Ok (g_edge g ++ [(u, v)], seed)
     else
       '(b, seed) <- next_int fuel 2 seed ;;
       Ok (g_edge g ++ [if b =? 0 then (v, u) else (u, v)], seed)) ;;
  let e := if g_multiply g then g_e g
           else (u, v) :: (if g_direction g then g_e g else (v, u) :: g_e g) in
  Ok (with_edges g edge e, seed).

(** gen.h:344-348, the loop that draws the next edge; [k] rounds *)
Fixpoint draw_edge (fuel k : nat) (g : gen_graph) (seed : rng) : res (Z * Z * rng) :=
  match k with
  | O => Err OutOfFuel
  | S k =>
      '(u, seed) <- next_int fuel (g_node g) seed ;;
      '(v, seed) <- next_int fuel (g_node g) seed ;;
      if judge_self_loop g u v || judge_multiply g u v then draw_edge fuel k g seed
      else Ok (u, v, seed)
  end.

(** gen.h:343-350, [while(m--)]; [k] rounds *)
Fixpoint gen_loop (fuel k : nat) (m : Z) (g : gen_graph) (seed : rng) : res (gen_graph * rng) :=
  if m =? 0 then Ok (g, seed)
  else
    match k with
    | O => Err OutOfFuel
    | S k =>
        m <- ck (m - 1) ;;
        '(u, v, seed) <- draw_edge fuel fuel g seed ;;
        '(g, seed) <- gen_add_edge fuel g u v seed ;;
        gen_loop fuel k m g seed
    end.

(** gen.h:319-352 *)
Definition gen_graph_run (fuel : nat) (g : gen_graph) (seed : rng) : res (gen_graph * rng) :=
  let g := with_edges g [] [] in
  let m :=
    if g_multiply g then g_side g
    else
      let max := Z.quot (g_node g * (g_node g - 1)) 2 in
      let max := if g_self_loop g then max + g_node g else max in
      let max := if g_direction g then max * 2 else max in
      Z.min (g_side g) max in
  '(m, g, seed) <-
    (if g_connect g then
       d <- ck (g_node g - 1) ;;
       m <- ck (m - d) ;;
       '(edge, seed) <- gen_tree fuel (g_node g) seed ;;
       Ok (Z.max 0 m, with_edges g edge edge, seed)
     else Ok (m, g, seed)) ;;
  '(g, seed) <- gen_loop fuel fuel m g seed ;;
  '(edge, seed) <- shuffle fuel 0 (g_edge g) seed ;;
  Ok (with_edges g edge (g_e g), seed).

(** ** test/generator.cpp *)
Section TinyGen.
Context {D : Type} {ops : DataOps D}.

(** [k / 4.0] for an int [k]; a division by a power of two, written as two
    halvings *)
Definition quarter (k : Z) : D := dhalf (dhalf (of_int k)).

(** generator.cpp:18, the returned lambda *)
Definition quadratic (a b c : D) : Fn D :=
  fun x => Ok (dadd (dadd (dmuli (dmuli a x) x) (dmuli b x)) c).

(** the queue [fun] of generator.cpp:9 *)
Definition fun_queue : Type := list (D * D * D).

(** generator.cpp:11-19 *)
Definition rand_f (fuel : nat) (lim : Z * Z) (gen_info : bool) (st : fun_queue * rng) : res (Fn D * (fun_queue * rng)) :=
  let '(l, r) := lim in
  let '(q, seed) := st in
  l0 <- ck (4 * Z.max 0 l) ;;
  r0 <- ck (4 * Z.max 0 r) ;;
  '(a, seed) <- next_range fuel l0 r0 seed ;;
  l4 <- ck (4 * l) ;;
  r4 <- ck (4 * r) ;;
  '(b, seed) <- next_range fuel l4 r4 seed ;;
  '(c, seed) <- next_range fuel l4 r4 seed ;;
  let '(a, b, c) := (quarter a, quarter b, quarter c) in
  Ok (quadratic a b c, (if gen_info then q ++ [(a, b, c)] else q, seed)).

(** generator.cpp:21-26: which coefficients are shown; the characters are in
    Text.v *)
Definition print_function (q : fun_queue) : res (D * D * D * fun_queue) :=
  match q with [] => Err EmptyQueue | t :: q => Ok (t, q) end.

(** generator.cpp:52-54, 61-63 *)
Definition rand_bounds (fuel : nat) (lim : Z * Z) (seed : rng) : res (Z * Z * rng) :=
  '(l, seed) <- next_range fuel (fst lim) (snd lim) seed ;;
  '(u, seed) <- next_range fuel (fst lim) (snd lim) seed ;;
  Ok (if u <? l then (u, l, seed) else (l, u, seed)).

(** Graph.hpp:10-21; [gr_info] is what the text [info] shows: the limits and
    the coefficients of every node and every edge *)
Record graph := mkGraph {
  gr_n : Z; gr_m : Z; gr_node : list (MuLimit D); gr_edge : list (OmegaLimit D);
  gr_info : list (Z * Z * (D * D * D)) * list (Z * Z * (D * D * D) * nat * nat) }.

(** a value-initialised Node: its function is empty *)
Definition no_node : MuLimit D := mkMu 0 0 (fun _ => Err BadCall).

(** generator.cpp:28-104 *)
Definition tiny_gen (fuel : nat) (n mlimit : Z) (multi : bool) (node_limit edge_limit fun_limit : Z * Z)
  (sd : Z) (gen_info : bool) (st : fun_queue * rng) : res (graph * (fun_queue * rng)) :=
  let '(q, seed) := st in
  mlimit <-
    (if multi then Ok mlimit
     else
       n1 <- ck (n - 1) ;;
       nn <- ck (n * n1) ;;
       Ok (Z.min mlimit (Z.quot nn 2))) ;;
  n1 <- ck (n - 1) ;;
  '(m, seed) <- next_range fuel n1 mlimit seed ;;
  let seed := set_seed sd in
  let g := set_multiply multi (set_side m (set_node n gen_default)) in
  '(g, seed) <- gen_graph_run fuel g seed ;;
  '(nodes, (q, seed)) <- for_each (seq 1 (Z.to_nat n)) ([no_node], (q, seed)) (fun '(nodes, (q, seed)) _ =>
     '(l, u, seed) <- rand_bounds fuel node_limit seed ;;
     '(f, st) <- rand_f fuel fun_limit gen_info (q, seed) ;;
     Ok (nodes ++ [mkMu l u f], st)) ;;
  '(edges, (q, seed)) <- for_each (g_edge g) ([], (q, seed)) (fun '(edges, (q, seed)) '(i, j) =>
     '(l, u, seed) <- rand_bounds fuel edge_limit seed ;;
     '(f, st) <- rand_f fuel fun_limit gen_info (q, seed) ;;
     i1 <- ck (i + 1) ;;
     j1 <- ck (j + 1) ;;
     Ok (edges ++ [mkOm l u f (Z.to_nat i1) (Z.to_nat j1)], st)) ;;
  if gen_info then
    '(i1, q) <- for_each (seq 1 (Z.to_nat n)) ([], q) (fun '(info, q) i =>
       x <- vget nodes i ;;
       '(t, q) <- print_function q ;;
       Ok (info ++ [(m_l x, m_u x, t)], q)) ;;
    '(i2, q) <- for_each (seq 0 (Z.to_nat m)) ([], q) (fun '(info, q) i =>
       x <- vget edges i ;;
       '(t, q) <- print_function q ;;
       Ok (info ++ [(o_l x, o_u x, t, o_i x, o_j x)], q)) ;;
    Ok (mkGraph n m nodes edges (i1, i2), (q, seed))
  else Ok (mkGraph n m nodes edges ([], []), (q, seed)).

End TinyGen.

Arguments graph : clear implicits.
Arguments fun_queue : clear implicits.
