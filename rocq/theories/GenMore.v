(** * The other generators of 3rd/generator/gen.h

    RootTree and the subclasses of Graph.  None of them is used by the tests of
    the repository.  The classes *Chain and *Flower differ from their base class in
    [shift] only, which makes wnext use std::pow; they are in GenFar.v.

    The state of a graph object is the record [gen_graph] of Generator.v.  The
    settings a subclass forces (by its constructor and by overriding setters)
    are hypotheses of the theorems.  [std::vector<int> p(node)] throws for a
    negative [node]; this outcome is [Err OutOfBounds].  Reading an
    uninitialised variable is [Err BadCall]. *)
From Verif Require Import Base Data ProblemDefine CostScaling Generator.
Local Open Scope Z_scope.

(** gen.h:56-59 and the like: [std::vector<int> p(node)] with [p[i] = i] *)
Definition iota (node : Z) : res (list Z) :=
  if node <? 0 then Err OutOfBounds else Ok (map Z.of_nat (seq 0 (Z.to_nat node))).

(** testlib.h:885-890 *)
Definition any {A : Type} (fuel : nat) (l : list A) (seed : rng) : res (A * rng) :=
  if (length l =? 0)%nat then Err AssertFail
  else
    '(i, seed) <- next_int fuel (Z.of_nat (length l)) seed ;;
    x <- vget l (Z.to_nat i) ;;
    Ok (x, seed).

(** an index that may be negative *)
Definition zget {A : Type} (l : list A) (i : Z) : res A := if i <? 0 then Err OutOfBounds else vget l (Z.to_nat i).

(** [while(m--)] around a do-while loop that draws an edge; [k] rounds *)
Fixpoint add_drawn (draw : gen_graph -> rng -> res (Z * Z * rng)) (fuel k : nat) (m : Z) (g : gen_graph) (seed : rng)
  : res (gen_graph * rng) :=
  if m =? 0 then Ok (g, seed)
  else
    match k with
    | O => Err OutOfFuel
    | S k =>
        m <- ck (m - 1) ;;
        '(u, v, seed) <- draw g seed ;;
        '(g, seed) <- gen_add_edge fuel g u v seed ;;
        add_drawn draw fuel k m g seed
    end.

(** ** class RootTree
    gen.h:104-109, 114-117, 122-124: the constructor and the setters keep
    [root] at most node - 1 *)
Record root_tree := mkRoot { rt_node : Z; rt_root : Z; rt_rootfather : Z; rt_shift : Z }.
Definition new_root_tree (n rt rtf : Z) : root_tree := mkRoot n (Z.min rt (n - 1)) rtf 0.

(** gen.h:141-161; [father.resize(node)] fills with 0; the result is [edge]
    and [father] *)
Definition root_tree_run (fuel : nat) (t : root_tree) (seed : rng) : res (list (Z * Z) * list Z * rng) :=
  p <- iota (rt_node t) ;;
  let father := repeat 0 (length p) in
  p <- (if rt_root t <? 0 then Err OutOfBounds else vswap p 0 (Z.to_nat (rt_root t))) ;;
  '(p, seed) <- shuffle fuel 1 p seed ;;
  '(edge, father, seed) <- for_each (seq 1 (Z.to_nat (rt_node t) - 1)) ([], father, seed) (fun '(edge, father, seed) i =>
     '(f, seed) <- wnext fuel (Z.of_nat i) (rt_shift t) seed ;;
     pi <- vget p i ;;
     pf <- vget p (Z.to_nat f) ;;
     father <- vset father (Z.to_nat pi) pf ;;
     '(b, seed) <- next_int fuel 2 seed ;;
     Ok (edge ++ [if b =? 0 then (pf, pi) else (pi, pf)], father, seed)) ;;
  father <- vset father (Z.to_nat (rt_root t)) (rt_rootfather t) ;;
  '(edge, seed) <- shuffle fuel 0 edge seed ;;
  Ok (edge, father, seed).

(** ** class BipartiteGraph
    gen.h:409-421, the binary search; [limit] is not initialised *)
Fixpoint left_search (fuel : nat) (node m l r : Z) (limit : option Z) : res (option Z) :=
  if l <=? r then
    match fuel with
    | O => Err OutOfFuel
    | S fuel =>
        s <- ck (l + r) ;;
        let mid := Z.quot s 2 in
        d <- ck (node - mid) ;;
        a <- ck (mid * d) ;;
        if a <? m then left_search fuel node m (mid + 1) r limit
        else left_search fuel node m l (mid - 1) (Some r)
    end
  else Ok limit.

(** gen.h:456-459; [k] rounds *)
Fixpoint bipartite_draw (fuel k : nat) (part0 part1 : list Z) (g : gen_graph) (seed : rng) : res (Z * Z * rng) :=
  match k with
  | O => Err OutOfFuel
  | S k =>
      '(u, seed) <- any fuel part0 seed ;;
      '(v, seed) <- any fuel part1 seed ;;
      if judge_self_loop g u v || judge_multiply g u v then bipartite_draw fuel k part0 part1 g seed
      else Ok (u, v, seed)
  end.

(** gen.h:395-463; the conversions from long long to int are checked *)
Definition bipartite_run (fuel : nat) (g : gen_graph) (left : Z) (seed : rng) : res (gen_graph * rng) :=
  let g := with_edges g [] [] in
  let node := g_node g in
  m <- (if g_multiply g then Ok (g_side g)
        else
          n1 <- ck (node + 1) ;;
          m <- ck (Z.min (g_side g) (Z.quot node 2 * Z.quot n1 2)) ;;
          if left =? -1 then Ok m else d <- ck (node - left) ;; ck (Z.min (left * d) m)) ;;
  '(left, seed) <-
    (if left =? -1 then
       limit <- (if g_multiply g then Ok (Some 1) else left_search fuel node m 1 (Z.quot node 2) None) ;;
       limit <- match limit with None => Err BadCall | Some x => Ok x end ;;
       next_range fuel limit (Z.quot node 2) seed
     else Ok (left, seed)) ;;
  right <- ck (node - left) ;;
  p <- iota node ;;
  '(p, seed) <- shuffle fuel 0 p seed ;;
  let part0 := firstn (Z.to_nat left) p in
  let part1 := skipn (Z.to_nat left) p in
  '(m, g, seed) <-
    (if g_connect g then
       d <- ck (node - 1) ;;
       d <- ck (m - d) ;;
       let m := Z.max 0 d in
       '(g, seed) <- for_each (seq 0 (Z.to_nat (left - 1))) (g, seed) (fun '(g, seed) i =>
          a <- vget part0 i ;;
          b <- vget part1 i ;;
          '(g, seed) <- gen_add_edge fuel g a b seed ;;
          c <- vget part0 (i + 1)%nat ;;
          gen_add_edge fuel g b c seed) ;;
       '(g, seed) <- for_each (map (fun k => left - 1 + Z.of_nat k) (seq 0 (Z.to_nat (right - (left - 1))))) (g, seed) (fun '(g, seed) i =>
          '(v, seed) <- any fuel part0 seed ;;
          b <- zget part1 i ;;
          gen_add_edge fuel g b v seed) ;;
       Ok (m, g, seed)
     else Ok (m, g, seed)) ;;
  '(g, seed) <- add_drawn (bipartite_draw fuel fuel part0 part1) fuel fuel m g seed ;;
  '(edge, seed) <- shuffle fuel 0 (g_edge g) seed ;;
  Ok (with_edges g edge (g_e g), seed).

(** ** class DAG
    gen.h:526-532; [k] rounds *)
Fixpoint dag_draw (fuel k : nat) (p : list Z) (g : gen_graph) (seed : rng) : res (Z * Z * rng) :=
  match k with
  | O => Err OutOfFuel
  | S k =>
      '(u, seed) <- next_int fuel (g_node g) seed ;;
      '(v, seed) <- next_int fuel (g_node g) seed ;;
      let '(u, v) := if v <? u then (v, u) else (u, v) in
      a <- vget p (Z.to_nat u) ;;
      b <- vget p (Z.to_nat v) ;;
      if judge_self_loop g a b || judge_multiply g a b then dag_draw fuel k p g seed
      else Ok (a, b, seed)
  end.

(** gen.h:505-535 *)
Definition dag_run (fuel : nat) (g : gen_graph) (seed : rng) : res (gen_graph * rng) :=
  let g := with_edges g [] [] in
  let node := g_node g in
  p <- iota node ;;
  m <- (if g_multiply g then Ok (g_side g)
        else
          n1 <- ck (node - 1) ;;
          nn <- ck (node * n1) ;;
          Ok (Z.min (g_side g) (Z.quot nn 2))) ;;
  '(p, seed) <- shuffle fuel 0 p seed ;;
  '(m, g, seed) <-
    (if g_connect g then
       d <- ck (node - 1) ;;
       d <- ck (m - d) ;;
       '(g, seed) <- for_each (seq 1 (Z.to_nat node - 1)) (g, seed) (fun '(g, seed) i =>
          '(f, seed) <- next_int fuel (Z.of_nat i) seed ;;
          a <- vget p (Z.to_nat f) ;;
          b <- vget p i ;;
          gen_add_edge fuel g a b seed) ;;
       Ok (Z.max 0 d, g, seed)
     else Ok (m, g, seed)) ;;
  add_drawn (dag_draw fuel fuel p) fuel fuel m g seed.

(** ** class CycleGraph
    gen.h:552-559 *)
Definition new_cycle (n : Z) : gen_graph := mkGen n n [] [] false false false true.

(** gen.h:601-611, [GenGraph(std::vector<int> a)] *)
Definition cycle_from (fuel : nat) (g : gen_graph) (a : list Z) (seed : rng) : res (gen_graph * rng) :=
  let g := with_edges g [] [] in
  '(g, seed) <- for_each (seq 1 (length a - 1)) (g, seed) (fun '(g, seed) i =>
     x <- vget a i ;;
     y <- vget a (i - 1)%nat ;;
     gen_add_edge fuel g x y seed) ;;
  x <- vget a 0 ;;
  y <- vget a (length a - 1)%nat ;;
  if negb (judge_self_loop g x y) && negb (judge_multiply g x y) then gen_add_edge fuel g x y seed
  else Ok (g, seed).

(** gen.h:615-623 *)
Definition cycle_run (fuel : nat) (g : gen_graph) (seed : rng) : res (gen_graph * rng) :=
  p <- iota (g_node g) ;;
  '(p, seed) <- shuffle fuel 0 p seed ;;
  '(g, seed) <- cycle_from fuel g p seed ;;
  '(edge, seed) <- shuffle fuel 0 (g_edge g) seed ;;
  Ok (with_edges g edge (g_e g), seed).

(** ** class WheelGraph
    gen.h:640-647 *)
Definition new_wheel (n : Z) : gen_graph := mkGen n (2 * n - 2) [] [] false false false true.

(** gen.h:690-700, [GenGraph(int v, std::vector<int> p)] *)
Definition wheel_from (fuel : nat) (g : gen_graph) (v : Z) (p : list Z) (seed : rng) : res (gen_graph * rng) :=
  '(c, seed) <- cycle_from fuel (new_cycle 1) p seed ;;
  let g := with_edges g (g_edge c) [] in
  '(g, seed) <- for_each p (g, seed) (fun '(g, seed) x => gen_add_edge fuel g v x seed) ;;
  '(edge, seed) <- shuffle fuel 0 (g_edge g) seed ;;
  Ok (with_edges g edge (g_e g), seed).

(** gen.h:706-720, [GenGraph(std::vector<int> p)] and [GenGraph()] *)
Definition wheel_run (fuel : nat) (g : gen_graph) (seed : rng) : res (gen_graph * rng) :=
  p <- iota (g_node g) ;;
  '(p, seed) <- shuffle fuel 0 p seed ;;
  match p with
  | [] => Err OutOfBounds                              (* p.begin() + 1 *)
  | v :: pre => wheel_from fuel g v pre seed
  end.

(** ** classes PseudoTree, PseudoInTree, PseudoOutTree
    gen.h:913-934, 971-993, 1030-1052: the three bodies differ in the direction
    of the cycle ([round]) and in the order of the arguments of the last AddEdge
    ([out]: from the older node to the newer) *)
Definition pseudo_run (round out : bool) (fuel : nat) (g : gen_graph) (size : Z) (seed : rng) : res (gen_graph * rng) :=
  '(size, seed) <- (if size =? -1 then next_range fuel 3 (g_node g) seed else Ok (size, seed)) ;;
  let size := Z.min size (g_node g) in
  p <- iota (g_node g) ;;
  '(p, seed) <- shuffle fuel 0 p seed ;;
  _ <- (if size <? 0 then Err OutOfBounds else Ok tt) ;;     (* p.begin() + size *)
  let pre := firstn (Z.to_nat size) p in
  '(c, seed) <- cycle_from fuel (set_direction round (new_cycle 1)) pre seed ;;
  let g := with_edges g (g_edge c) [] in
  '(g, seed) <- for_each (seq (Z.to_nat size) (Z.to_nat (g_node g - size))) (g, seed) (fun '(g, seed) i =>
     '(f, seed) <- next_int fuel (Z.of_nat i) seed ;;
     a <- vget p i ;;
     b <- vget p (Z.to_nat f) ;;
     if out then gen_add_edge fuel g b a seed else gen_add_edge fuel g a b seed) ;;
  '(edge, seed) <- shuffle fuel 0 (g_edge g) seed ;;
  Ok (with_edges g edge (g_e g), seed).
Definition pseudo_tree_run := pseudo_run false false.
Definition pseudo_in_tree_run := pseudo_run true false.
Definition pseudo_out_tree_run := pseudo_run true true.
(** gen.h:858-865, 952-959, 1011-1018 *)
Definition new_pseudo (direction : bool) (n : Z) : gen_graph := mkGen n n [] [] direction false false true.

(** ** class Cactus
    gen.h:1070-1077 *)
Definition new_cactus (n m : Z) : gen_graph := mkGen n m [] [] false false false true.

(** gen.h:1127-1135, the cycles with two own nodes each; the first one has
    three *)
Definition cactus_cycles (p : list Z) (m : Z) : res (list (list Z)) :=
  for_each (seq 1 (Z.to_nat m)) [] (fun cycle j =>
    first <- (if (j =? 1)%nat then a <- vget p 0 ;; Ok [a] else Ok []) ;;
    b <- vget p (2 * j)%nat ;;
    c <- vget p (2 * j - 1)%nat ;;
    Ok (cycle ++ [first ++ [b; c]])).

(** gen.h:1149-1160, the cycles are joined *)
Definition cactus_join (fuel : nat) (cycle : list (list Z)) (seed : rng) : res (list (Z * Z) * rng) :=
  for_each (seq 0 (length cycle)) ([], seed) (fun '(edge, seed) i =>
    pre <- vget cycle i ;;
    '(pre, seed) <-
      (if (i =? 0)%nat then Ok (pre, seed)
       else
         '(w, seed) <- next_int fuel (Z.of_nat i) seed ;;
         c <- vget cycle (Z.to_nat w) ;;
         '(x, seed) <- any fuel c seed ;;
         Ok (pre ++ [x], seed)) ;;
    '(c, seed) <- cycle_from fuel (new_cycle 1) pre seed ;;
    Ok (edge ++ g_edge c, seed)).

(** gen.h:1109-1162; [side] is brought into range and stays so *)
Definition cactus_run (fuel : nat) (g : gen_graph) (seed : rng) : res (gen_graph * rng) :=
  let node := g_node g in
  n1 <- ck (node - 1) ;;
  max <- ck (n1 + Z.quot n1 2) ;;
  let side := if g_side g <? n1 then n1 else g_side g in
  let side := if max <? side then max else side in
  let g := set_side side (with_edges g [] []) in
  let m := side - n1 in
  p <- iota node ;;
  '(p, seed) <- shuffle fuel 0 p seed ;;
  cycle <- cactus_cycles p m ;;
  let up := node - (2 * m + 1) in
  '(add, seed) <- next_range fuel 0 up seed ;;
  let len := length cycle in
  let add := if (len =? 0)%nat then 0 else add in
  '(cycle, seed) <- for_each (seq (Z.to_nat (2 * m + 1)) (Z.to_nat add)) (cycle, seed) (fun '(cycle, seed) i =>
     '(w, seed) <- next_int fuel (Z.of_nat len) seed ;;
     c <- vget cycle (Z.to_nat w) ;;
     x <- vget p i ;;
     cycle <- vset cycle (Z.to_nat w) (c ++ [x]) ;;
     Ok (cycle, seed)) ;;
  cycle <- for_each (seq (Z.to_nat (2 * m + add + 1)) (Z.to_nat node - Z.to_nat (2 * m + add + 1))) cycle (fun cycle i =>
     x <- vget p i ;; Ok (cycle ++ [[x]])) ;;
  _ <- (if (length cycle =? 0)%nat then Err OutOfBounds else Ok tt) ;;       (* cycle.begin() + 1 *)
  '(cycle, seed) <- shuffle fuel 1 cycle seed ;;
  '(edge, seed) <- cactus_join fuel cycle seed ;;
  '(edge, seed) <- shuffle fuel 0 edge seed ;;
  Ok (with_edges g edge (g_e g), seed).

(** ** class GridGraph
    gen.h:745-752 *)
Definition new_grid (n m : Z) : gen_graph := mkGen n m [] [] false false false true.

(** gen.h:728-734 *)
Definition count_side (g : gen_graph) (x y : Z) : res Z :=
  y1 <- ck (y - 1) ;;
  a <- ck (x * y1) ;;
  x1 <- ck (x - 1) ;;
  b <- ck (y * x1) ;;
  c <- ck (a + b) ;;
  d <- ck (2 * Z.rem (y - Z.rem (g_node g) y) y) ;;
  s <- ck (c - d) ;;
  if g_direction g then ck (s * 2) else Ok s.

(** gen.h:777-791; [best] is [max], a pair *)
Definition grid_shapes (g : gen_graph) : res (Z * Z * list Z) :=
  for_each (map Z.of_nat (seq 1 (Z.to_nat (g_node g)))) (0, 0, []) (fun '(best, best_i, possible) i =>
    t <- ck (g_node g + i) ;;
    let y := Z.quot (t - 1) i in
    w <- count_side g y i ;;
    w <- (if g_direction g then ck (w * 2) else Ok w) ;;
    let '(best, best_i) := if best <? w then (w, i) else (best, best_i) in
    Ok (best, best_i, if g_side g <=? w then possible ++ [i] else possible)).

(** gen.h:830-836; [k] rounds *)
Fixpoint grid_draw (fuel k : nat) (p : list Z) (row column : Z) (g : gen_graph) (seed : rng) : res (Z * Z * rng) :=
  match k with
  | O => Err OutOfFuel
  | S k =>
      '(pos, seed) <- next_int fuel (g_node g) seed ;;
      '(d, seed) <- next_int fuel 4 seed ;;
      let px := Z.quot pos column + (if d =? 0 then 1 else if d =? 1 then -1 else 0) in
      let py := Z.rem pos column + (if d =? 2 then 1 else if d =? 3 then -1 else 0) in
      nxt <- ck (px * column + py) ;;
      if (px <? 0) || (row <=? px) || (py <? 0) || (column <=? py) || (g_node g <=? nxt) then grid_draw fuel k p row column g seed
      else
        a <- zget p pos ;;
        b <- zget p nxt ;;
        if judge_multiply g a b then grid_draw fuel k p row column g seed
        else Ok (a, b, seed)
  end.

(** gen.h:770-840 *)
Definition grid_run (fuel : nat) (g : gen_graph) (seed : rng) : res (gen_graph * rng) :=
  let g := with_edges g [] [] in
  let node := g_node g in
  p <- iota node ;;
  '(m, row, seed) <-
    (if g_multiply g then
       '(row, seed) <- next_range fuel 1 node seed ;; Ok (g_side g, row, seed)
     else
       '(best, best_i, possible) <- grid_shapes g ;;
       match possible with
       | [] => Ok (best, best_i, seed)
       | _ :: _ =>
           '(row, seed) <- any fuel possible seed ;;
           t <- ck (node + row) ;;
           m <- count_side g (Z.quot (t - 1) row) row ;;
           Ok (m, row, seed)
       end) ;;
  t <- ck (node + row) ;;
  _ <- (if row =? 0 then Err OutOfBounds else Ok tt) ;;                (* division by 0 *)
  let column := Z.quot (t - 1) row in
  d <- ck (m - (node - 1)) ;;
  let m := Z.max 0 d in
  '(p, seed) <- shuffle fuel 0 p seed ;;
  '(g, seed) <- for_each (map Z.of_nat (seq 0 (Z.to_nat row))) (g, seed) (fun '(g, seed) i =>
     '(g, seed) <- for_each (map Z.of_nat (seq 1 (Z.to_nat (column - 1)))) (g, seed) (fun '(g, seed) j =>
        x <- ck (i * column + j) ;;
        if node <=? x then Ok (g, seed)
        else
          a <- zget p x ;;
          b <- zget p (x - 1) ;;
          if Z.rem i 2 =? 0 then gen_add_edge fuel g b a seed else gen_add_edge fuel g a b seed) ;;
     x <- ck (i * column) ;;
     y <- ck ((i + 1) * column) ;;
     if (x <? node) && (y <? node) then
       a <- zget p x ;;
       b <- zget p y ;;
       gen_add_edge fuel g a b seed
     else Ok (g, seed)) ;;
  '(g, seed) <- add_drawn (grid_draw fuel fuel p row column) fuel fuel m g seed ;;
  '(edge, seed) <- shuffle fuel 0 (g_edge g) seed ;;
  Ok (with_edges g edge (g_e g), seed).
