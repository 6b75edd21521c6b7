(** * What the other generators of gen.h are supposed to produce *)
From Coq Require Import Permutation.
From Verif Require Import Base Generator GenSpec.
Local Open Scope Z_scope.

(** the list has every node 0..N-1 exactly once *)
Definition all_nodes (N : Z) (p : list Z) : Prop := NoDup p /\ forall x, In x p <-> 0 <= x < N.

(** the edges [E] are the edges [F] in some order, turned round at will if they
    have no direction *)
Definition drawn_as (directed : bool) (E F : list (Z * Z)) : Prop :=
  exists E0, Permutation E E0 /\ Forall2 (same_edge directed) E0 F.

(** the path through [a], from the last node to the first, and the cycle *)
Definition path_edges (a : list Z) : list (Z * Z) :=
  map (fun i => (nth i a 0, nth (i - 1) a 0)) (seq 1 (length a - 1)).
Definition ring_edges (a : list Z) : list (Z * Z) := path_edges a ++ [(nth 0 a 0, nth (length a - 1) a 0)].

(** connected, without loops and without repeated edges *)
Definition simple_connected (N : Z) (E : list (Z * Z)) : Prop :=
  nodes_in N E /\ (forall u v, In (u, v) E -> u <> v) /\ no_repetition false E /\ connected N E.

(** ** Rooted trees *)
(** [v] reaches [root] by going to the father again and again *)
Inductive below (father : list Z) (root : Z) : Z -> Prop :=
| below_root : below father root root
| below_child v : v <> root -> 0 <= v -> below father root (nth (Z.to_nat v) father 0) -> below father root v.

Definition rooted_tree (N root rootfather : Z) (father : list Z) (E : list (Z * Z)) : Prop :=
  Z.of_nat (length father) = N /\ nth (Z.to_nat root) father 0 = rootfather /\
  (forall v, 0 <= v < N -> v <> root -> 0 <= nth (Z.to_nat v) father 0 < N) /\
  (forall v, 0 <= v < N -> below father root v) /\
  exists q, all_nodes N (root :: q) /\ drawn_as false E (map (fun v => (v, nth (Z.to_nat v) father 0)) q).

(** ** Graphs with one cycle *)
(** the cycle has [k] nodes *)
Definition has_ring (directed : bool) (k : Z) (E : list (Z * Z)) : Prop :=
  exists c, NoDup c /\ Z.of_nat (length c) = k /\ forall e, In e (ring_edges c) -> exists e', In e' E /\ same_edge directed e' e.

(** ** Cactus graphs
    A cycle, to which further cycles and single edges are glued, each at one
    node. *)
Definition block_edges (a : list Z) : list (Z * Z) :=
  if (length a =? 2)%nat then path_edges a else ring_edges a.
Inductive cactus : list Z -> list (Z * Z) -> Prop :=
| cactus_ring a : NoDup a -> (3 <= length a)%nat -> cactus a (ring_edges a)
| cactus_glue l E a x : cactus l E -> In x l -> NoDup a -> a <> [] -> (forall y, In y a -> ~ In y l) ->
    cactus (l ++ a) (E ++ block_edges (a ++ [x])).

(** ** Graphs whose edges go upwards in some order of the nodes *)
Definition acyclic (E : list (Z * Z)) : Prop := exists rank : Z -> Z, forall u v, In (u, v) E -> rank u < rank v.

(** ** Graphs with two sides *)
Definition two_sides (A : list Z) (E : list (Z * Z)) : Prop :=
  forall u v, In (u, v) E -> (In u A /\ ~ In v A) \/ (~ In u A /\ In v A).

(** ** Grids
    The cells of a grid are numbered row by row; the last ones may be missing.
    [y] is right of or below [x]. *)
Definition beside (column x y : Z) : Prop := (y = x + 1 /\ y mod column <> 0) \/ y = x + column.
(** the cells hold the nodes [p] *)
Definition grid_like (p : list Z) (column : Z) (E : list (Z * Z)) : Prop :=
  forall u v, In (u, v) E -> exists x y, 0 <= x < Z.of_nat (length p) /\ 0 <= y < Z.of_nat (length p) /\
    u = nth (Z.to_nat x) p 0 /\ v = nth (Z.to_nat y) p 0 /\ (beside column x y \/ beside column y x).
(** the number of columns of a grid with [row] rows and [N] cells, and what the
    program takes for the number of pairs of neighbours *)
Definition columns (N row : Z) : Z := (N + row - 1) / row.
Definition grid_pairs (N row : Z) : Z :=
  columns N row * (row - 1) + row * (columns N row - 1) - 2 * (row * columns N row - N).

(** edges may go both ways *)
Definition ways (g : gen_graph) : Z := if g_direction g then 2 else 1.

(** the graph fills a grid with [row] rows *)
Definition grid_result (g : gen_graph) (row : Z) (E : list (Z * Z)) : Prop :=
  nodes_in (g_node g) E /\ (forall u v, In (u, v) E -> u <> v) /\ (g_multiply g = false -> no_repetition (g_direction g) E) /\ connected (g_node g) E /\
  exists p, all_nodes (g_node g) p /\ grid_like p (columns (g_node g) row) E.

(** the number of edges: that of the shape, where a shape with as many edges as
    asked for is taken if there is one *)
Definition grid_amount (g : gen_graph) (row : Z) (count : Z) : Prop :=
  if g_multiply g then count = Z.max (g_node g - 1) (g_side g)
  else (g_side g <= ways g * ways g * grid_pairs (g_node g) row /\ count = Z.max (g_node g - 1) (ways g * grid_pairs (g_node g) row)) \/
       ((forall r, 1 <= r <= g_node g -> ways g * ways g * grid_pairs (g_node g) r < g_side g /\ grid_pairs (g_node g) r <= grid_pairs (g_node g) row) /\
        count = Z.max (g_node g - 1) (ways g * ways g * grid_pairs (g_node g) row)).

(** ** Numbers of edges asked for *)
Definition dag_wanted (g : gen_graph) : Z :=
  let m := if g_multiply g then g_side g else Z.min (g_side g) (g_node g * (g_node g - 1) / 2) in
  if g_connect g then Z.max m (g_node g - 1) else m.
(** [left] is the size of one side, -1 if it is to be chosen *)
Definition bipartite_wanted (g : gen_graph) (left : Z) : Z :=
  let most := if left =? -1 then g_node g / 2 * ((g_node g + 1) / 2) else left * (g_node g - left) in
  let m := if g_multiply g then g_side g else Z.min (g_side g) most in
  if g_connect g then Z.max m (g_node g - 1) else m.
