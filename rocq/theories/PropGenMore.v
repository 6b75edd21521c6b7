(** * Properties C69 to C75: the other generators of gen.h

    [root_tree_run], [cycle_run], [wheel_run], [pseudo_tree_run],
    [pseudo_in_tree_run], [pseudo_out_tree_run], [dag_run], [bipartite_run],
    [cactus_run] and [grid_run] are the GenTree and GenGraph functions of the
    classes of gen.h; [new_...] are the constructors. *)
From Verif Require Import Base Generator GenMore GenSpec GenMoreSpec.
From Verif Require Import GenTable GenShapes GenCactus GenMoreThm.
Local Open Scope Z_scope.

(** the edges of a result *)
Definition edges_of {S} (r : res (gen_graph * S)) : list (Z * Z) := match r with Ok (g, _) => g_edge g | Err _ => [] end.

(** C69: RootTree returns a tree with the wanted root, and the array of fathers
    describes the same tree. *)
Theorem C69_root_tree : forall (fuel : nat) (t : root_tree) (s : rng),
  1 <= rt_node t <= INT_MAX -> 0 <= rt_root t < rt_node t -> 2 ^ 48 + 2 <= Z.of_nat fuel ->
  exists E father s', root_tree_run fuel t s = Ok (E, father, s') /\ Z.of_nat (length E) = rt_node t - 1 /\ simple_connected (rt_node t) E /\
    rooted_tree (rt_node t) (rt_root t) (rt_rootfather t) father E.
Proof. exact root_tree_all. Qed.
Print Assumptions C69_root_tree.

Example C69_example : rt_node (new_root_tree 5 3 (-1)) = 5 /\ rt_root (new_root_tree 5 3 (-1)) = 3 /\
  root_tree_run 1000 (new_root_tree 5 3 (-1)) 1 = Ok ([(4, 1); (3, 0); (3, 1); (2, 3)], [3; 3; 3; -1; 1], 6056585619327).
Proof. repeat split; vm_compute; reflexivity. Qed.

(** C70: CycleGraph returns a cycle through all nodes, WheelGraph a cycle and a
    hub joined to all its nodes. *)
Theorem C70_cycle : forall (fuel : nat) (g : gen_graph) (s : rng),
  3 <= g_node g <= INT_MAX -> g_multiply g = false -> g_self_loop g = false -> 2 ^ 48 + 2 <= Z.of_nat fuel ->
  exists g' s', cycle_run fuel g s = Ok (g', s') /\ Z.of_nat (length (g_edge g')) = g_node g /\ simple_connected (g_node g) (g_edge g') /\
    exists p, all_nodes (g_node g) p /\ drawn_as (g_direction g) (g_edge g') (ring_edges p).
Proof. exact cycle_graph. Qed.
Print Assumptions C70_cycle.

Theorem C70_wheel : forall (fuel : nat) (g : gen_graph) (s : rng),
  4 <= g_node g -> 2 * g_node g <= INT_MAX -> g_multiply g = false -> g_self_loop g = false -> 2 ^ 48 + 2 <= Z.of_nat fuel ->
  exists g' s', wheel_run fuel g s = Ok (g', s') /\ Z.of_nat (length (g_edge g')) = 2 * g_node g - 2 /\ simple_connected (g_node g) (g_edge g') /\
    exists hub rim, all_nodes (g_node g) (hub :: rim) /\ drawn_as false (g_edge g') (ring_edges rim ++ map (fun x => (hub, x)) rim).
Proof. exact wheel_graph. Qed.
Print Assumptions C70_wheel.

Example C70_example : edges_of (cycle_run 1000 (new_cycle 5) 1) = [(0, 4); (0, 2); (2, 3); (1, 4); (1, 3)] /\
  edges_of (wheel_run 1000 (new_wheel 5) 1) = [(4, 2); (2, 0); (4, 1); (3, 1); (4, 3); (2, 3); (0, 4); (0, 1)].
Proof. split; vm_compute; reflexivity. Qed.

(** the numbers of edges are wrong for fewer nodes, and WheelGraph(1), which is
    the default, uses an iterator past the end *)
Theorem C70_small_cases :
  (exists g' s', cycle_run 1000 (new_cycle 2) 1 = Ok (g', s') /\ length (g_edge g') = 1%nat) /\
  (exists g' s', wheel_run 1000 (new_wheel 3) 1 = Ok (g', s') /\ length (g_edge g') = 3%nat) /\
  forall (fuel : nat) (s : rng), wheel_run fuel (new_wheel 1) s = Err OutOfBounds.
Proof. exact (conj cycle_2 (conj wheel_3 wheel_1)). Qed.
Print Assumptions C70_small_cases.

(** C71: the pseudo trees are connected, have as many edges as nodes, and a
    cycle of the wanted size; in an in-tree one edge leaves every node, in an
    out-tree one edge enters every node. *)
Theorem C71_pseudo_tree : forall (fuel : nat) (g : gen_graph) (size : Z) (s : rng),
  3 <= g_node g <= INT_MAX -> size = -1 \/ 3 <= size -> g_direction g = false -> 2 ^ 48 + 2 <= Z.of_nat fuel ->
  exists g' s', pseudo_tree_run fuel g size s = Ok (g', s') /\ Z.of_nat (length (g_edge g')) = g_node g /\ simple_connected (g_node g) (g_edge g') /\
    exists k, 3 <= k <= g_node g /\ (size <> -1 -> k = Z.min size (g_node g)) /\ has_ring false k (g_edge g').
Proof. exact pseudo_tree. Qed.
Print Assumptions C71_pseudo_tree.

Theorem C71_pseudo_in_tree : forall (fuel : nat) (g : gen_graph) (size : Z) (s : rng),
  3 <= g_node g <= INT_MAX -> size = -1 \/ 3 <= size -> g_direction g = true -> 2 ^ 48 + 2 <= Z.of_nat fuel ->
  exists g' s', pseudo_in_tree_run fuel g size s = Ok (g', s') /\ Z.of_nat (length (g_edge g')) = g_node g /\ simple_connected (g_node g) (g_edge g') /\
    all_nodes (g_node g) (map fst (g_edge g')) /\
    exists k, 3 <= k <= g_node g /\ (size <> -1 -> k = Z.min size (g_node g)) /\ has_ring true k (g_edge g').
Proof. exact pseudo_in_tree. Qed.
Print Assumptions C71_pseudo_in_tree.

Theorem C71_pseudo_out_tree : forall (fuel : nat) (g : gen_graph) (size : Z) (s : rng),
  3 <= g_node g <= INT_MAX -> size = -1 \/ 3 <= size -> g_direction g = true -> 2 ^ 48 + 2 <= Z.of_nat fuel ->
  exists g' s', pseudo_out_tree_run fuel g size s = Ok (g', s') /\ Z.of_nat (length (g_edge g')) = g_node g /\ simple_connected (g_node g) (g_edge g') /\
    all_nodes (g_node g) (map snd (g_edge g')) /\
    exists k, 3 <= k <= g_node g /\ (size <> -1 -> k = Z.min size (g_node g)) /\ has_ring true k (g_edge g').
Proof. exact pseudo_out_tree. Qed.
Print Assumptions C71_pseudo_out_tree.

Example C71_example :
  edges_of (pseudo_tree_run 1000 (new_pseudo false 6) (-1) 1) = [(0, 3); (3, 4); (1, 2); (3, 5); (2, 0); (2, 5)] /\
  edges_of (pseudo_in_tree_run 1000 (new_pseudo true 6) (-1) 1) = [(2, 0); (5, 2); (3, 5); (4, 3); (0, 3); (1, 5)] /\
  edges_of (pseudo_out_tree_run 1000 (new_pseudo true 6) 3 1) = [(5, 1); (5, 4); (2, 3); (2, 5); (1, 0); (4, 2)].
Proof. repeat split; vm_compute; reflexivity. Qed.

(** C72: DAG returns an acyclic graph with the wanted number of edges. *)
Theorem C72_dag : forall (fuel : nat) (g : gen_graph) (s : rng),
  1 <= g_node g <= INT_MAX -> 0 <= g_side g <= INT_MAX -> g_direction g = true -> g_self_loop g = false ->
  (g_multiply g = false -> g_node g * (g_node g - 1) <= INT_MAX) -> drawable (g_multiply g) (g_node g) -> 2 ^ 48 + 2 <= Z.of_nat fuel ->
  exists g' s', dag_run fuel g s = Ok (g', s') /\ Z.of_nat (length (g_edge g')) = dag_wanted g /\
     nodes_in (g_node g) (g_edge g') /\ acyclic (g_edge g') /\ (g_multiply g = false -> no_repetition true (g_edge g')) /\
     (g_connect g = true -> connected (g_node g) (g_edge g')).
Proof. exact dag_all. Qed.
Print Assumptions C72_dag.

Example C72_example : drawable false 5 /\
  edges_of (dag_run 1000 (mkGen 5 7 [] [] true false false true) 1) = [(4, 0); (4, 2); (2, 3); (3, 1); (0, 3); (2, 1); (0, 2)].
Proof. split; [exact drawable_5|vm_compute; reflexivity]. Qed.

(** with more nodes node * (node - 1) overflows, however few edges are asked for *)
Theorem C72_overflow : forall (fuel : nat) (g : gen_graph) (s : rng),
  46342 <= g_node g <= INT_MAX -> g_multiply g = false -> dag_run fuel g s = Err IntOverflow.
Proof. exact dag_overflow. Qed.
Print Assumptions C72_overflow.

(** C73: BipartiteGraph returns a graph all edges of which join the two sides,
    with the wanted number of edges; [left] is the size of one side, -1 if it
    is to be chosen. *)
Theorem C73_bipartite : forall (fuel : nat) (g : gen_graph) (left : Z) (s : rng),
  2 <= g_node g <= INT_MAX - 1 -> 0 <= g_side g <= INT_MAX -> g_self_loop g = false ->
  left = -1 /\ (g_multiply g = false -> g_node g / 2 * ((g_node g + 1) / 2) <= INT_MAX) \/
  1 <= left < g_node g /\ (g_connect g = true -> 2 * left <= g_node g + 1) ->
  (exists g' s', bipartite_run fuel g left s = Ok (g', s') /\
     Z.of_nat (length (g_edge g')) = bipartite_wanted g left /\ nodes_in (g_node g) (g_edge g') /\
     (g_multiply g = false -> no_repetition (g_direction g) (g_edge g')) /\ (g_connect g = true -> connected (g_node g) (g_edge g')) /\
     exists A, NoDup A /\ (forall x, In x A -> 0 <= x < g_node g) /\
       (if left =? -1 then 1 <= Z.of_nat (length A) <= g_node g / 2 else Z.of_nat (length A) = left) /\ two_sides A (g_edge g')) \/
  bipartite_run fuel g left s = Err OutOfFuel.
Proof. exact bipartite_all. Qed.
Print Assumptions C73_bipartite.

Example C73_example : edges_of (bipartite_run 1000 (mkGen 5 5 [] [] false false false true) (-1) 1) = [(4, 2); (0, 4); (1, 2); (3, 0); (1, 0)].
Proof. vm_compute. reflexivity. Qed.

(** with one node, which is the default, an uninitialised variable is read; with
    200000 nodes the search for the size overflows; with connect and a left
    side larger than the right one by 2 the vector is left *)
Theorem C73_other_cases :
  (exists g, g_node g = 1 /\ g_side g = 0 /\ forall (fuel : nat) (s : rng), bipartite_run fuel g (-1) s = Err BadCall) /\
  (exists g, g_node g = 200000 /\ g_side g = 100000 /\ forall (fuel : nat) (s : rng), (1 <= fuel)%nat -> bipartite_run fuel g (-1) s = Err IntOverflow) /\
  (exists g fuel s, g_node g = 4 /\ g_connect g = true /\ bipartite_run fuel g 3 s = Err OutOfBounds).
Proof.
  exact (conj (ex_intro _ lone (conj eq_refl (conj eq_refl lone_refutes))) (conj (ex_intro _ wide (conj eq_refl (conj eq_refl wide_refutes)))
    (ex_intro _ lopsided (ex_intro _ 1000%nat (ex_intro _ 1 (conj eq_refl (conj eq_refl lopsided_refutes))))))).
Qed.
Print Assumptions C73_other_cases.

(** C74: Cactus returns a cactus with the wanted number of edges. *)
Theorem C74_cactus : forall (fuel : nat) (g : gen_graph) (s : rng),
  3 <= g_node g <= g_side g -> g_node g - 1 + (g_node g - 1) / 2 <= INT_MAX -> 2 ^ 48 + 2 <= Z.of_nat fuel ->
  exists g' s', cactus_run fuel g s = Ok (g', s') /\
    Z.of_nat (length (g_edge g')) = Z.min (g_side g) (g_node g - 1 + (g_node g - 1) / 2) /\ simple_connected (g_node g) (g_edge g') /\
    exists l F, all_nodes (g_node g) l /\ cactus l F /\ drawn_as false (g_edge g') F.
Proof. exact cactus_graph. Qed.
Print Assumptions C74_cactus.

Example C74_example : edges_of (cactus_run 1000 (new_cactus 6 7) 1) = [(4, 5); (5, 2); (0, 1); (2, 3); (2, 1); (1, 3); (4, 2)].
Proof. vm_compute. reflexivity. Qed.

(** a cactus with fewer edges than nodes, in particular a tree, is never
    connected: a node is left out; with one node the vector is left *)
Theorem C74_node_left_out : forall (fuel : nat) (g : gen_graph) (s : rng),
  2 <= g_node g -> g_side g < g_node g -> g_node g - 1 + (g_node g - 1) / 2 <= INT_MAX -> 2 ^ 48 + 2 <= Z.of_nat fuel ->
  exists g' s', cactus_run fuel g s = Ok (g', s') /\ Z.of_nat (length (g_edge g')) = g_node g - 2 /\
    exists x, 0 <= x < g_node g /\ forall u v, In (u, v) (g_edge g') -> u <> x /\ v <> x.
Proof. exact cactus_tree. Qed.
Print Assumptions C74_node_left_out.

Theorem C74_one_node : forall (fuel : nat) (m : Z) (s : rng), 2 ^ 48 + 2 <= Z.of_nat fuel ->
  cactus_run fuel (new_cactus 1 m) s = Err OutOfBounds.
Proof. exact cactus_1. Qed.
Print Assumptions C74_one_node.

(** C75: GridGraph returns a connected graph whose edges join neighbouring
    cells of a grid; the number of edges is that of a shape chosen. *)
Theorem C75_grid : forall (fuel : nat) (g : gen_graph) (s : rng),
  2 <= g_node g -> 16 * g_node g <= INT_MAX -> 0 <= g_side g <= INT_MAX -> g_self_loop g = false ->
  (exists g' s' row, grid_run fuel g s = Ok (g', s') /\ 1 <= row <= g_node g /\
     grid_amount g row (Z.of_nat (length (g_edge g'))) /\ grid_result g row (g_edge g')) \/
  grid_run fuel g s = Err OutOfFuel.
Proof. exact grid_all. Qed.
Print Assumptions C75_grid.

Example C75_example : edges_of (grid_run 1000 (new_grid 6 7) 1) = [(3, 5); (4, 0); (3, 2); (3, 0); (0, 1); (5, 4); (1, 2)] /\ grid_pairs 6 2 = 7.
Proof. split; vm_compute; reflexivity. Qed.

(** the number of edges need not be the wanted one; the number of pairs of
    neighbours is not counted correctly; with one node and edges wanted there
    is a division by 0; with direction the program may run for ever *)
Theorem C75_side_refuted : exists fuel s g' s', grid_run fuel (new_grid 4 3) s = Ok (g', s') /\ length (g_edge g') <> 3%nat.
Proof. exact (ex_intro _ 1000%nat (ex_intro _ 200000000 grid_ignores)). Qed.
Print Assumptions C75_side_refuted.

Theorem C75_pairs_refuted : exists N row l, 1 <= row <= N /\ NoDup l /\
  (forall x y, In (x, y) l -> 0 <= x < N /\ 0 <= y < N /\ beside (columns N row) x y) /\ grid_pairs N row < Z.of_nat (length l).
Proof. exact grid_miscounts. Qed.
Print Assumptions C75_pairs_refuted.

Theorem C75_one_node : forall (fuel : nat) (m : Z) (s : rng), 0 < m <= INT_MAX -> grid_run fuel (new_grid 1 m) s = Err OutOfBounds.
Proof. exact grid_1. Qed.
Print Assumptions C75_one_node.

Theorem C75_directed_refuted : exists g, g_node g = 2 /\ g_side g = 30 /\ g_direction g = true /\
  forall (fuel : nat) (s : rng), grid_run fuel g s = Err OutOfFuel.
Proof. exact (ex_intro _ two_way (conj eq_refl (conj eq_refl (conj eq_refl two_way_endless)))). Qed.
Print Assumptions C75_directed_refuted.
