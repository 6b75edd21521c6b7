(** * Properties C95 and C96: generator objects that are used more than once

    [construct] is the constructor, [call] and [calls] are calls of members;
    [has] says which exist. *)
From Coq Require Import Floats.SpecFloat.
From Verif Require Import Base Data Generator GenMore GenFar GenFarSpec GenFarProof GenSpec GenMoreSpec GenTable GenObj GenObjSpec GenObjProof GenObjTree.
Local Open Scope Z_scope.

(** C95: whatever is called, in whatever order, the settings of an object are those
    last asked for, except for those that its class forces; *)
Theorem C95_settings : forall (c : gclass) (fuel : nat) (n m : Z) (l : list gcall) (g0 g : gen_graph) (s0 s : rng),
  forallb (has c) l = true -> construct c n m = Ok g0 -> calls c fuel l (g0, s0) = Ok (g, s) ->
  g_node g = asked_node n l /\ (c <> CCactus -> g_side g = or_else (forced_side c (asked_node n l)) (asked_side m l)) /\
  g_direction g = or_else (forced_direction c) (asked_direction l) /\ g_multiply g = or_else (forced_multiply c) (asked_multiply l) /\
  g_self_loop g = or_else (forced_loop c) (asked_loop l) /\ g_connect g = or_else (forced_connect c) (asked_connect l).
Proof. intros c fuel n m l g0 g s0 s. exact (object_settings c fuel n m l g0 s0 g s). Qed.
Print Assumptions C95_settings.

(** and GenGraph does what it would do on a new object with these settings:
    graphs generated before have no influence, also not on failures.  For a
    Cactus the number of edges is that of the object. *)
Theorem C95_past : forall (c : gclass) (fuel : nat) (n m : Z) (l : list gcall) (k : gcall) (g0 g : gen_graph) (s0 s : rng),
  c <> CCactus -> forallb (has c) l = true -> construct c n m = Ok g0 -> calls c fuel l (g0, s0) = Ok (g, s) -> generates k = true ->
  call c fuel k (g, s) = call c fuel k (as_asked c n m l, s).
Proof. intros c fuel n m l k g0 g s0 s. exact (object_past c fuel n m l k g0 s0 g s). Qed.
Print Assumptions C95_past.

Theorem C95_cactus_past : forall (fuel : nat) (n m : Z) (l : list gcall) (k : gcall) (g0 g : gen_graph) (s0 s : rng),
  forallb (has CCactus) l = true -> construct CCactus n m = Ok g0 -> calls CCactus fuel l (g0, s0) = Ok (g, s) -> generates k = true ->
  call CCactus fuel k (g, s) = call CCactus fuel k (set_side (g_side g) (as_asked CCactus n m l), s).
Proof. intros fuel n m l k g0 g s0 s. exact (cactus_past fuel n m l k g0 s0 g s). Qed.
Print Assumptions C95_cactus_past.

(** For example a CycleGraph makes cycles and a DAG acyclic graphs, whatever was
    called before. *)
Theorem C95_cycle : forall (fuel : nat) (n m : Z) (l : list gcall) (g0 g : gen_graph) (s0 s : rng),
  forallb (has CCycle) l = true -> construct CCycle n m = Ok g0 -> calls CCycle fuel l (g0, s0) = Ok (g, s) ->
  3 <= asked_node n l <= INT_MAX -> 2 ^ 48 + 2 <= Z.of_nat fuel ->
  exists g' s', call CCycle fuel (Gen (-1)) (g, s) = Ok (g', s') /\ simple_connected (asked_node n l) (g_edge g') /\
    exists p, all_nodes (asked_node n l) p /\ drawn_as (asked_direction l) (g_edge g') (ring_edges p).
Proof. intros fuel n m l g0 g s0 s. exact (cycle_object fuel n m l g0 s0 g s). Qed.
Print Assumptions C95_cycle.

Theorem C95_dag : forall (fuel : nat) (n m : Z) (l : list gcall) (g0 g : gen_graph) (s0 s : rng),
  forallb (has CDag) l = true -> construct CDag n m = Ok g0 -> calls CDag fuel l (g0, s0) = Ok (g, s) ->
  1 <= asked_node n l <= INT_MAX -> 0 <= asked_side m l <= INT_MAX -> (asked_multiply l = false -> asked_node n l * (asked_node n l - 1) <= INT_MAX) ->
  drawable (asked_multiply l) (asked_node n l) -> 2 ^ 48 + 2 <= Z.of_nat fuel ->
  exists g' s', call CDag fuel (Gen (-1)) (g, s) = Ok (g', s') /\ nodes_in (asked_node n l) (g_edge g') /\ acyclic (g_edge g').
Proof. intros fuel n m l g0 g s0 s. exact (dag_object fuel n m l g0 s0 g s). Qed.
Print Assumptions C95_dag.

(** Through a reference to Graph a PseudoTree still makes a connected graph with
    one cycle, though by another function, *)
Theorem C95_pseudo_by_graph : forall (fuel : nat) (n m : Z) (l : list gcall) (g0 g : gen_graph) (s0 s : rng),
  forallb (has CPseudo) l = true -> construct CPseudo n m = Ok g0 -> calls CPseudo fuel l (g0, s0) = Ok (g, s) ->
  3 <= asked_node n l <= INT_MAX -> drawable false (asked_node n l) -> 2 ^ 48 + 2 <= Z.of_nat fuel ->
  exists g' s', call CPseudo fuel GenByGraph (g, s) = Ok (g', s') /\ Z.of_nat (length (g_edge g')) = asked_node n l /\ simple_connected (asked_node n l) (g_edge g').
Proof. intros fuel n m l g0 g s0 s. exact (pseudo_by_graph fuel n m l g0 s0 g s). Qed.
Print Assumptions C95_pseudo_by_graph.

(** but a BipartiteGraph does not make a bipartite graph, nor a PseudoInTree an
    in-tree; the latter not through a reference to PseudoTree either. *)
Theorem C95_by_graph_refuted :
  (exists n m g0 fuel s g s', construct CBipartite n m = Ok g0 /\ call CBipartite fuel GenByGraph (g0, s) = Ok (g, s') /\ forall A, ~ two_sides A (g_edge g)) /\
  (exists n m g0 fuel s g s', construct CPseudoIn n m = Ok g0 /\ call CPseudoIn fuel GenByGraph (g0, s) = Ok (g, s') /\ ~ NoDup (map fst (g_edge g))) /\
  (exists n m g0 fuel s g s', construct CPseudoIn n m = Ok g0 /\ call CPseudoIn fuel (GenByPseudo (-1)) (g0, s) = Ok (g, s') /\ ~ NoDup (map fst (g_edge g))).
Proof. exact by_base_refutes. Qed.
Print Assumptions C95_by_graph_refuted.

(** A Cactus remembers: with 100 edges wanted and 9 nodes there should be 12
    edges, but after a graph of 3 nodes there are 7. *)
Theorem C95_cactus_refuted : exists g0 fuel s g s' g1 s1 g2 s2, construct CCactus 3 100 = Ok g0 /\
  calls CCactus fuel [Gen (-1); SetNode 9] (g0, s) = Ok (g, s') /\
  call CCactus fuel (Gen (-1)) (g, s') = Ok (g1, s1) /\ call CCactus fuel (Gen (-1)) (as_asked CCactus 3 100 [Gen (-1); SetNode 9], s') = Ok (g2, s2) /\
  length (g_edge g1) = 7%nat /\ length (g_edge g2) = 12%nat.
Proof. exact cactus_remembers. Qed.
Print Assumptions C95_cactus_refuted.

Example C95_example :
  let l := [SetDirection false; SetSelfLoop true; Gen (-1); SetNode 5; SetSide 7; SetConnect true; GenByGraph] in
  forallb (has CDag) l = true /\ asked_node 4 l = 5 /\ asked_side 3 l = 7 /\ drawable (asked_multiply l) 5 /\
  match construct CDag 4 3 with
  | Ok g0 => match calls CDag 1000 l (g0, 1) with Ok (g, _) => g_edge g = [(3, 4); (4, 1); (1, 2); (1, 0); (3, 1); (3, 2); (4, 2)] /\ g_direction g = true /\ g_self_loop g = false | Err _ => False end
  | Err _ => False
  end /\
  let l := [SetSide 17; SetMultiplyEdge true; Gen (-1); SetNode 5; SetDirection true; GenOn [7; 8; 9]; Gen (-1)] in
  forallb (has CCycle) l = true /\
  match construct CCycle 4 3 with
  | Ok g0 => match calls CCycle 1000 l (g0, 1) with Ok (g, _) => g_edge g = [(4, 0); (2, 4); (0, 3); (1, 2); (3, 1)] | Err _ => False end
  | Err _ => False
  end.
Proof.
  cbv zeta. split; [reflexivity|]. split; [reflexivity|]. split; [reflexivity|]. split; [exact drawable_5|]. split; [vm_compute; auto|]. split; [reflexivity|]. vm_compute. reflexivity.
Qed.

(** The hub of a wheel on given nodes need not be the first of them. *)
Example C95_hub :
  match construct CWheel 5 0 with
  | Ok g0 => match calls CWheel 1000 [GenOn [0; 1; 2; 3; 4]] (g0, set_seed 1000003) with
             | Ok (g, _) => g_edge g = [(0, 2); (0, 4); (4, 3); (4, 2); (4, 1); (3, 1); (2, 3); (0, 1)] | Err _ => False end
  | Err _ => False
  end.
Proof. vm_compute. reflexivity. Qed.

(** C96: an object of class RootTree, RootChain or RootFlower ([shift] is 0, 100000
    or -100000).  With sensible arguments every sequence of calls succeeds, the
    numbers are those last asked for, and the root is a node not above the one
    asked for; *)
Theorem C96_tree_object : forall powf (fuel : nat) (shift n rt rtf : Z) (l : list tcall) (s : rng),
  pow_good powf -> 1 <= n <= INT_MAX -> 0 <= rt -> good_shift shift -> 2 ^ 48 + 2 <= Z.of_nat fuel -> Forall sensible l ->
  exists o0 o s', construct_root shift n rt rtf = Ok o0 /\ tree_calls (wnext_all powf) fuel l (o0, s) = Ok (o, s') /\
    rt_node (o_tree o) = asked_nodes n l /\ 1 <= rt_node (o_tree o) <= INT_MAX /\ rt_rootfather (o_tree o) = asked_rootfather rtf l /\
    rt_shift (o_tree o) = asked_shift shift l /\ good_shift (rt_shift (o_tree o)) /\
    0 <= rt_root (o_tree o) < rt_node (o_tree o) /\ rt_root (o_tree o) <= asked_root rt l.
Proof. exact tree_object. Qed.
Print Assumptions C96_tree_object.

(** then GenTree gives a tree with this root. *)
Theorem C96_gen_tree : forall powf (fuel : nat) (t : root_tree) (s : rng),
  pow_good powf -> 1 <= rt_node t <= INT_MAX -> 0 <= rt_root t < rt_node t -> good_shift (rt_shift t) -> 2 ^ 48 + 2 <= Z.of_nat fuel ->
  exists E father s', root_run powf fuel t s = Ok (E, father, s') /\ Z.of_nat (length E) = rt_node t - 1 /\ simple_connected (rt_node t) E /\
    rooted_tree (rt_node t) (rt_root t) (rt_rootfather t) father E.
Proof. exact root_any. Qed.
Print Assumptions C96_gen_tree.

(** The array of fathers left by earlier calls has no influence, whatever the
    object. *)
Theorem C96_past : forall powf (fuel : nat) (o : root_obj) (s : rng),
  gen_root (wnext_all powf) fuel o s = bind (root_run powf fuel (o_tree o) s) (fun '(E, father, s') => Ok (mkObj (o_tree o) E father, s')).
Proof. exact gen_root_run. Qed.
Print Assumptions C96_past.

(** SetNode through a reference to Tree leaves the root outside of the tree;
    SetNode(0) makes the root -1, and it stays so; with fewer nodes for a while
    the root is not the one asked for. *)
Theorem C96_calls_refuted :
  (exists o0 o, construct_root 0 5 4 (-1) = Ok o0 /\ tree_calls wnext 0 [TreeSetNode 3] (o0, 1) = Ok (o, 1) /\ forall powf fuel s, gen_root (wnext_all powf) fuel o s = Err OutOfBounds) /\
  (exists o0 o, construct_root 0 5 4 (-1) = Ok o0 /\ tree_calls wnext 0 [RSetNode 0; RSetNode 5] (o0, 1) = Ok (o, 1) /\ forall powf fuel s, gen_root (wnext_all powf) fuel o s = Err OutOfBounds) /\
  (exists o0 o, construct_root 0 5 4 (-1) = Ok o0 /\ tree_calls wnext 0 [RSetNode 3; RSetNode 5] (o0, 1) = Ok (o, 1) /\ rt_node (o_tree o) = 5 /\ rt_root (o_tree o) = 2).
Proof. exact tree_calls_refute. Qed.
Print Assumptions C96_calls_refuted.

Example C96_example : pow_good crude_pow /\ good_shift 0 /\
  let l := [RGenTree; RSetNode 3; RGenTree; RSetNode 5; RSetRootFather 9; RSetShift 2; RGenTree] in
  Forall sensible l /\
  match construct_root 0 7 4 (-1) with
  | Ok o0 => match tree_calls (wnext_all crude_pow) 1000 l (o0, 1) with Ok (o, _) => o_edge o = [(4, 0); (0, 1); (1, 3); (4, 2)] /\ o_father o = [4; 0; 9; 1; 2] | Err _ => False end
  | Err _ => False
  end.
Proof.
  split; [exact crude_good|]. split; [left; reflexivity|]. cbv zeta. split; [repeat constructor; cbn; unfold INT_MAX; lia|]. vm_compute. auto.
Qed.
