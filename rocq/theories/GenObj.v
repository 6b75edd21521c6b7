(** * Graph objects of 3rd/generator/gen.h: constructors, setters, virtual functions

    A graph object is a [gen_graph] (Generator.v) together with its class.  All
    setters are virtual, so that they do the same through a reference to a base
    class.  GenGraph() is virtual too, but GenGraph(int left=-1) and
    GenGraph(int size=-1) are other functions, which hide it. *)
From Verif Require Import Base Generator GenMore.
Local Open Scope Z_scope.

Inductive gclass := CGraph | CBipartite | CDag | CCycle | CWheel | CGrid | CPseudo | CPseudoIn | CPseudoOut | CCactus.

(** gen.h:260-267, 369-376, 480-487, 552-559, 640-647, 745-752, 858-865, 952-959,
    1011-1018, 1070-1077; the classes without parameter [m] ignore it *)
Definition construct (c : gclass) (n m : Z) : res gen_graph :=
  match c with
  | CGraph | CBipartite => Ok (mkGen n m [] [] false false false false)
  | CDag => Ok (mkGen n m [] [] true false false false)
  | CCycle => Ok (new_cycle n)
  | CWheel => d <- ck (2 * n) ;; d <- ck (d - 2) ;; Ok (mkGen n d [] [] false false false true)
  | CGrid => Ok (new_grid n m)
  | CPseudo => Ok (new_pseudo false n)
  | CPseudoIn | CPseudoOut => Ok (new_pseudo true n)
  | CCactus => Ok (new_cactus n m)
  end.

(** calls of members; [GenByGraph] is GenGraph() through a reference to Graph,
    [GenByPseudo] is GenGraph through a reference to PseudoTree, the others are on
    the object itself.  [Gen (-1)] is GenGraph() and, where there is a parameter,
    also GenGraph(-1). *)
Inductive gcall :=
| SetNode (n : Z) | SetSide (m : Z) | SetDirection (f : bool) | SetMultiplyEdge (f : bool) | SetSelfLoop (f : bool) | SetConnect (f : bool)
| Gen (arg : Z) | GenOn (p : list Z) | GenAround (v : Z) (p : list Z) | GenByGraph | GenByPseudo (arg : Z).

(** the calls that compile *)
Definition has (c : gclass) (k : gcall) : bool :=
  match k with
  | Gen arg => match c with CBipartite | CPseudo | CPseudoIn | CPseudoOut => true | _ => arg =? -1 end
  | GenOn _ => match c with CCycle | CWheel => true | _ => false end
  | GenAround _ _ => match c with CWheel => true | _ => false end
  | GenByPseudo _ => match c with CPseudo | CPseudoIn | CPseudoOut => true | _ => false end
  | _ => true
  end.

(** gen.h:272-274, 564-567, 652-655, 870-873 *)
Definition call_set_node (c : gclass) (n : Z) (g : gen_graph) : res gen_graph :=
  match c with
  | CCycle | CPseudo | CPseudoIn | CPseudoOut => Ok (set_side n (set_node n g))
  | CWheel => d <- ck (2 * n) ;; d <- ck (d - 2) ;; Ok (set_side d (set_node n g))
  | _ => Ok (set_node n g)
  end.
(** gen.h:279-281, 572-574, 660-662, 878-880 *)
Definition call_set_side (c : gclass) (m : Z) (g : gen_graph) : res gen_graph :=
  match c with
  | CCycle | CPseudo | CPseudoIn | CPseudoOut => Ok (set_side (g_node g) g)
  | CWheel => d <- ck (2 * g_node g) ;; d <- ck (d - 2) ;; Ok (set_side d g)
  | _ => Ok (set_side m g)
  end.
(** gen.h:286-288, 381-383, 492-494, 885-887, 964-966, 1023-1025, 1082-1084 *)
Definition call_set_direction (c : gclass) (f : bool) (g : gen_graph) : gen_graph :=
  match c with
  | CBipartite | CPseudo | CCactus => set_direction false g
  | CDag | CPseudoIn | CPseudoOut => set_direction true g
  | _ => set_direction f g
  end.
(** gen.h:293-295, 579-581, 667-669, 892-894, 1089-1091 *)
Definition call_set_multiply (c : gclass) (f : bool) (g : gen_graph) : gen_graph :=
  match c with
  | CCycle | CWheel | CPseudo | CPseudoIn | CPseudoOut | CCactus => set_multiply false g
  | _ => set_multiply f g
  end.
(** gen.h:300-302, 388-390, 499-501, 586-588, 674-676, 757-759, 899-901, 1096-1098 *)
Definition call_set_self_loop (c : gclass) (f : bool) (g : gen_graph) : gen_graph :=
  match c with
  | CGraph => set_self_loop f g
  | _ => set_self_loop false g
  end.
(** gen.h:307-309, 593-595, 681-683, 764-766, 906-908, 1103-1105 *)
Definition call_set_connect (c : gclass) (f : bool) (g : gen_graph) : gen_graph :=
  match c with
  | CGraph | CBipartite | CDag => set_connect f g
  | _ => set_connect true g
  end.

(** GenGraph of the class itself *)
Definition own_gen (c : gclass) (fuel : nat) (arg : Z) (g : gen_graph) (s : rng) : res (gen_graph * rng) :=
  match c with
  | CGraph => gen_graph_run fuel g s
  | CBipartite => bipartite_run fuel g arg s
  | CDag => dag_run fuel g s
  | CCycle => cycle_run fuel g s
  | CWheel => wheel_run fuel g s
  | CGrid => grid_run fuel g s
  | CPseudo => pseudo_tree_run fuel g arg s
  | CPseudoIn => pseudo_in_tree_run fuel g arg s
  | CPseudoOut => pseudo_out_tree_run fuel g arg s
  | CCactus => cactus_run fuel g s
  end.

(** gen.h:690-710: [wheel_run] without the first lines *)
Definition wheel_on (fuel : nat) (g : gen_graph) (p : list Z) (s : rng) : res (gen_graph * rng) :=
  '(p, s) <- shuffle fuel 0 p s ;;
  match p with
  | [] => Err OutOfBounds
  | v :: pre => wheel_from fuel g v pre s
  end.

Definition call (c : gclass) (fuel : nat) (k : gcall) (st : gen_graph * rng) : res (gen_graph * rng) :=
  let '(g, s) := st in
  match k with
  | SetNode n => g <- call_set_node c n g ;; Ok (g, s)
  | SetSide m => g <- call_set_side c m g ;; Ok (g, s)
  | SetDirection f => Ok (call_set_direction c f g, s)
  | SetMultiplyEdge f => Ok (call_set_multiply c f g, s)
  | SetSelfLoop f => Ok (call_set_self_loop c f g, s)
  | SetConnect f => Ok (call_set_connect c f g, s)
  | Gen arg => own_gen c fuel arg g s
  | GenOn p => match c with CCycle => cycle_from fuel g p s | CWheel => wheel_on fuel g p s | _ => Err BadCall end
  | GenAround v p => match c with CWheel => wheel_from fuel g v p s | _ => Err BadCall end
  | GenByGraph =>
      match c with
      | CBipartite | CPseudo | CPseudoIn | CPseudoOut => gen_graph_run fuel g s       (* GenGraph() is not overridden *)
      | _ => own_gen c fuel (-1) g s
      end
  | GenByPseudo arg => match c with CPseudo | CPseudoIn | CPseudoOut => pseudo_tree_run fuel g arg s | _ => Err BadCall end
  end.

Definition calls (c : gclass) (fuel : nat) (l : list gcall) (st : gen_graph * rng) : res (gen_graph * rng) :=
  for_each l st (fun st k => call c fuel k st).

(** ** class RootTree: gen.h:95-162 *)
(** [o_tree] is what GenTree reads, [o_edge] and [o_father] what it writes *)
Record root_obj := mkObj { o_tree : root_tree; o_edge : list (Z * Z); o_father : list Z }.

(** gen.h:104-109, 171-176, 186-191: [shift] is 0, 100000 or -100000 *)
Definition construct_root (shift n rt rtf : Z) : res root_obj :=
  d <- ck (n - 1) ;; Ok (mkObj (mkRoot n (Z.min rt d) rtf shift) [] []).

(** [TreeSetNode] is SetNode through a reference to Tree: it is not virtual *)
Inductive tcall := RSetNode (n : Z) | TreeSetNode (n : Z) | RSetRoot (rt : Z) | RSetRootFather (rtf : Z) | RSetShift (s : Z) | RGenTree.

(** [father.resize(node)] *)
Definition resized (l : list Z) (n : nat) : list Z := firstn n l ++ repeat 0 (n - length l).

Section Tree.
Variable draw : nat -> Z -> Z -> rng -> res (Z * rng).   (* rnd.wnext: [wnext], or [wnext_all powf] *)

(** gen.h:141-161 on an object whose [father] may be from an earlier call *)
Definition gen_root (fuel : nat) (o : root_obj) (seed : rng) : res (root_obj * rng) :=
  let t := o_tree o in
  p <- iota (rt_node t) ;;
  let father := resized (o_father o) (length p) in
  p <- (if rt_root t <? 0 then Err OutOfBounds else vswap p 0 (Z.to_nat (rt_root t))) ;;
  '(p, seed) <- shuffle fuel 1 p seed ;;
  '(edge, father, seed) <- for_each (seq 1 (Z.to_nat (rt_node t) - 1)) ([], father, seed) (fun '(edge, father, seed) i =>
     '(f, seed) <- draw fuel (Z.of_nat i) (rt_shift t) seed ;;
     pi <- vget p i ;;
     pf <- vget p (Z.to_nat f) ;;
     father <- vset father (Z.to_nat pi) pf ;;
     '(b, seed) <- next_int fuel 2 seed ;;
     Ok (edge ++ [if b =? 0 then (pf, pi) else (pi, pf)], father, seed)) ;;
  father <- vset father (Z.to_nat (rt_root t)) (rt_rootfather t) ;;
  '(edge, seed) <- shuffle fuel 0 edge seed ;;
  Ok (mkObj t edge father, seed).

(** gen.h:21-23, 28-30, 114-117, 122-124, 129-131 *)
Definition tree_call (fuel : nat) (k : tcall) (st : root_obj * rng) : res (root_obj * rng) :=
  let '(o, s) := st in
  let t := o_tree o in
  let put t := mkObj t (o_edge o) (o_father o) in
  match k with
  | RSetNode n => d <- ck (n - 1) ;; Ok (put (mkRoot n (Z.min d (rt_root t)) (rt_rootfather t) (rt_shift t)), s)
  | TreeSetNode n => Ok (put (mkRoot n (rt_root t) (rt_rootfather t) (rt_shift t)), s)
  | RSetRoot rt => d <- ck (rt_node t - 1) ;; Ok (put (mkRoot (rt_node t) (Z.min rt d) (rt_rootfather t) (rt_shift t)), s)
  | RSetRootFather rtf => Ok (put (mkRoot (rt_node t) (rt_root t) rtf (rt_shift t)), s)
  | RSetShift sh => Ok (put (mkRoot (rt_node t) (rt_root t) (rt_rootfather t) sh), s)
  | RGenTree => gen_root fuel o s
  end.
Definition tree_calls (fuel : nat) (l : list tcall) (st : root_obj * rng) : res (root_obj * rng) :=
  for_each l st (fun st k => tree_call fuel k st).
End Tree.
