(** * What the generators of the test-suite are supposed to produce *)
From Verif Require Import Base Data ProblemDefine CostScaling Generator Spec.
Local Open Scope Z_scope.

(** ** Graphs as lists of pairs of nodes *)
(** the same edge; without direction (u,v) and (v,u) are the same *)
Definition same_edge (directed : bool) (a b : Z * Z) : Prop :=
  a = b \/ (directed = false /\ a = (snd b, fst b)).

Definition no_repetition (directed : bool) (l : list (Z * Z)) : Prop :=
  forall p q a b, nth_error l p = Some a -> nth_error l q = Some b -> same_edge directed a b -> p = q.

Inductive linked (l : list (Z * Z)) : Z -> Z -> Prop :=
| linked_refl u : linked l u u
| linked_edge u v w : linked l u v -> (In (v, w) l \/ In (w, v) l) -> linked l u w.

(** [N] nodes 0..N-1 *)
Definition nodes_in (N : Z) (l : list (Z * Z)) : Prop := forall u v, In (u, v) l -> 0 <= u < N /\ 0 <= v < N.
Definition connected (N : Z) (l : list (Z * Z)) : Prop := forall u v, 0 <= u < N -> 0 <= v < N -> linked l u v.

(** number of edges asked for *)
Definition simple_max (g : gen_graph) : Z :=
  let N := g_node g in
  (N * (N - 1) / 2 + (if g_self_loop g then N else 0)) * (if g_direction g then 2 else 1).
Definition edges_wanted (g : gen_graph) : Z :=
  let m := if g_multiply g then g_side g else Z.min (g_side g) (simple_max g) in
  if g_connect g then Z.max m (g_node g - 1) else m.

(** ** Termination
    a state of the random generator from which [next(N)] yields u, v, u without
    drawing twice; [state w] is what [next] sees *)
Definition next_of (N : Z) (w : rng) : option Z :=
  match next_int 1 N w with Ok (r, _) => Some r | Err _ => None end.
Definition yields (N u v : Z) (w : rng) : Prop :=
  0 <= w < 2 ^ 48 /\ next_of N w = Some u /\ next_of N (rng_step w) = Some v /\ next_of N (rng_step (rng_step w)) = Some u.
Definition can_yield (N u v : Z) : Prop := exists w, yields N u v w.

(** enough pairs can be drawn *)
Definition drawable (multi : bool) (N : Z) : Prop :=
  if multi then exists u v, u <> v /\ can_yield N u v
  else forall u v, 0 <= u < v -> v < N -> can_yield N u v.

(** ** TinyGen
    A generated limit: l, u and the coefficients of a cost (a*x*x + b*x + c)/4. *)
Definition coefficients : Type := Z * Z * Z.

Definition range_in (lim : Z * Z) (l u : Z) : Prop := fst lim <= l /\ l <= u /\ u <= snd lim.
(** [lim] bounds the coefficients; the first one is not negative *)
Definition coefficients_in (lim : Z * Z) (t : coefficients) : Prop :=
  let '(a, b, c) := t in
  (4 * Z.max 0 (fst lim) <= a <= 4 * Z.max 0 (snd lim)) /\ (4 * fst lim <= b <= 4 * snd lim) /\ (4 * fst lim <= c <= 4 * snd lim).

(** the arguments of TinyGen make sense *)
Definition int_range (lim : Z * Z) : Prop := INT_MIN <= fst lim /\ fst lim <= snd lim /\ snd lim <= INT_MAX.
Definition tiny_args (n mlimit : Z) (multi : bool) (node_limit edge_limit fun_limit : Z * Z) : Prop :=
  1 <= n /\ (multi = false -> n * (n - 1) <= INT_MAX) /\ n <= INT_MAX /\ n - 1 <= mlimit <= INT_MAX /\
  int_range node_limit /\ int_range edge_limit /\
  int_range (4 * fst fun_limit, 4 * snd fun_limit) /\ fst fun_limit <= snd fun_limit.

(** the callback is (a*x*x + b*x + c)/4, in units of which [unit] make 1/4 *)
Definition quadratic_cost (unit : Z) (t : coefficients) (f : Fn Z) : Prop :=
  let '(a, b, c) := t in forall x, f x = Ok (unit * (a * x * x + b * x + c)).
Definition shown (unit : Z) (t : coefficients) : Z * Z * Z := let '(a, b, c) := t in (unit * a, unit * b, unit * c).

(** a node and an edge of the graph with what the text shows about them *)
Definition node_made (unit : Z) (node_limit fun_limit : Z * Z) (m : MuLimit Z) (i : Z * Z * (Z * Z * Z)) : Prop :=
  range_in node_limit (m_l m) (m_u m) /\
  exists t, coefficients_in fun_limit t /\ quadratic_cost unit t (m_fn m) /\ i = (m_l m, m_u m, shown unit t).
Definition edge_made (unit n : Z) (edge_limit fun_limit : Z * Z) (o : OmegaLimit Z) (i : Z * Z * (Z * Z * Z) * nat * nat) : Prop :=
  range_in edge_limit (o_l o) (o_u o) /\ 1 <= Z.of_nat (o_i o) <= n /\ 1 <= Z.of_nat (o_j o) <= n /\ o_i o <> o_j o /\
  exists t, coefficients_in fun_limit t /\ quadratic_cost unit t (o_fn o) /\ i = (o_l o, o_u o, shown unit t, o_i o, o_j o).

Definition edge_ends (o : OmegaLimit Z) : Z * Z := (Z.of_nat (o_i o), Z.of_nat (o_j o)).

(** what TinyGen returns; node 0 is not used *)
Definition tiny_result (unit n mlimit : Z) (multi : bool) (node_limit edge_limit fun_limit : Z * Z) (g : graph Z) : Prop :=
  gr_n g = n /\ Z.of_nat (length (gr_node g)) = n + 1 /\ Z.of_nat (length (gr_edge g)) = gr_m g /\
  n - 1 <= gr_m g <= mlimit /\
  Forall2 (node_made unit node_limit fun_limit) (tl (gr_node g)) (fst (gr_info g)) /\
  Forall2 (edge_made unit n edge_limit fun_limit) (gr_edge g) (snd (gr_info g)) /\
  (multi = false -> no_repetition false (map edge_ends (gr_edge g))).

(** ** The instances used by the tests *)
Definition within_K (K : Z) (lim : Z * Z) : Prop := - K <= fst lim /\ snd lim <= K.
