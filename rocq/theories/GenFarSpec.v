(** * Paths and stars; what is asked of [std::pow] *)
From Coq Require Import Floats.SpecFloat.
From Verif Require Import Base Data ProblemDefine CostScaling Generator GenMore GenFar Spec GenSpec GenMoreSpec FloatSpec.
Local Open Scope Z_scope.

(** pow(x, 1.0 / 100001) for the values x = z / 2^53 that [next()] returns: 0
    for 0; otherwise at least 1/2, at most 1, and not more than 2^-40 below the
    100001st root of x *)
Definition root_degree : Z := 100001.
Definition pow_good (powf : spec_float -> spec_float -> spec_float) : Prop :=
  let y := SFdiv f64_prec f64_emax (f64_of_Z 1) (f64_of_Z root_degree) in
  (forall x, SFeqb x (f64_of_Z 0) = true -> powf x y = S754_zero false) /\
  (forall x z, 0 < z < 2 ^ 53 -> f64_is 53 x z ->
     exists P, f64_is 53 (powf x y) P /\ 2 ^ 52 <= P <= 2 ^ 53 /\ z * 2 ^ (53 * (root_degree - 1)) <= (P + 2 ^ 13) ^ root_degree).

(** a path through all nodes *)
Definition is_path (N : Z) (E : list (Z * Z)) : Prop :=
  exists a, all_nodes N a /\ drawn_as false E (path_edges a).

(** all nodes but the centre [c] are joined to it *)
Definition is_star (N : Z) (E : list (Z * Z)) : Prop :=
  exists c a, all_nodes N (c :: a) /\ drawn_as false E (map (fun v => (c, v)) a).

(** a star one leaf of which is joined to another leaf instead of the centre *)
Definition is_bent_star (N : Z) (E : list (Z * Z)) : Prop :=
  exists c x y a, all_nodes N (c :: x :: a) /\ In y a /\ drawn_as false E ((x, y) :: map (fun v => (c, v)) a).
