(** * The trees of gen.h that are drawn with [std::pow]

    UnrootChain, UnrootFlower, RootChain and RootFlower (gen.h:73-93, 164-192)
    differ from their base classes in [shift], which is 100000 or -100000 there;
    [wnext] then uses std::pow.  The function pow of the C library is not
    modelled: it is the argument [powf]. *)
From Coq Require Import Floats.SpecFloat.
From Verif Require Import Base Data ProblemDefine CostScaling Generator GenMore.
Local Open Scope Z_scope.

(** testlib.h:864-865 *)
Definition unit_bits (seed : rng) : Z * rng :=
  let '(l, seed) := next_bits 26 seed in
  let '(r, seed) := next_bits 27 seed in
  (Z.shiftl l 27 + r, seed).

(** testlib.h:363-368 with [a] = 0.0 and [b] = 1.0; [__testlib_max(x, y)] is
    [x > y ? x : y], [__testlib_min(x, y)] is [x < y ? x : y]
    (testlib.h:348-356); nexttoward(1, 0) is 1 - 2^-53 *)
Definition crop_unit (v : spec_float) : spec_float :=
  let v := if SFltb (f64_of_Z 0) v then v else f64_of_Z 0 in
  let v := if SFltb v (f64_of_Z 1) then v else f64_of_Z 1 in
  if SFleb (f64_of_Z 1) v then S754_finite false (2 ^ 53 - 1) (-53) else v.

(** testlib.h:866; the number of 53 bits as a double in [0, 1) *)
Definition unit_of (z : Z) : spec_float :=
  crop_unit (SFdiv f64_prec f64_emax (f64_of_Z z) (f64_of_Z (2 ^ 53))).

(** conversion of a double to int: towards zero; undefined if the result does
    not fit *)
Definition f64_to_int (f : spec_float) : res Z :=
  match f with
  | S754_zero _ => Ok 0
  | S754_finite s m e => ck (cond_Zopp s (if 0 <=? e then Zpos m * 2 ^ e else Zpos m / 2 ^ (- e)))
  | _ => Err IntOverflow
  end.

Section Pow.
Variable powf : spec_float -> spec_float -> spec_float.      (* std::pow *)

(** testlib.h:918-920 and 932-941: [wnext(int n, int type)] with
    [|type| >= lim]; testlib.h:358-361 for ints is [min(max(value, 0), n - 1)] *)
Definition wnext_far (n type : Z) (seed : rng) : res (Z * rng) :=
  if n <=? 0 then Err AssertFail
  else
    let '(z, seed) := unit_bits seed in
    let p := if 0 <? type
             then powf (unit_of z) (SFdiv f64_prec f64_emax (f64_of_Z 1) (f64_of_Z (type + 1)))
             else SFsub f64_prec f64_emax (f64_of_Z 1) (powf (unit_of z) (SFdiv f64_prec f64_emax (f64_of_Z 1) (f64_of_Z (- type + 1)))) in
    t <- f64_to_int (SFmul f64_prec f64_emax (f64_of_Z n) p) ;;
    Ok (Z.min (Z.max t 0) (n - 1), seed).

(** testlib.h:1228: [lim] is 25 *)
Definition wnext_all (fuel : nat) (n type : Z) (seed : rng) : res (Z * rng) :=
  if Z.abs type <? 25 then wnext fuel n type seed else wnext_far n type seed.

(** gen.h:54-70 with any [shift]; [std::vector<int> p(node)] throws for a
    negative [node], [p.begin() + 1] is undefined for an empty vector *)
Definition unroot_run (fuel : nat) (node shift : Z) (seed : rng) : res (list (Z * Z) * rng) :=
  let p := map Z.of_nat (seq 0 (Z.to_nat node)) in
  _ <- (if node <=? 0 then Err OutOfBounds else Ok tt) ;;
  '(p, seed) <- shuffle fuel 1 p seed ;;
  '(edge, seed) <- for_each (seq 1 (Z.to_nat node - 1)) ([], seed) (fun '(edge, seed) i =>
     '(f, seed) <- wnext_all fuel (Z.of_nat i) shift seed ;;
     '(b, seed) <- next_int fuel 2 seed ;;
     pi <- vget p i ;;
     pf <- vget p (Z.to_nat f) ;;
     Ok (edge ++ [if b =? 0 then (pf, pi) else (pi, pf)], seed)) ;;
  shuffle fuel 0 edge seed.

(** gen.h:141-161 with any [shift] *)
Definition root_run (fuel : nat) (t : root_tree) (seed : rng) : res (list (Z * Z) * list Z * rng) :=
  p <- iota (rt_node t) ;;
  let father := repeat 0 (length p) in
  p <- (if rt_root t <? 0 then Err OutOfBounds else vswap p 0 (Z.to_nat (rt_root t))) ;;
  '(p, seed) <- shuffle fuel 1 p seed ;;
  '(edge, father, seed) <- for_each (seq 1 (Z.to_nat (rt_node t) - 1)) ([], father, seed) (fun '(edge, father, seed) i =>
     '(f, seed) <- wnext_all fuel (Z.of_nat i) (rt_shift t) seed ;;
     pi <- vget p i ;;
     pf <- vget p (Z.to_nat f) ;;
     father <- vset father (Z.to_nat pi) pf ;;
     '(b, seed) <- next_int fuel 2 seed ;;
     Ok (edge ++ [if b =? 0 then (pf, pi) else (pi, pf)], father, seed)) ;;
  father <- vset father (Z.to_nat (rt_root t)) (rt_rootfather t) ;;
  '(edge, seed) <- shuffle fuel 0 edge seed ;;
  Ok (edge, father, seed).

(** gen.h:78-81 and 89-92, followed by GenTree *)
Definition unroot_chain_run (fuel : nat) (n : Z) := unroot_run fuel n 100000.
Definition unroot_flower_run (fuel : nat) (n : Z) := unroot_run fuel n (-100000).
End Pow.

(** gen.h:171-176 *)
Definition new_root_chain (n rt rtf : Z) : root_tree := mkRoot n (Z.min rt (n - 1)) rtf 100000.
(** gen.h:186-191 *)
Definition new_root_flower (n rt rtf : Z) : root_tree := mkRoot n (Z.min rt (n - 1)) rtf (-100000).

(** with the shift of the base classes these are the runs of Generator.v and
    GenMore.v *)
Lemma unroot_run_0 powf fuel node seed : unroot_run powf fuel node 0 seed = gen_tree fuel node seed.
Proof. reflexivity. Qed.
Lemma root_run_0 powf fuel t seed : rt_shift t = 0 -> root_run powf fuel t seed = root_tree_run fuel t seed.
Proof. intros H. unfold root_run, root_tree_run. rewrite H. reflexivity. Qed.
