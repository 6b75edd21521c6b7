(** * Finding a solution with solve()

    solve() returns only the cost.  This is a program of a user of the library that finds
    the values: for each variable it looks, by bisection, for the least upper bound of its
    range that leaves the answer unchanged. *)
From Verif Require Import Base Data ProblemDefine ProblemSolver FracSpec.
Local Open Scope Z_scope.

Section Client.
Context {ops : DataOps Z}.

(** does solve() answer [v]? *)
Definition answers_v (fuel : nat) (n : Z) (mus : list (MuLimit Z)) (oms : list (OmegaLimit Z)) (v : Z) : res bool :=
  r <- run_solver fuel n mus oms ;;
  Ok (match r with Some w => w =? v | None => false end).

(** at most [steps - 1] calls of solve() *)
Definition find_value (steps fuel : nat) (n : Z) (mus : list (MuLimit Z)) (oms : list (OmegaLimit Z)) (v : Z) (i : nat) : res Z :=
  m <- vget mus i ;;
  partition_point steps (m_l m) (m_u m) (fun x =>
    b <- answers_v fuel n (narrowed mus i (m_l m) x) oms v ;; Ok (negb b)).

Definition find_solution (steps fuel : nat) (n : nat) (mus : list (MuLimit Z)) (oms : list (OmegaLimit Z)) : res (option (Z * list Z)) :=
  r <- run_solver fuel (Z.of_nat n) mus oms ;;
  match r with
  | None => Ok None
  | Some v =>
      xs <- for_each (seq 1 n) [] (fun xs i =>
              x <- find_value steps fuel (Z.of_nat n) mus oms v i ;; Ok (xs ++ [x])) ;;
      Ok (Some (v, xs))
  end.
End Client.

(** the values of the variables 1, 2, ... *)
Definition values (xs : list Z) : nat -> Z := fun i => nth i (0 :: xs) 0.
