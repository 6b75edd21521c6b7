(** * The solver with another way of gathering the limits

    ProblemSolver.cpp:61-87 sorts the limits into a map by their pair of variables, merges those with the same pair and
    lists the map in the order of its keys; here this step is an argument. *)
From Verif Require Import Base Data UniqueQueue LCT ProblemDefine Flow ProblemSolver.
Local Open Scope Z_scope.

Section Gather.
Context {D : Type} {ops : DataOps D}.
Variable gather : solver D -> res (option (list (OmegaLimit D))).

(** ProblemSolver.cpp:42-59 *)
Definition solve_b (fuel : nat) (s : solver D) : res (option D) :=
  if s_n s =? SIZE_MAX then Ok None
  else
    r <- gather s ;;
    match r with
    | None => Ok None
    | Some limits =>
        '(vmax, M, U) <- calc fuel limits ;;
        fl <- flow_new fuel (Z.to_nat (s_n s)) M U limits ;;
        '(_, mc) <- min_cost fuel fl ;;
        if dlt vmax mc then Ok None else Ok (Some mc)
    end.

Definition run_solver_b (fuel : nat) (n : Z) (mus : list (MuLimit D)) (oms : list (OmegaLimit D)) : res (option D) :=
  s <- solver_new fuel n mus oms ;;
  solve_b fuel s.
End Gather.

Section Ways.
Context {D : Type} {ops : DataOps D}.
Variable shuffle : list (OmegaLimit D) -> list (OmegaLimit D).

(** ProblemSolver.cpp:64, a comment: the map may be an unordered one; the merged limits then come in another order *)
Definition merge_any_order (s : solver D) : res (option (list (OmegaLimit D))) :=
  r <- merge_loop (s_oms s) [] ;;
  match r with
  | None => Ok None
  | Some mp =>
      ms <- for_each (seq 1 (Z.to_nat (s_n s))) [] (fun ret i =>
              m <- vget (s_mus s) i ;;
              Ok (ret ++ [mkOm (m_l m) (m_u m) (m_fn m) i 0])) ;;
      Ok (Some (shuffle (map snd mp) ++ ms))
  end.

(** ProblemSolver.cpp:83-86 without lines 65-82: the limits as they are, in any order *)
Definition no_merge (s : solver D) : res (option (list (OmegaLimit D))) :=
  ms <- for_each (seq 1 (Z.to_nat (s_n s))) [] (fun ret i =>
          m <- vget (s_mus s) i ;;
          Ok (ret ++ [mkOm (m_l m) (m_u m) (m_fn m) i 0])) ;;
  Ok (Some (shuffle (s_oms s ++ ms))).
End Ways.
