(** * The flow solver with the active nodes taken in any order *)
From Coq Require Import Permutation.
From Verif Require Import Base Data UniqueQueue LCT ProblemDefine Flow ProblemSolver.
Local Open Scope Z_scope.

Section AnyOrder.
Context {D : Type} {ops : DataOps D}.

(** Before each turn of the loop of Flow.cpp:74-78 the nodes waiting in [uq]
    are put into another order, which may depend on the whole state. *)
Variable order : flow D -> list nat -> list nat.

Definition reorder (s : flow D) : flow D :=
  with_uq s (mkUQ (order s (uq_queue (f_uq s))) (uq_in (f_uq s))).

(** Flow.cpp:74-78 *)
Fixpoint refine_loop_o (fuel0 fuel : nat) (s : flow D) : res (flow D) :=
  if uq_empty (f_uq s) then Ok s
  else
    match fuel with
    | O => Err OutOfFuel
    | S fuel =>
        let s := reorder s in
        p <- uq_front (f_uq s) ;;
        s <- choice_operator fuel0 s p ;;
        p <- uq_front (f_uq s) ;;
        a <- vget (f_imb s) p ;;
        s <- (if deq a dzero
              then u <- uq_pop (f_uq s) ;; Ok (with_uq s u)
              else Ok s) ;;
        refine_loop_o fuel0 fuel s
    end.

(** Flow.cpp:73-83 *)
Definition refine_o (fuel : nat) (s : flow D) : res (flow D) :=
  s <- refine_loop_o fuel fuel s ;;
  cut_all fuel s.

(** One iteration of Flow.cpp:31-35 *)
Definition phase_o (fuel : nat) (s : flow D) : res (flow D) :=
  let s := initialization s in
  s <- push_all_admissible_edge s ;;
  refine_o fuel s.

(** Flow.cpp:31-35 *)
Fixpoint scaling_loop_o (fuel0 fuel : nat) (s : flow D) : res (flow D) :=
  if f_eps s <? 2 then Ok s
  else
    match fuel with
    | O => Err OutOfFuel
    | S fuel =>
        s <- phase_o fuel0 s ;;
        scaling_loop_o fuel0 fuel (with_eps s (Z.quot (f_eps s) 2))
    end.

(** Flow.cpp:30-46 *)
Definition min_cost_o (fuel : nat) (s : flow D) : res (flow D * D) :=
  s <- scaling_loop_o fuel fuel s ;;
  '(s, answer) <- sum_answer fuel s ;;
  Ok (s, dhalf answer).

(** ProblemSolver.cpp:42-59 *)
Definition solve_o (fuel : nat) (s : solver D) : res (option D) :=
  if s_n s =? SIZE_MAX then Ok None
  else
    r <- merge_limits s ;;
    match r with
    | None => Ok None
    | Some limits =>
        '(vmax, M, U) <- calc fuel limits ;;
        fl <- flow_new fuel (Z.to_nat (s_n s)) M U limits ;;
        '(_, mc) <- min_cost_o fuel fl ;;
        if dlt vmax mc then Ok None else Ok (Some mc)
    end.

Definition run_solver_o (fuel : nat) (n : Z) (mus : list (MuLimit D)) (oms : list (OmegaLimit D)) : res (option D) :=
  s <- solver_new fuel n mus oms ;;
  solve_o fuel s.
End AnyOrder.

(** the same nodes, each once *)
Definition reorders {D} (order : flow D -> list nat -> list nat) : Prop :=
  forall s l, Permutation l (order s l).
