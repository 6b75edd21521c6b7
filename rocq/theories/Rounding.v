(** * The flow solver with another rounding of the potentials

    [q] divides the difference of two potentials by 2(n+1) and rounds it; here the rounding is an argument. *)
From Verif Require Import Base Data UniqueQueue LCT ProblemDefine Flow ProblemSolver.
Local Open Scope Z_scope.

Section Rounding.
Context {D : Type} {ops : DataOps D}.
Variable rnd : Z -> Z -> Z.

(** Flow.cpp:128-140 *)
Definition q_g (s : flow D) (e_id : nat) : res D :=
  e <- vget (f_edges s) e_id ;;
  pi <- vget (f_scal s) (o_i e) ;;
  pj <- vget (f_scal s) (o_j e) ;;
  d <- ck (pi - pj) ;;
  t <- ck (rnd d (Z.of_nat (2 * (f_n s + 1)))) ;;
  t1 <- ck (t + 1) ;;
  x <- vget (f_flows s) e_id ;;
  if o_u e <? t1 then Ok (dsub (f_M s) x)
  else if t <? o_l e then Ok dzero
  else
    a <- o_fn e t1 ;;
    b <- o_fn e t ;;
    Ok (dmax dzero (dsub (dsub a b) x)).

(** Flow.cpp:147-154 *)
Definition link_g (fuel : nat) (s : flow D) (p : nat) : res (flow D) :=
  g <- vget (f_G s) p ;;
  c <- vget (f_cur s) p ;;
  e_id <- vget g c ;;
  e <- vget (f_edges s) e_id ;;
  fa <- vset (f_fa s) p (Some (o_j e)) ;;
  let s := with_fa s fa in
  v <- q_g s e_id ;;
  h <- set_val fuel (f_nodes s) p v ;;
  (* &nodes[e.j] *)
  _ <- vget (f_nodes s) (o_j e) ;;
  h <- set_fa fuel h p (Some (o_j e)) ;;
  Ok (with_nodes s h).

(** Flow.cpp:156-162 *)
Definition flow_cut_g (fuel : nat) (s : flow D) (p : nat) : res (flow D) :=
  fa <- vset (f_fa s) p None ;;
  let s := with_fa s fa in
  h <- cut fuel (f_nodes s) p ;;
  let s := with_nodes s h in
  g <- vget (f_G s) p ;;
  c <- vget (f_cur s) p ;;
  e_id <- vget g c ;;
  a <- q_g s e_id ;;
  '(h, v) <- get_val fuel (f_nodes s) p ;;
  let s := with_nodes s h in
  add_flow_of_edge s e_id (dsub a v).

(** Flow.cpp:104-113 *)
Fixpoint send_loop_g (fuel0 fuel : nat) (s : flow D) (p root_id : nat) : res (flow D) :=
  if Nat.eqb p root_id then Ok s
  else
    match fuel with
    | O => Err OutOfFuel
    | S fuel =>
        '(h, m) <- get_min_wtrbnr fuel0 (f_nodes s) p ;;
        let s := with_nodes s h in
        a <- vget (f_imb s) p ;;
        if dlt a (fst m) then send_push fuel0 s p root_id a
        else
          s <- send_push fuel0 s p root_id (fst m) ;;
          match snd m with
          | None => Err NullDeref
          | Some r =>
              s <- flow_cut_g fuel0 s r ;;
              send_loop_g fuel0 fuel s p r
          end
    end.

(** Flow.cpp:94-114 *)
Definition send_g (fuel : nat) (s : flow D) (p : nat) : res (flow D) :=
  '(h, root_id) <- find_root fuel (f_nodes s) p ;;
  send_loop_g fuel fuel (with_nodes s h) p root_id.

(** Flow.cpp:116-126 *)
Definition update_scaling_g (fuel : nat) (s : flow D) (p : nat) : res (flow D) :=
  g <- vget (f_G s) p ;;
  s <- for_each g s (fun s e_id =>
         e <- vget (f_edges s) e_id ;;
         let cut_p := o_j e in
         a <- vget (f_fa s) cut_p ;;
         if ptr_eqb a (Some p) then flow_cut_g fuel s cut_p else Ok s) ;;
  a <- vget (f_scal s) p ;;
  a' <- ck (a + Z.quot (f_eps s) 2) ;;
  sc <- vset (f_scal s) p a' ;;
  cu <- vset (f_cur s) p O ;;
  Ok (with_cur (with_scal s sc) cu).

(** Flow.cpp:86-91 *)
Fixpoint choice_loop_g (fuel0 fuel : nat) (s : flow D) (p : nat) : res (flow D) :=
  match fuel with
  | O => Err OutOfFuel
  | S fuel =>
      c <- vget (f_cur s) p ;;
      g <- vget (f_G s) p ;;
      if (c <? length g)%nat then
        e_id <- vget g c ;;
        v <- q_g s e_id ;;
        if dlt dzero v then
          s <- link_g fuel0 s p ;; send_g fuel0 s p
        else
          cu <- vset (f_cur s) p (c + 1)%nat ;;
          choice_loop_g fuel0 fuel (with_cur s cu) p
      else update_scaling_g fuel0 s p
  end.

(** Flow.cpp:85-92 *)
Definition choice_operator_g (fuel : nat) (s : flow D) (p : nat) : res (flow D) :=
  choice_loop_g fuel fuel s p.

(** Flow.cpp:74-78 *)
Fixpoint refine_loop_g (fuel0 fuel : nat) (s : flow D) : res (flow D) :=
  if uq_empty (f_uq s) then Ok s
  else
    match fuel with
    | O => Err OutOfFuel
    | S fuel =>
        p <- uq_front (f_uq s) ;;
        s <- choice_operator_g fuel0 s p ;;
        p <- uq_front (f_uq s) ;;
        a <- vget (f_imb s) p ;;
        s <- (if deq a dzero
              then u <- uq_pop (f_uq s) ;; Ok (with_uq s u)
              else Ok s) ;;
        refine_loop_g fuel0 fuel s
    end.

(** Flow.cpp:80-82 *)
Definition cut_all_g (fuel : nat) (s : flow D) : res (flow D) :=
  for_each (seq 0 (f_n s + 1)) s (fun s i =>
    a <- vget (f_fa s) i ;;
    match a with
    | None => Ok s
    | Some _ => flow_cut_g fuel s i
    end).

(** Flow.cpp:73-83 *)
Definition refine_g (fuel : nat) (s : flow D) : res (flow D) :=
  s <- refine_loop_g fuel fuel s ;;
  cut_all_g fuel s.

(** Flow.cpp:58-71 *)
Definition push_all_admissible_edge_g (s : flow D) : res (flow D) :=
  s <- for_each (seq 0 (length (f_edges s))) s (fun s e_id =>
         e <- vget (f_edges s) e_id ;;
         v <- q_g s e_id ;;
         if dlt dzero v then
           a <- vget (f_imb s) (o_i e) ;;
           im <- vset (f_imb s) (o_i e) (dsub a v) ;;
           b <- vget im (o_j e) ;;
           im <- vset im (o_j e) (dadd b v) ;;
           add_flow_of_edge (with_imb s im) e_id v
         else Ok s) ;;
  for_each (seq 0 (f_n s + 1)) s (fun s i =>
    a <- vget (f_imb s) i ;;
    if dlt dzero a then u <- uq_push (f_uq s) i ;; Ok (with_uq s u)
    else Ok s).

(** One iteration of Flow.cpp:31-35 *)
Definition phase_g (fuel : nat) (s : flow D) : res (flow D) :=
  let s := initialization s in
  s <- push_all_admissible_edge_g s ;;
  refine_g fuel s.

(** Flow.cpp:31-35 *)
Fixpoint scaling_loop_g (fuel0 fuel : nat) (s : flow D) : res (flow D) :=
  if f_eps s <? 2 then Ok s
  else
    match fuel with
    | O => Err OutOfFuel
    | S fuel =>
        s <- phase_g fuel0 s ;;
        scaling_loop_g fuel0 fuel (with_eps s (Z.quot (f_eps s) 2))
    end.

(** Flow.cpp:30-46 *)
Definition min_cost_g (fuel : nat) (s : flow D) : res (flow D * D) :=
  s <- scaling_loop_g fuel fuel s ;;
  '(s, answer) <- sum_answer fuel s ;;
  Ok (s, dhalf answer).

(** ProblemSolver.cpp:42-59 *)
Definition solve_g (fuel : nat) (s : solver D) : res (option D) :=
  if s_n s =? SIZE_MAX then Ok None
  else
    r <- merge_limits s ;;
    match r with
    | None => Ok None
    | Some limits =>
        '(vmax, M, U) <- calc fuel limits ;;
        fl <- flow_new fuel (Z.to_nat (s_n s)) M U limits ;;
        '(_, mc) <- min_cost_g fuel fl ;;
        if dlt vmax mc then Ok None else Ok (Some mc)
    end.

Definition run_solver_g (fuel : nat) (n : Z) (mus : list (MuLimit D)) (oms : list (OmegaLimit D)) : res (option D) :=
  s <- solver_new fuel n mus oms ;;
  solve_g fuel s.
End Rounding.

(** Flow.cpp:135: the ceiling, less 1 *)
Definition below (num denom : Z) : Z := ceil_div num denom - 1.
(** Flow.cpp:133, a comment: the floor, as in the paper *)
Definition floor (num denom : Z) : Z := num / denom.
