(** * The code built with NDEBUG, as test.sh does: assert() does nothing *)
From Verif Require Import Base Data UniqueQueue LCT ProblemDefine Flow ProblemSolver.
Local Open Scope Z_scope.

Section Release.
Context {D : Type} {ops : DataOps D}.

(** ProblemDefine.cpp:42-52 without lines 49 and 50 *)
Definition merge_r (o other : OmegaLimit D) : res (OmegaLimit D * bool) :=
  let l := Z.max (o_l o) (o_l other) in
  let u := Z.min (o_u o) (o_u other) in
  let fn := fun x => a <- o_fn o x ;; b <- o_fn other x ;; Ok (dadd a b) in
  Ok (mkOm l u fn (o_i o) (o_j o), negb (l <=? u)).

(** ProblemSolver.cpp:66-77 *)
Fixpoint merge_loop_r (oms : list (OmegaLimit D)) (mp : lmap) : res (option lmap) :=
  match oms with
  | [] => Ok (Some mp)
  | it :: oms =>
      it <- (if (o_i it <? o_j it)%nat then reverse it else Ok it) ;;
      let k := (o_i it, o_j it) in
      match map_find mp k with
      | Some o =>
          '(o', err) <- merge_r o it ;;
          if (err : bool) then Ok None
          else merge_loop_r oms (map_set mp k o')
      | None => merge_loop_r oms (map_set mp k it)
      end
  end.

(** ProblemSolver.cpp:61-87 *)
Definition merge_limits_r (s : solver D) : res (option (list (OmegaLimit D))) :=
  r <- merge_loop_r (s_oms s) [] ;;
  match r with
  | None => Ok None
  | Some mp =>
      ms <- for_each (seq 1 (Z.to_nat (s_n s))) [] (fun ret i =>
              m <- vget (s_mus s) i ;;
              Ok (ret ++ [mkOm (m_l m) (m_u m) (m_fn m) i 0])) ;;
      Ok (Some (map snd mp ++ ms))
  end.

(** LCT.cpp:14-18 without line 16: a father that is there is overwritten *)
Definition set_fa_r (fuel : nat) (h : heap D) (x : nat) (p : option nat) : res (heap D) :=
  h <- splay fuel h x ;;
  modi h x (set_fa_ p).

(** LCT.cpp:20-26 without line 22 *)
Definition cut_r (fuel : nat) (h : heap D) (x : nat) : res (heap D) :=
  h <- access fuel h x ;;
  nx <- ld h x ;;
  match n_c0 nx with
  | None => Err NullDeref
  | Some c =>
      h <- modi h c (set_fa_ None) ;;
      h <- modi h x (set_ch_ false None) ;;
      push_up h x
  end.

(** Flow.cpp:10-13 without line 12 *)
Fixpoint eps_loop_r (fuel : nat) (n : nat) (U eps : Z) : res Z :=
  match fuel with
  | O => Err OutOfFuel
  | S fuel =>
      a <- ck (Z.of_nat (n + 1)) ;;
      b <- ck (2 * a) ;;
      c <- ck (b * U) ;;
      if eps <? c then
        e <- ck (eps * 2) ;;
        eps_loop_r fuel n U e
      else Ok eps
  end.

(** Flow.cpp:6-28 without line 14 *)
Definition flow_new_r (fuel : nat) (n : nat) (M : D) (U : Z) (limits : list (OmegaLimit D)) : res (flow D) :=
  eps <- eps_loop_r fuel n U 1 ;;
  edges <- double_edges (length limits) (limits ++ repeat OmegaLimit0 (length limits)) ;;
  G <- build_G edges (repeat [] (n + 1)) ;;
  Ok (mkFlow n M eps (repeat node0 (n + 1)) (repeat dzero (n + 1)) (repeat O (n + 1))
             (uq_new (n + 1)) (repeat None (n + 1)) edges (repeat dzero (length edges))
             G (repeat 0 (n + 1))).

(** The rest calls these.  Flow.cpp:147-154 *)
Definition link_r (fuel : nat) (s : flow D) (p : nat) : res (flow D) :=
  g <- vget (f_G s) p ;;
  c <- vget (f_cur s) p ;;
  e_id <- vget g c ;;
  e <- vget (f_edges s) e_id ;;
  fa <- vset (f_fa s) p (Some (o_j e)) ;;
  let s := with_fa s fa in
  v <- q s e_id ;;
  h <- set_val fuel (f_nodes s) p v ;;
  _ <- vget (f_nodes s) (o_j e) ;;
  h <- set_fa_r fuel h p (Some (o_j e)) ;;
  Ok (with_nodes s h).

(** Flow.cpp:156-162 *)
Definition flow_cut_r (fuel : nat) (s : flow D) (p : nat) : res (flow D) :=
  fa <- vset (f_fa s) p None ;;
  let s := with_fa s fa in
  h <- cut_r fuel (f_nodes s) p ;;
  let s := with_nodes s h in
  g <- vget (f_G s) p ;;
  c <- vget (f_cur s) p ;;
  e_id <- vget g c ;;
  a <- q s e_id ;;
  '(h, v) <- get_val fuel (f_nodes s) p ;;
  let s := with_nodes s h in
  add_flow_of_edge s e_id (dsub a v).

(** Flow.cpp:104-113 *)
Fixpoint send_loop_r (fuel0 fuel : nat) (s : flow D) (p root_id : nat) : res (flow D) :=
  if Nat.eqb p root_id then Ok s
  else
    match fuel with
    | O => Err OutOfFuel
    | S fuel =>
        '(h, m) <- get_min_wtrbnr fuel0 (f_nodes s) p ;;
        let s := with_nodes s h in
        a <- vget (f_imb s) p ;;
        if dlt a (fst m) then send_push fuel0 s p root_id a
        else
          s <- send_push fuel0 s p root_id (fst m) ;;
          match snd m with
          | None => Err NullDeref
          | Some r =>
              s <- flow_cut_r fuel0 s r ;;
              send_loop_r fuel0 fuel s p r
          end
    end.

(** Flow.cpp:94-114 *)
Definition send_r (fuel : nat) (s : flow D) (p : nat) : res (flow D) :=
  '(h, root_id) <- find_root fuel (f_nodes s) p ;;
  send_loop_r fuel fuel (with_nodes s h) p root_id.

(** Flow.cpp:116-126 *)
Definition update_scaling_r (fuel : nat) (s : flow D) (p : nat) : res (flow D) :=
  g <- vget (f_G s) p ;;
  s <- for_each g s (fun s e_id =>
         e <- vget (f_edges s) e_id ;;
         let cut_p := o_j e in
         a <- vget (f_fa s) cut_p ;;
         if ptr_eqb a (Some p) then flow_cut_r fuel s cut_p else Ok s) ;;
  a <- vget (f_scal s) p ;;
  a' <- ck (a + Z.quot (f_eps s) 2) ;;
  sc <- vset (f_scal s) p a' ;;
  cu <- vset (f_cur s) p O ;;
  Ok (with_cur (with_scal s sc) cu).

(** Flow.cpp:85-92 *)
Fixpoint choice_loop_r (fuel0 fuel : nat) (s : flow D) (p : nat) : res (flow D) :=
  match fuel with
  | O => Err OutOfFuel
  | S fuel =>
      c <- vget (f_cur s) p ;;
      g <- vget (f_G s) p ;;
      if (c <? length g)%nat then
        e_id <- vget g c ;;
        v <- q s e_id ;;
        if dlt dzero v then
          s <- link_r fuel0 s p ;; send_r fuel0 s p
        else
          cu <- vset (f_cur s) p (c + 1)%nat ;;
          choice_loop_r fuel0 fuel (with_cur s cu) p
      else update_scaling_r fuel0 s p
  end.

(** Flow.cpp:74-78 *)
Fixpoint refine_loop_r (fuel0 fuel : nat) (s : flow D) : res (flow D) :=
  if uq_empty (f_uq s) then Ok s
  else
    match fuel with
    | O => Err OutOfFuel
    | S fuel =>
        p <- uq_front (f_uq s) ;;
        s <- choice_loop_r fuel0 fuel0 s p ;;
        p <- uq_front (f_uq s) ;;
        a <- vget (f_imb s) p ;;
        s <- (if deq a dzero
              then u <- uq_pop (f_uq s) ;; Ok (with_uq s u)
              else Ok s) ;;
        refine_loop_r fuel0 fuel s
    end.

(** Flow.cpp:80-82 *)
Definition cut_all_r (fuel : nat) (s : flow D) : res (flow D) :=
  for_each (seq 0 (f_n s + 1)) s (fun s i =>
    a <- vget (f_fa s) i ;;
    match a with
    | None => Ok s
    | Some _ => flow_cut_r fuel s i
    end).

(** Flow.cpp:31-35 *)
Definition phase_r (fuel : nat) (s : flow D) : res (flow D) :=
  s <- push_all_admissible_edge (initialization s) ;;
  s <- refine_loop_r fuel fuel s ;;
  cut_all_r fuel s.

Fixpoint scaling_loop_r (fuel0 fuel : nat) (s : flow D) : res (flow D) :=
  if f_eps s <? 2 then Ok s
  else
    match fuel with
    | O => Err OutOfFuel
    | S fuel =>
        s <- phase_r fuel0 s ;;
        scaling_loop_r fuel0 fuel (with_eps s (Z.quot (f_eps s) 2))
    end.

(** Flow.cpp:30-46 *)
Definition min_cost_r (fuel : nat) (s : flow D) : res (flow D * D) :=
  s <- scaling_loop_r fuel fuel s ;;
  '(s, answer) <- sum_answer fuel s ;;
  Ok (s, dhalf answer).

(** ProblemSolver.cpp:42-59 *)
Definition solve_r (fuel : nat) (s : solver D) : res (option D) :=
  if s_n s =? SIZE_MAX then Ok None
  else
    r <- merge_limits_r s ;;
    match r with
    | None => Ok None
    | Some limits =>
        '(vmax, M, U) <- calc fuel limits ;;
        fl <- flow_new_r fuel (Z.to_nat (s_n s)) M U limits ;;
        '(_, mc) <- min_cost_r fuel fl ;;
        if dlt vmax mc then Ok None else Ok (Some mc)
    end.

(** the constructor has an assert of its own, which stays *)
Definition run_solver_r (fuel : nat) (n : Z) (mus : list (MuLimit D)) (oms : list (OmegaLimit D)) : res (option D) :=
  s <- solver_new fuel n mus oms ;;
  solve_r fuel s.

End Release.
