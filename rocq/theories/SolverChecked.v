(** * The whole library with the size of its numbers asserted

    Copies of the functions of ProblemDefine.v, Flow.v and ProblemSolver.v that
    compute with numbers of type Data, in which every result of an addition,
    subtraction or multiplication is checked against a predicate [okd], and the
    division by 2 is checked to be exact.  A failing check is the outcome
    [AssertFail]. *)
From Verif Require Import Base Data LCTChecked ProblemDefine Flow FlowChecked ProblemSolver.
Local Open Scope Z_scope.

Section Checked.
Context {D : Type} {ops : DataOps D}.
Variable okd : D -> bool.

(** ProblemDefine.cpp:42-52 *)
Definition merge_chk (o other : OmegaLimit D) : res (OmegaLimit D * bool) :=
  let l := Z.max (o_l o) (o_l other) in
  let u := Z.min (o_u o) (o_u other) in
  let fn := fun x => a <- o_fn o x ;; b <- o_fn other x ;; ckd okd (dadd a b) in
  _ <- assert_ (Nat.eqb (o_i o) (o_i other)) ;;
  _ <- assert_ (Nat.eqb (o_j o) (o_j other)) ;;
  Ok (mkOm l u fn (o_i o) (o_j o), negb (l <=? u)).

(** ProblemSolver.cpp:66-77 *)
Fixpoint merge_loop_chk (oms : list (OmegaLimit D)) (mp : lmap) : res (option lmap) :=
  match oms with
  | [] => Ok (Some mp)
  | it :: oms =>
      it <- (if (o_i it <? o_j it)%nat then reverse it else Ok it) ;;
      let k := (o_i it, o_j it) in
      match map_find mp k with
      | Some o =>
          '(o', err) <- merge_chk o it ;;
          if (err : bool) then Ok None
          else merge_loop_chk oms (map_set mp k o')
      | None => merge_loop_chk oms (map_set mp k it)
      end
  end.

(** ProblemSolver.cpp:61-87 *)
Definition merge_limits_chk (s : solver D) : res (option (list (OmegaLimit D))) :=
  r <- merge_loop_chk (s_oms s) [] ;;
  match r with
  | None => Ok None
  | Some mp =>
      ms <- for_each (seq 1 (Z.to_nat (s_n s))) [] (fun ret i =>
              m <- vget (s_mus s) i ;;
              Ok (ret ++ [mkOm (m_l m) (m_u m) (m_fn m) i 0])) ;;
      Ok (Some (map snd mp ++ ms))
  end.

(** ProblemSolver.cpp:89-99 *)
Definition calc_chk (fuel : nat) (limits : list (OmegaLimit D)) : res (D * D * Z) :=
  one <- ckd okd done ;;
  for_each limits (dzero, one, 0) (fun '(vmax, M, U) it =>
    a <- o_fn it (o_l it) ;;
    b <- o_fn it (o_u it) ;;
    vmax <- ckd okd (dadd vmax (dmax a b)) ;;
    mi <- limit_min fuel it ;;
    c <- ckd okd (dsub (dmax a b) mi) ;;
    M <- ckd okd (dadd M c) ;;
    d <- ck (o_u it - o_l it) ;;
    Ok (vmax, M, Z.max U d)).

(** Flow.cpp:40; also checked: the argument is an int *)
Definition tilt_chk (e : OmegaLimit D) (x : D) : OmegaLimit D :=
  mkOm (o_l e) (o_u e)
       (fun w => w <- ck w ;; a <- o_fn e w ;; y <- ckd okd (dmuli x w) ;; ckd okd (dsub a y))
       (o_i e) (o_j e).

(** Flow.cpp:36-42 *)
Definition sum_answer_chk (fuel : nat) (s : flow D) : res (flow D * D) :=
  for_each (seq 0 (length (f_edges s))) (s, dzero) (fun '(s, answer) e_id =>
    e <- vget (f_edges s) e_id ;;
    x <- vget (f_flows s) e_id ;;
    let e' := tilt_chk e x in
    es <- vset (f_edges s) e_id e' ;;
    let s := with_edges s es in
    m <- limit_min fuel e' ;;
    a <- ckd okd (dadd answer m) ;;
    Ok (s, a)).

(** Flow.cpp:30-46 *)
Definition min_cost_chk (fuel : nat) (s : flow D) : res (flow D * D) :=
  s <- scaling_loop_chk okd fuel fuel s ;;
  '(s, answer) <- sum_answer_chk fuel s ;;
  _ <- assert_ (deq (dadd (dhalf answer) (dhalf answer)) answer) ;;
  Ok (s, dhalf answer).

(** ProblemSolver.cpp:42-59 *)
Definition solve_chk (fuel : nat) (s : solver D) : res (option D) :=
  if s_n s =? SIZE_MAX then Ok None
  else
    r <- merge_limits_chk s ;;
    match r with
    | None => Ok None
    | Some limits =>
        '(vmax, M, U) <- calc_chk fuel limits ;;
        fl <- flow_new fuel (Z.to_nat (s_n s)) M U limits ;;
        '(_, mc) <- min_cost_chk fuel fl ;;
        if dlt vmax mc then Ok None else Ok (Some mc)
    end.

(** the constructor (ProblemSolver.cpp:6-40) only compares numbers *)
Definition run_solver_chk (fuel : nat) (n : Z) (mus : list (MuLimit D)) (oms : list (OmegaLimit D))
  : res (option D) :=
  s <- solver_new fuel n mus oms ;;
  solve_chk fuel s.

End Checked.
