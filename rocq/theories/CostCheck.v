(** * The commented-out assertion of CostScaling.cpp

    Lines 43-45, at the end of Push, compare the capacities of every pair of arcs with the capacity the pair had at first. The model
    in [CostScaling] leaves the comment out; here Push ends with a check that is an argument. *)
From Verif Require Import Base Data ProblemDefine Flow Oracles CostScaling.
Local Open Scope Z_scope.

Section Check.
Context {D : Type} {ops : DataOps D}.
Variable chk : list (Arc D) -> res unit.

(** CostScaling.cpp:34-46, with lines 43-45 *)
Definition push_c (u x : nat) (flow : D) (s : refine_st D) : res (refine_st D) :=
  s <- push u x flow s ;;
  _ <- chk (r_edge s) ;;
  Ok s.

(** CostScaling.cpp:55-63 *)
Fixpoint scan_c (fuel : nat) (u : nat) (s : refine_st D) : res (bool * refine_st D) :=
  i <- vget (r_cur s) u ;;
  match i with
  | None => Ok (false, s)
  | Some i =>
      match fuel with
      | O => Err OutOfFuel
      | S fuel =>
          a <- vget (r_edge s) i ;;
          w <- cost_pi (r_p s) u a ;;
          s <- (if dlt w dzero then
                  x <- vget (r_exc s) u ;;
                  push_c u i (dmin (a_cap a) x) s
                else Ok s) ;;
          x <- vget (r_exc s) u ;;
          if deq x dzero then Ok (true, s)
          else
            cur <- vset (r_cur s) u (a_next a) ;;
            scan_c fuel u (CostScaling.with_cur s cur)
      end
  end.

(** CostScaling.cpp:53-69 *)
Definition modify_c (fuel : nat) (eps : D) (head : list (option nat)) (u : nat) (s : refine_st D) : res (refine_st D) :=
  x <- vget (r_exc s) u ;;
  _ <- assert_ (dlt dzero x) ;;
  '(done_, s) <- scan_c fuel u s ;;
  if (done_ : bool) then Ok s
  else
    x <- vget (r_exc s) u ;;
    _ <- assert_ (dlt dzero x) ;;
    s <- relabel eps u s ;;
    h <- vget head u ;;
    cur <- vset (r_cur s) u h ;;
    vis <- vset (r_vis s) u true ;;
    Ok (mkR (r_edge s) (r_p s) (r_exc s) (r_inc s) cur vis (u :: r_st s)).

(** CostScaling.cpp:70-78 *)
Fixpoint refine_loop_c (fuel k : nat) (eps : D) (N : nat) (head : list (option nat)) (s : refine_st D) : res (bool * refine_st D) :=
  match r_st s with
  | [] => Ok (true, s)
  | u :: st =>
      match k with
      | O => Err OutOfFuel
      | S k =>
          vis <- vset (r_vis s) u false ;;
          let s := mkR (r_edge s) (r_p s) (r_exc s) (r_inc s) (r_cur s) vis st in
          x <- vget (r_inc s) u ;;
          if dlt (dmuli (dmuli eps 3) (Z.of_nat N)) x then Ok (false, s)
          else
            s <- modify_c fuel eps head u s ;;
            refine_loop_c fuel k eps N head s
      end
  end.

(** CostScaling.cpp:11-80 *)
Definition refine_c (fuel : nat) (cs : scaling D) : res (bool * scaling D) :=
  let N := c_N cs in
  '(edge, exc) <- saturate_all fuel cs ;;
  '(vis, st) <- init_stack exc (repeat false N) N ;;
  '(b, s) <- refine_loop_c fuel fuel (c_eps cs) N (c_head cs)
               (mkR edge (c_p cs) exc (repeat dzero N) (c_head cs) vis st) ;;
  Ok (b, mkCs (c_eps cs) (r_p s) (c_head cs) (r_edge s) N (c_total cs)).

(** CostScaling.cpp:110-115 *)
Fixpoint scale_loop_c (fuel k : nat) (cs : scaling D) : res (bool * scaling D) :=
  if dle done (dmuli (c_eps cs) (Z.of_nat (c_N cs))) then
    match k with
    | O => Err OutOfFuel
    | S k =>
        '(b, cs) <- refine_c fuel cs ;;
        if (b : bool) then
          scale_loop_c fuel k (mkCs (dhalf (c_eps cs)) (c_p cs) (c_head cs) (c_edge cs) (c_N cs) (c_total cs))
        else Ok (false, cs)
    end
  else Ok (true, cs).

(** CostScaling.cpp:106-120 *)
Definition cs_min_cost_c (fuel : nat) (n : nat) (arcs : list (InputEdge D)) : res (bool * D) :=
  cs <- cs_init n arcs ;;
  '(b, cs) <- scale_loop_c fuel fuel cs ;;
  if (b : bool) then
    total <- for_each (c_edge cs) (c_total cs) (fun t e => Ok (dsub t (dmuli (a_cap e) (a_cost e)))) ;;
    Ok (true, dhalf (dopp total))
  else Ok (false, dzero).
End Check.

Section Totals.
Context {D : Type} {ops : DataOps D}.

(** the members [total], which [CostScaling] leaves out; CostScaling.cpp:100-101 set both of a pair to the capacity, and they are never changed *)
Definition totals (arcs : list (InputEdge D)) : list D := flat_map (fun e => [in_cap e; in_cap e]) arcs.

(** CostScaling.cpp:43-45 *)
Definition check_totals (tot : list D) (edge : list (Arc D)) : res unit :=
  for_each (seq 0 (length edge)) tt (fun _ i =>
    a <- vget edge i ;;
    b <- vget edge (rev_id i) ;;
    t <- vget tot i ;;
    assert_ (deq (dadd (a_cap a) (a_cap b)) t)).
End Totals.
