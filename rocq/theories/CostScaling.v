(** * The second solver of the test-suite: test/CostScaling.cpp, test/SimpleSolver.cpp *)
From Verif Require Import Base Data ProblemDefine Flow Oracles.
Local Open Scope Z_scope.

Section CostScaling.
Context {D : Type} {ops : DataOps D}.

(** conversion of an int to double; as in [Data], an int [w] is 1.0 * w *)
Definition of_int (w : Z) : D := dmuli done w.

(** CostScaling.hpp:3-7.  The members [lower], [upper] and [id] are never read
    and are left out. *)
Record InputEdge := mkIn { in_u : nat; in_v : nat; in_cost : Z; in_cap : D }.

(** CostScaling.hpp:10-14.  [u] is used as the link of the adjacency list; -1
    is [None].  [total] and [id] are never read and are left out. *)
Record Arc := mkArc { a_next : option nat; a_v : nat; a_cost : Z; a_cap : D }.

Definition with_cap (a : Arc) (c : D) : Arc := mkArc (a_next a) (a_v a) (a_cost a) c.

(** CostScaling.hpp:15-21; [flow] and [side] are never read; [len] is the
    length of [edge] minus one. *)
Record scaling := mkCs {
  c_eps : D; c_p : list D; c_head : list (option nat); c_edge : list Arc; c_N : nat; c_total : D }.

(** CostScaling.cpp:7-9 *)
Definition cost_pi (p : list D) (u : nat) (e : Arc) : res D :=
  pu <- vget p u ;;
  pv <- vget p (a_v e) ;;
  Ok (dadd (dsub (of_int (a_cost e)) pu) pv).

(** [edge[i].capacity += x] *)
Definition add_cap (edge : list Arc) (i : nat) (x : D) : res (list Arc) :=
  a <- vget edge i ;; vset edge i (with_cap a (dadd (a_cap a) x)).

(** [v[i] += x] *)
Definition vadd (v : list D) (i : nat) (x : D) : res (list D) :=
  a <- vget v i ;; vset v i (dadd a x).
(** [v[i] -= x] *)
Definition vsub (v : list D) (i : nat) (x : D) : res (list D) :=
  a <- vget v i ;; vset v i (dsub a x).

(** CostScaling.cpp:16-23, the inner loop; links are not changed by the body *)
Fixpoint saturate (fuel : nat) (p : list D) (u : nat) (i : option nat) (edge : list Arc) (excess : list D)
  : res (list Arc * list D) :=
  match i with
  | None => Ok (edge, excess)
  | Some i =>
      match fuel with
      | O => Err OutOfFuel
      | S fuel =>
          a <- vget edge i ;;
          w <- cost_pi p u a ;;
          '(edge, excess) <-
            (if dlt w dzero then
               excess <- vsub excess u (a_cap a) ;;
               excess <- vadd excess (a_v a) (a_cap a) ;;
               edge <- add_cap edge (rev_id i) (a_cap a) ;;
               a' <- vget edge i ;;
               edge <- vset edge i (with_cap a' dzero) ;;
               Ok (edge, excess)
             else Ok (edge, excess)) ;;
          saturate fuel p u (a_next a) edge excess
      end
  end.

(** CostScaling.cpp:15-24 *)
Definition saturate_all (fuel : nat) (cs : scaling) : res (list Arc * list D) :=
  for_each (seq 0 (c_N cs)) (c_edge cs, repeat dzero (c_N cs)) (fun '(edge, excess) u =>
    i <- vget (c_head cs) u ;;
    saturate fuel (c_p cs) u i edge excess).

(** the variables of Refine; [r_st] is the std::stack, top first *)
Record refine_st := mkR {
  r_edge : list Arc; r_p : list D; r_exc : list D; r_inc : list D; r_cur : list (option nat);
  r_vis : list bool; r_st : list nat }.

(** CostScaling.cpp:27-32 *)
Definition init_stack (excess : list D) (vis : list bool) (N : nat) : res (list bool * list nat) :=
  for_each (seq 0 N) (vis, []) (fun '(vis, st) u =>
    x <- vget excess u ;;
    if dlt dzero x then vis <- vset vis u true ;; Ok (vis, u :: st)
    else Ok (vis, st)).

(** CostScaling.cpp:34-46, the lambda [Push] *)
Definition push (u x : nat) (flow : D) (s : refine_st) : res refine_st :=
  a <- vget (r_edge s) x ;;
  edge <- vset (r_edge s) x (with_cap a (dsub (a_cap a) flow)) ;;
  edge <- add_cap edge (rev_id x) flow ;;
  exc <- vsub (r_exc s) u flow ;;
  exc <- vadd exc (a_v a) flow ;;
  xv <- vget exc (a_v a) ;;
  b <- vget (r_vis s) (a_v a) ;;
  if dlt dzero xv && negb b then
    vis <- vset (r_vis s) (a_v a) true ;;
    Ok (mkR edge (r_p s) exc (r_inc s) (r_cur s) vis (a_v a :: r_st s))
  else Ok (mkR edge (r_p s) exc (r_inc s) (r_cur s) (r_vis s) (r_st s)).

(** CostScaling.cpp:48-51, the lambda [Relabel] *)
Definition relabel (eps : D) (u : nat) (s : refine_st) : res refine_st :=
  p <- vadd (r_p s) u (dhalf eps) ;;
  inc <- vadd (r_inc s) u (dhalf eps) ;;
  Ok (mkR (r_edge s) p (r_exc s) inc (r_cur s) (r_vis s) (r_st s)).

Definition with_cur (s : refine_st) (c : list (option nat)) : refine_st :=
  mkR (r_edge s) (r_p s) (r_exc s) (r_inc s) c (r_vis s) (r_st s).

(** CostScaling.cpp:55-63, the loop of [Modify]; the flag tells whether it was
    left by [return].  The loop variable is a reference to [current_edge[u]]. *)
Fixpoint scan (fuel : nat) (u : nat) (s : refine_st) : res (bool * refine_st) :=
  i <- vget (r_cur s) u ;;
  match i with
  | None => Ok (false, s)
  | Some i =>
      match fuel with
      | O => Err OutOfFuel
      | S fuel =>
          a <- vget (r_edge s) i ;;
          w <- cost_pi (r_p s) u a ;;
          s <- (if dlt w dzero then
                  x <- vget (r_exc s) u ;;
                  push u i (dmin (a_cap a) x) s
                else Ok s) ;;
          x <- vget (r_exc s) u ;;
          if deq x dzero then Ok (true, s)
          else
            cur <- vset (r_cur s) u (a_next a) ;;
            scan fuel u (with_cur s cur)
      end
  end.

(** CostScaling.cpp:53-69, the lambda [Modify] *)
Definition modify (fuel : nat) (eps : D) (head : list (option nat)) (u : nat) (s : refine_st) : res refine_st :=
  x <- vget (r_exc s) u ;;
  _ <- assert_ (dlt dzero x) ;;
  '(done_, s) <- scan fuel u s ;;
  if (done_ : bool) then Ok s
  else
    x <- vget (r_exc s) u ;;
    _ <- assert_ (dlt dzero x) ;;
    s <- relabel eps u s ;;
    h <- vget head u ;;
    cur <- vset (r_cur s) u h ;;
    vis <- vset (r_vis s) u true ;;
    Ok (mkR (r_edge s) (r_p s) (r_exc s) (r_inc s) cur vis (u :: r_st s)).

(** CostScaling.cpp:70-78 *)
Fixpoint refine_loop (fuel k : nat) (eps : D) (N : nat) (head : list (option nat)) (s : refine_st)
  : res (bool * refine_st) :=
  match r_st s with
  | [] => Ok (true, s)
  | u :: st =>
      match k with
      | O => Err OutOfFuel
      | S k =>
          vis <- vset (r_vis s) u false ;;
          let s := mkR (r_edge s) (r_p s) (r_exc s) (r_inc s) (r_cur s) vis st in
          x <- vget (r_inc s) u ;;
          if dlt (dmuli (dmuli eps 3) (Z.of_nat N)) x then Ok (false, s)
          else
            s <- modify fuel eps head u s ;;
            refine_loop fuel k eps N head s
      end
  end.

(** CostScaling.cpp:11-80 *)
Definition refine (fuel : nat) (cs : scaling) : res (bool * scaling) :=
  let N := c_N cs in
  '(edge, exc) <- saturate_all fuel cs ;;
  '(vis, st) <- init_stack exc (repeat false N) N ;;
  '(b, s) <- refine_loop fuel fuel (c_eps cs) N (c_head cs)
               (mkR edge (c_p cs) exc (repeat dzero N) (c_head cs) vis st) ;;
  Ok (b, mkCs (c_eps cs) (r_p s) (c_head cs) (r_edge s) N (c_total cs)).

(** CostScaling.cpp:82-86; [len] after [len++] is the index of the new arc *)
Definition add_edge (cs : scaling) (u v : nat) (c : Z) (cap : D) : res scaling :=
  h <- vget (c_head cs) u ;;
  head <- vset (c_head cs) u (Some (length (c_edge cs))) ;;
  Ok (mkCs (c_eps cs) (c_p cs) head (c_edge cs ++ [mkArc h v c cap]) (c_N cs) (c_total cs)).

(** CostScaling.cpp:88-104 *)
Definition cs_init (n : nat) (arcs : list InputEdge) : res scaling :=
  cs <- for_each arcs (mkCs done [] (repeat None n) [] n dzero) (fun cs e =>
    let cs := mkCs (dmax (c_eps cs) (of_int (in_cost e))) (c_p cs) (c_head cs) (c_edge cs) (c_N cs)
                   (dadd (c_total cs) (dmuli (in_cap e) (in_cost e))) in
    cs <- add_edge cs (in_u e) (in_v e) (in_cost e) (in_cap e) ;;
    c <- ck (- in_cost e) ;;
    add_edge cs (in_v e) (in_u e) c dzero) ;;
  Ok (mkCs (c_eps cs) (repeat dzero n) (c_head cs) (c_edge cs) (c_N cs) (c_total cs)).

(** CostScaling.cpp:110-115 *)
Fixpoint scale_loop (fuel k : nat) (cs : scaling) : res (bool * scaling) :=
  if dle done (dmuli (c_eps cs) (Z.of_nat (c_N cs))) then
    match k with
    | O => Err OutOfFuel
    | S k =>
        '(b, cs) <- refine fuel cs ;;
        if (b : bool) then
          scale_loop fuel k (mkCs (dhalf (c_eps cs)) (c_p cs) (c_head cs) (c_edge cs) (c_N cs) (c_total cs))
        else Ok (false, cs)
    end
  else Ok (true, cs).

(** CostScaling.cpp:106-120 *)
Definition cs_min_cost (fuel : nat) (n : nat) (arcs : list InputEdge) : res (bool * D) :=
  cs <- cs_init n arcs ;;
  '(b, cs) <- scale_loop fuel fuel cs ;;
  if (b : bool) then
    total <- for_each (c_edge cs) (c_total cs) (fun t e => Ok (dsub t (dmuli (a_cap e) (a_cost e)))) ;;
    Ok (true, dhalf (dopp total))
  else Ok (false, dzero).

(** SimpleSolver.hpp:7, [M = 1e9] *)
Definition big_M : D := of_int 1000000000.

(** SimpleSolver.cpp:15-23 *)
Definition bij (f : Fn D) (l r x : Z) : res D :=
  if x <? l then Ok (dopp big_M)
  else if r <=? x then Ok big_M
  else
    x1 <- ck (x + 1) ;;
    a <- f x1 ;;
    b <- f x ;;
    Ok (dsub a b).

(** SimpleSolver.cpp:36-49 with u = i, v = 0, and 75-88 with u = e.i, v = e.j *)
Fixpoint add_hinges (fuel : nat) (f : Fn D) (l r : Z) (u v : nat) (j : Z) (edge : list InputEdge)
  : res (list InputEdge) :=
  if j <=? r then
    match fuel with
    | O => Err OutOfFuel
    | S fuel =>
        j' <- ck (j - 1) ;;
        lower <- bij f l r j' ;;
        upper <- bij f l r j ;;
        edge <-
          (if dle dzero lower then Ok (edge ++ [mkIn u v j (dsub upper lower)])
           else
             c <- ck (- j) ;;
             if dle upper dzero then Ok (edge ++ [mkIn v u c (dsub upper lower)])
             else Ok (edge ++ [mkIn u v j upper; mkIn v u c (dopp lower)])) ;;
        j' <- ck (j + 1) ;;
        add_hinges fuel f l r u v j' edge
    end
  else Ok edge.

(** the local variables of Solve: [edge], [functions] with [limi], [mx] *)
Definition collected : Type := list InputEdge * list (Fn D * Z * Z) * D.

(** SimpleSolver.cpp:30-52; [None] is the [return nan("")] of line 33 *)
Fixpoint collect_nodes (fuel : nat) (mus : list (MuLimit D)) (is : list nat) (st : collected)
  : res (option collected) :=
  match is with
  | [] => Ok (Some st)
  | i :: is =>
      let '(edge, functions, mx) := st in
      e <- vget mus i ;;
      if m_u e <? m_l e then Ok None
      else
        a <- m_fn e (m_l e) ;;
        b <- m_fn e (m_u e) ;;
        edge <- add_hinges fuel (m_fn e) (m_l e) (m_u e) i 0 (m_l e) edge ;;
        collect_nodes fuel mus is (edge, functions ++ [(m_fn e, m_l e, m_u e)], dadd mx (dmax a b))
  end.

(** SimpleSolver.cpp:58-73, the function E *)
Definition best_above (fuel : nat) (e : OmegaLimit D) : Fn D :=
  fun x => function_min fuel (o_fn e) (Z.max (o_l e) x) (o_u e).

(** SimpleSolver.cpp:53-91 *)
Fixpoint collect_edges (fuel : nat) (mus : list (MuLimit D)) (oms : list (OmegaLimit D)) (st : collected)
  : res (option collected) :=
  match oms with
  | [] => Ok (Some st)
  | e :: oms =>
      let '(edge, functions, mx) := st in
      if o_u e <? o_l e then Ok None
      else
        a <- o_fn e (o_l e) ;;
        b <- o_fn e (o_u e) ;;
        let E := best_above fuel e in
        mu <- vget mus (o_i e) ;;
        mv <- vget mus (o_j e) ;;
        d <- ck (m_l mu - m_u mv) ;;
        let l := Z.min (o_l e) d in
        edge <- add_hinges fuel E l (o_u e) (o_i e) (o_j e) l edge ;;
        collect_edges fuel mus oms (edge, functions ++ [(E, l, o_u e)], dadd mx (dmax a b))
  end.

(** SimpleSolver.cpp:25-114; [None] is nan *)
Definition simple_solve (fuel : nat) (n : nat) (mus : list (MuLimit D)) (oms : list (OmegaLimit D))
  : res (option D) :=
  st <- collect_nodes fuel mus (seq 1 n) ([], [], dzero) ;;
  match st with
  | None => Ok None
  | Some st =>
      st <- collect_edges fuel mus oms st ;;
      match st with
      | None => Ok None
      | Some (edge, functions, mx) =>
          _ <- ck (Z.of_nat n + 1) ;;
          '(_, r) <- cs_min_cost fuel (n + 1) edge ;;
          r <- for_each functions r (fun r '(f, lo, hi) =>
                 m <- function_min fuel f lo hi ;;
                 Ok (dadd r m)) ;;
          Ok (if dlt mx r then None else Some r)
      end
  end.

End CostScaling.

Arguments InputEdge : clear implicits.
Arguments Arc : clear implicits.
Arguments scaling : clear implicits.
Arguments refine_st : clear implicits.
