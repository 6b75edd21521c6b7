(** * src/Flow.hpp, src/Flow.cpp: cost-scaling circulation with a link-cut tree *)
From Verif Require Import Base Data UniqueQueue LCT ProblemDefine.
Local Open Scope Z_scope.

Section Flow.
Context {D : Type} {ops : DataOps D}.

(** Flow.hpp:53-70.  [fa] stores size_t(-1) for "no parent"; here [None]. *)
Record flow := mkFlow {
  f_n : nat;
  f_M : D;
  f_eps : Z;                        (* epsilon *)
  f_nodes : heap D;
  f_imb : list D;                   (* imbalances *)
  f_cur : list nat;                 (* current_edge *)
  f_uq : uqueue;
  f_fa : list (option nat);
  f_edges : list (OmegaLimit D);
  f_flows : list D;
  f_G : list (list nat);
  f_scal : list Z                   (* scaling *)
}.

Definition with_eps (s : flow) v := mkFlow (f_n s) (f_M s) v (f_nodes s) (f_imb s) (f_cur s) (f_uq s) (f_fa s) (f_edges s) (f_flows s) (f_G s) (f_scal s).
Definition with_nodes (s : flow) v := mkFlow (f_n s) (f_M s) (f_eps s) v (f_imb s) (f_cur s) (f_uq s) (f_fa s) (f_edges s) (f_flows s) (f_G s) (f_scal s).
Definition with_imb (s : flow) v := mkFlow (f_n s) (f_M s) (f_eps s) (f_nodes s) v (f_cur s) (f_uq s) (f_fa s) (f_edges s) (f_flows s) (f_G s) (f_scal s).
Definition with_cur (s : flow) v := mkFlow (f_n s) (f_M s) (f_eps s) (f_nodes s) (f_imb s) v (f_uq s) (f_fa s) (f_edges s) (f_flows s) (f_G s) (f_scal s).
Definition with_uq (s : flow) v := mkFlow (f_n s) (f_M s) (f_eps s) (f_nodes s) (f_imb s) (f_cur s) v (f_fa s) (f_edges s) (f_flows s) (f_G s) (f_scal s).
Definition with_fa (s : flow) v := mkFlow (f_n s) (f_M s) (f_eps s) (f_nodes s) (f_imb s) (f_cur s) (f_uq s) v (f_edges s) (f_flows s) (f_G s) (f_scal s).
Definition with_edges (s : flow) v := mkFlow (f_n s) (f_M s) (f_eps s) (f_nodes s) (f_imb s) (f_cur s) (f_uq s) (f_fa s) v (f_flows s) (f_G s) (f_scal s).
Definition with_flows (s : flow) v := mkFlow (f_n s) (f_M s) (f_eps s) (f_nodes s) (f_imb s) (f_cur s) (f_uq s) (f_fa s) (f_edges s) v (f_G s) (f_scal s).
Definition with_scal (s : flow) v := mkFlow (f_n s) (f_M s) (f_eps s) (f_nodes s) (f_imb s) (f_cur s) (f_uq s) (f_fa s) (f_edges s) (f_flows s) (f_G s) v.

(** Flow.cpp:10-13.  [2 * int(n + 1) * U_] is evaluated at every test. *)
Fixpoint eps_loop (fuel : nat) (n : nat) (U eps : Z) : res Z :=
  match fuel with
  | O => Err OutOfFuel
  | S fuel =>
      a <- ck (Z.of_nat (n + 1)) ;;
      b <- ck (2 * a) ;;
      c <- ck (b * U) ;;
      if eps <? c then
        e <- ck (eps * 2) ;;
        _ <- assert_ (negb (e =? 0)) ;;
        eps_loop fuel n U e
      else Ok eps
  end.

(** Flow.cpp:18-22.  [k] is [i / 2] of the loop body; it runs from
    [edges.size()/2 - 1] down to 0.  The chained assignment evaluates right to
    left: [edges[i]] first, then [edges[i + 1]], which is then reversed. *)
Fixpoint double_edges (k : nat) (edges : list (OmegaLimit D)) : res (list (OmegaLimit D)) :=
  match k with
  | O => Ok edges
  | S k =>
      let i := (2 * k)%nat in
      e <- vget edges k ;;
      edges <- vset edges i e ;;
      edges <- vset edges (i + 1) e ;;
      e' <- reverse e ;;
      edges <- vset edges (i + 1) e' ;;
      double_edges k edges
  end.

(** Flow.cpp:26-27 *)
Definition build_G (edges : list (OmegaLimit D)) (G : list (list nat)) : res (list (list nat)) :=
  for_each (seq 0 (length edges)) G (fun G e_id =>
    e <- vget edges e_id ;;
    g <- vget G (o_i e) ;;
    vset G (o_i e) (g ++ [e_id])).

(** Flow.cpp:6-28 *)
Definition flow_new (fuel : nat) (n : nat) (M : D) (U : Z) (limits : list (OmegaLimit D)) : res flow :=
  eps <- eps_loop fuel n U 1 ;;
  (* assert((epsilon / 2 / int(n + 1) >= U_)) *)
  _ <- assert_ (U <=? Z.quot (Z.quot eps 2) (Z.of_nat (n + 1))) ;;
  edges <- double_edges (length limits) (limits ++ repeat OmegaLimit0 (length limits)) ;;
  G <- build_G edges (repeat [] (n + 1)) ;;
  Ok (mkFlow n M eps (repeat node0 (n + 1)) (repeat dzero (n + 1)) (repeat O (n + 1))
             (uq_new (n + 1)) (repeat None (n + 1)) edges (repeat dzero (length edges))
             G (repeat 0 (n + 1))).

(** Flow.cpp:130-132, the lambda [ceil_div] *)
Definition ceil_div (num denom : Z) : Z :=
  Z.quot num denom + (if 0 <? Z.rem num denom then 1 else 0).

(** Flow.cpp:128-140 *)
Definition q (s : flow) (e_id : nat) : res D :=
  e <- vget (f_edges s) e_id ;;
  pi <- vget (f_scal s) (o_i e) ;;
  pj <- vget (f_scal s) (o_j e) ;;
  d <- ck (pi - pj) ;;
  t <- ck (ceil_div d (Z.of_nat (2 * (f_n s + 1))) - 1) ;;
  t1 <- ck (t + 1) ;;
  x <- vget (f_flows s) e_id ;;
  if o_u e <? t1 then Ok (dsub (f_M s) x)
  else if t <? o_l e then Ok dzero
  else
    a <- o_fn e t1 ;;
    b <- o_fn e t ;;
    Ok (dmax dzero (dsub (dsub a b) x)).

(** [e_id ^ 1] *)
Definition rev_id (e_id : nat) : nat := Nat.lxor e_id 1.

(** Flow.cpp:142-145 *)
Definition add_flow_of_edge (s : flow) (e_id : nat) (flow_add : D) : res flow :=
  x <- vget (f_flows s) e_id ;;
  fl <- vset (f_flows s) e_id (dadd x flow_add) ;;
  x <- vget fl e_id ;;
  fl <- vset fl (rev_id e_id) (dopp x) ;;
  Ok (with_flows s fl).

(** Flow.cpp:147-154 *)
Definition link (fuel : nat) (s : flow) (p : nat) : res flow :=
  g <- vget (f_G s) p ;;
  c <- vget (f_cur s) p ;;
  e_id <- vget g c ;;
  e <- vget (f_edges s) e_id ;;
  fa <- vset (f_fa s) p (Some (o_j e)) ;;
  let s := with_fa s fa in
  v <- q s e_id ;;
  h <- set_val fuel (f_nodes s) p v ;;
  (* &nodes[e.j] *)
  _ <- vget (f_nodes s) (o_j e) ;;
  h <- set_fa fuel h p (Some (o_j e)) ;;
  Ok (with_nodes s h).

(** Flow.cpp:156-162 *)
Definition flow_cut (fuel : nat) (s : flow) (p : nat) : res flow :=
  fa <- vset (f_fa s) p None ;;
  let s := with_fa s fa in
  h <- cut fuel (f_nodes s) p ;;
  let s := with_nodes s h in
  g <- vget (f_G s) p ;;
  c <- vget (f_cur s) p ;;
  e_id <- vget g c ;;
  a <- q s e_id ;;
  '(h, v) <- get_val fuel (f_nodes s) p ;;
  let s := with_nodes s h in
  add_flow_of_edge s e_id (dsub a v).

(** Flow.cpp:97-103, the lambda [push] of [send] *)
Definition send_push (fuel : nat) (s : flow) (p root_id : nat) (x : D) : res flow :=
  h <- add_val_way_to_root fuel (f_nodes s) p (dopp x) ;;
  let s := with_nodes s h in
  a <- vget (f_imb s) p ;;
  im <- vset (f_imb s) p (dsub a x) ;;
  b <- vget im root_id ;;
  im <- vset im root_id (dadd b x) ;;
  let s := with_imb s im in
  r <- vget im root_id ;;
  if dlt dzero r then
    u <- uq_push (f_uq s) root_id ;; Ok (with_uq s u)
  else Ok s.

(** Flow.cpp:104-113 *)
Fixpoint send_loop (fuel0 fuel : nat) (s : flow) (p root_id : nat) : res flow :=
  if Nat.eqb p root_id then Ok s
  else
    match fuel with
    | O => Err OutOfFuel
    | S fuel =>
        '(h, m) <- get_min_wtrbnr fuel0 (f_nodes s) p ;;
        let s := with_nodes s h in
        a <- vget (f_imb s) p ;;
        if dlt a (fst m) then send_push fuel0 s p root_id a
        else
          s <- send_push fuel0 s p root_id (fst m) ;;
          match snd m with
          | None => Err NullDeref
          | Some r =>
              s <- flow_cut fuel0 s r ;;
              send_loop fuel0 fuel s p r
          end
    end.

(** Flow.cpp:94-114 *)
Definition send (fuel : nat) (s : flow) (p : nat) : res flow :=
  '(h, root_id) <- find_root fuel (f_nodes s) p ;;
  send_loop fuel fuel (with_nodes s h) p root_id.

(** Flow.cpp:116-126 *)
Definition update_scaling (fuel : nat) (s : flow) (p : nat) : res flow :=
  g <- vget (f_G s) p ;;
  s <- for_each g s (fun s e_id =>
         e <- vget (f_edges s) e_id ;;
         let cut_p := o_j e in
         a <- vget (f_fa s) cut_p ;;
         if ptr_eqb a (Some p) then flow_cut fuel s cut_p else Ok s) ;;
  a <- vget (f_scal s) p ;;
  a' <- ck (a + Z.quot (f_eps s) 2) ;;
  sc <- vset (f_scal s) p a' ;;
  cu <- vset (f_cur s) p O ;;
  Ok (with_cur (with_scal s sc) cu).

(** Flow.cpp:86-91 *)
Fixpoint choice_loop (fuel0 fuel : nat) (s : flow) (p : nat) : res flow :=
  match fuel with
  | O => Err OutOfFuel
  | S fuel =>
      c <- vget (f_cur s) p ;;
      g <- vget (f_G s) p ;;
      if (c <? length g)%nat then
        e_id <- vget g c ;;
        v <- q s e_id ;;
        if dlt dzero v then
          s <- link fuel0 s p ;; send fuel0 s p
        else
          cu <- vset (f_cur s) p (c + 1)%nat ;;
          choice_loop fuel0 fuel (with_cur s cu) p
      else update_scaling fuel0 s p
  end.

(** Flow.cpp:85-92 *)
Definition choice_operator (fuel : nat) (s : flow) (p : nat) : res flow :=
  choice_loop fuel fuel s p.

(** Flow.cpp:74-78 *)
Fixpoint refine_loop (fuel0 fuel : nat) (s : flow) : res flow :=
  if uq_empty (f_uq s) then Ok s
  else
    match fuel with
    | O => Err OutOfFuel
    | S fuel =>
        p <- uq_front (f_uq s) ;;
        s <- choice_operator fuel0 s p ;;
        p <- uq_front (f_uq s) ;;
        a <- vget (f_imb s) p ;;
        s <- (if deq a dzero
              then u <- uq_pop (f_uq s) ;; Ok (with_uq s u)
              else Ok s) ;;
        refine_loop fuel0 fuel s
    end.

(** Flow.cpp:80-82 *)
Definition cut_all (fuel : nat) (s : flow) : res flow :=
  for_each (seq 0 (f_n s + 1)) s (fun s i =>
    a <- vget (f_fa s) i ;;
    match a with
    | None => Ok s
    | Some _ => flow_cut fuel s i
    end).

(** Flow.cpp:73-83 *)
Definition refine (fuel : nat) (s : flow) : res flow :=
  s <- refine_loop fuel fuel s ;;
  cut_all fuel s.

(** Flow.cpp:58-71 *)
Definition push_all_admissible_edge (s : flow) : res flow :=
  s <- for_each (seq 0 (length (f_edges s))) s (fun s e_id =>
         e <- vget (f_edges s) e_id ;;
         v <- q s e_id ;;
         if dlt dzero v then
           a <- vget (f_imb s) (o_i e) ;;
           im <- vset (f_imb s) (o_i e) (dsub a v) ;;
           b <- vget im (o_j e) ;;
           im <- vset im (o_j e) (dadd b v) ;;
           add_flow_of_edge (with_imb s im) e_id v
         else Ok s) ;;
  for_each (seq 0 (f_n s + 1)) s (fun s i =>
    a <- vget (f_imb s) i ;;
    if dlt dzero a then u <- uq_push (f_uq s) i ;; Ok (with_uq s u)
    else Ok s).

(** Flow.cpp:48-56 *)
Definition initialization (s : flow) : flow :=
  with_cur s (repeat O (length (f_cur s))).

(** One iteration of Flow.cpp:31-35 *)
Definition phase (fuel : nat) (s : flow) : res flow :=
  let s := initialization s in
  s <- push_all_admissible_edge s ;;
  refine fuel s.

(** Flow.cpp:31-35 *)
Fixpoint scaling_loop (fuel0 fuel : nat) (s : flow) : res flow :=
  if f_eps s <? 2 then Ok s
  else
    match fuel with
    | O => Err OutOfFuel
    | S fuel =>
        s <- phase fuel0 s ;;
        scaling_loop fuel0 fuel (with_eps s (Z.quot (f_eps s) 2))
    end.

(** Flow.cpp:40, [x(flows[e_id]), fn(e.fn)](int w) { return fn(w) - x * w; } *)
Definition tilt (e : OmegaLimit D) (x : D) : OmegaLimit D :=
  mkOm (o_l e) (o_u e)
       (fun w => a <- o_fn e w ;; Ok (dsub a (dmuli x w)))
       (o_i e) (o_j e).

(** Flow.cpp:36-42; the stored function of every edge is overwritten. *)
Definition sum_answer (fuel : nat) (s : flow) : res (flow * D) :=
  for_each (seq 0 (length (f_edges s))) (s, dzero) (fun '(s, answer) e_id =>
    e <- vget (f_edges s) e_id ;;
    x <- vget (f_flows s) e_id ;;
    let e' := tilt e x in
    es <- vset (f_edges s) e_id e' ;;
    let s := with_edges s es in
    m <- limit_min fuel e' ;;
    Ok (s, dadd answer m)).

(** Flow.cpp:30-46 *)
Definition min_cost (fuel : nat) (s : flow) : res (flow * D) :=
  s <- scaling_loop fuel fuel s ;;
  '(s, answer) <- sum_answer fuel s ;;
  Ok (s, dhalf answer).

End Flow.

Arguments flow : clear implicits.
