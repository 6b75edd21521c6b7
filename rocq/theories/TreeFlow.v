(** * The solver on any implementation of forests

    The functions of Flow.v and [solve] with the link-cut tree replaced by an arbitrary type [H]
    and a function [call] that performs the methods; [f_nodes] is not used.  Not in the repository:
    a tool to state what the rest of the code needs of the link-cut tree. *)
From Verif Require Import Base Data UniqueQueue LCT LCTSpec ProblemDefine Flow ProblemSolver.
Local Open Scope Z_scope.

(** ** Programs *)
Fixpoint tree_calls {H : Type} (call : H -> lct_op -> res (H * lct_out)) (h : H) (os : list lct_op) : res (H * list lct_out) :=
  match os with
  | [] => Ok (h, [])
  | op :: os =>
      '(h, o) <- call h op ;;
      '(h, outs) <- tree_calls call h os ;;
      Ok (h, o :: outs)
  end.

(** every program that is possible on a plain forest of N nodes gives its outputs *)
Definition implements_forest {H : Type} (N : nat) (h0 : H) (call : H -> lct_op -> res (H * lct_out)) : Prop :=
  forall os f outs, lct_run N forest0 os f outs -> exists h, tree_calls call h0 os = Ok (h, outs).

Definition out_node (o : lct_out) : res nat := match o with ONode r => Ok r | _ => Err BadCall end.
Definition out_val (o : lct_out) : res Z := match o with OVal v => Ok v | _ => Err BadCall end.
Definition out_min (o : lct_out) : res (Z * nat) := match o with OMin v r => Ok (v, r) | _ => Err BadCall end.

Section Tree.
Variable one : Z.
#[local] Hint Extern 0 (DataOps Z) => exact (exact_ops one) : typeclass_instances.
Context {H : Type}.
Variable call : H -> lct_op -> res (H * lct_out).

(** Flow.cpp:147-154 *)
Definition link_t (s : flow Z) (h : H) (p : nat) : res (flow Z * H) :=
  g <- vget (f_G s) p ;;
  c <- vget (f_cur s) p ;;
  e_id <- vget g c ;;
  e <- vget (f_edges s) e_id ;;
  fa <- vset (f_fa s) p (Some (o_j e)) ;;
  let s := with_fa s fa in
  v <- q s e_id ;;
  '(h, _) <- call h (SetVal p v) ;;
  '(h, _) <- call h (SetFa p (o_j e)) ;;
  Ok (s, h).

(** Flow.cpp:156-162 *)
Definition flow_cut_t (s : flow Z) (h : H) (p : nat) : res (flow Z * H) :=
  fa <- vset (f_fa s) p None ;;
  let s := with_fa s fa in
  '(h, _) <- call h (Cut p) ;;
  g <- vget (f_G s) p ;;
  c <- vget (f_cur s) p ;;
  e_id <- vget g c ;;
  a <- q s e_id ;;
  '(h, o) <- call h (GetVal p) ;;
  v <- out_val o ;;
  s <- add_flow_of_edge s e_id (dsub a v) ;;
  Ok (s, h).

(** Flow.cpp:97-103 *)
Definition send_push_t (s : flow Z) (h : H) (p root_id : nat) (x : Z) : res (flow Z * H) :=
  '(h, _) <- call h (AddPath p (dopp x)) ;;
  a <- vget (f_imb s) p ;;
  im <- vset (f_imb s) p (dsub a x) ;;
  b <- vget im root_id ;;
  im <- vset im root_id (dadd b x) ;;
  let s := with_imb s im in
  r <- vget im root_id ;;
  if dlt dzero r then
    u <- uq_push (f_uq s) root_id ;; Ok (with_uq s u, h)
  else Ok (s, h).

(** Flow.cpp:104-113 *)
Fixpoint send_loop_t (fuel : nat) (s : flow Z) (h : H) (p root_id : nat) : res (flow Z * H) :=
  if Nat.eqb p root_id then Ok (s, h)
  else
    match fuel with
    | O => Err OutOfFuel
    | S fuel =>
        '(h, o) <- call h (GetMin p) ;;
        '(v, r) <- out_min o ;;
        a <- vget (f_imb s) p ;;
        if dlt a v then send_push_t s h p root_id a
        else
          '(s, h) <- send_push_t s h p root_id v ;;
          '(s, h) <- flow_cut_t s h r ;;
          send_loop_t fuel s h p r
    end.

(** Flow.cpp:94-114 *)
Definition send_t (fuel : nat) (s : flow Z) (h : H) (p : nat) : res (flow Z * H) :=
  '(h, o) <- call h (FindRoot p) ;;
  root_id <- out_node o ;;
  send_loop_t fuel s h p root_id.

(** Flow.cpp:116-126 *)
Definition update_scaling_t (s : flow Z) (h : H) (p : nat) : res (flow Z * H) :=
  g <- vget (f_G s) p ;;
  '(s, h) <- for_each g (s, h) (fun '(s, h) e_id =>
         e <- vget (f_edges s) e_id ;;
         let cut_p := o_j e in
         a <- vget (f_fa s) cut_p ;;
         if ptr_eqb a (Some p) then flow_cut_t s h cut_p else Ok (s, h)) ;;
  a <- vget (f_scal s) p ;;
  a' <- ck (a + Z.quot (f_eps s) 2) ;;
  sc <- vset (f_scal s) p a' ;;
  cu <- vset (f_cur s) p O ;;
  Ok (with_cur (with_scal s sc) cu, h).

(** Flow.cpp:85-92 *)
Fixpoint choice_loop_t (fuel0 fuel : nat) (s : flow Z) (h : H) (p : nat) : res (flow Z * H) :=
  match fuel with
  | O => Err OutOfFuel
  | S fuel =>
      c <- vget (f_cur s) p ;;
      g <- vget (f_G s) p ;;
      if (c <? length g)%nat then
        e_id <- vget g c ;;
        v <- q s e_id ;;
        if dlt dzero v then
          '(s, h) <- link_t s h p ;; send_t fuel0 s h p
        else
          cu <- vset (f_cur s) p (c + 1)%nat ;;
          choice_loop_t fuel0 fuel (with_cur s cu) h p
      else update_scaling_t s h p
  end.

(** Flow.cpp:74-78 *)
Fixpoint refine_loop_t (fuel0 fuel : nat) (s : flow Z) (h : H) : res (flow Z * H) :=
  if uq_empty (f_uq s) then Ok (s, h)
  else
    match fuel with
    | O => Err OutOfFuel
    | S fuel =>
        p <- uq_front (f_uq s) ;;
        '(s, h) <- choice_loop_t fuel0 fuel0 s h p ;;
        p <- uq_front (f_uq s) ;;
        a <- vget (f_imb s) p ;;
        s <- (if deq a dzero
              then u <- uq_pop (f_uq s) ;; Ok (with_uq s u)
              else Ok s) ;;
        refine_loop_t fuel0 fuel s h
    end.

(** Flow.cpp:80-82 *)
Definition cut_all_t (s : flow Z) (h : H) : res (flow Z * H) :=
  for_each (seq 0 (f_n s + 1)) (s, h) (fun '(s, h) i =>
    a <- vget (f_fa s) i ;;
    match a with
    | None => Ok (s, h)
    | Some _ => flow_cut_t s h i
    end).

(** Flow.cpp:31-35, one iteration *)
Definition phase_t (fuel : nat) (s : flow Z) (h : H) : res (flow Z * H) :=
  let s := initialization s in
  s <- push_all_admissible_edge s ;;
  '(s, h) <- refine_loop_t fuel fuel s h ;;
  cut_all_t s h.

(** Flow.cpp:31-35 *)
Fixpoint scaling_loop_t (fuel0 fuel : nat) (s : flow Z) (h : H) : res (flow Z * H) :=
  if f_eps s <? 2 then Ok (s, h)
  else
    match fuel with
    | O => Err OutOfFuel
    | S fuel =>
        '(s, h) <- phase_t fuel0 s h ;;
        scaling_loop_t fuel0 fuel (with_eps s (Z.quot (f_eps s) 2)) h
    end.

(** Flow.cpp:30-46 *)
Definition min_cost_t (fuel : nat) (s : flow Z) (h : H) : res (flow Z * H * Z) :=
  '(s, h) <- scaling_loop_t fuel fuel s h ;;
  '(s, answer) <- sum_answer fuel s ;;
  Ok (s, h, dhalf answer).

(** a state without its nodes *)
Definition strip (s : flow Z) : flow Z := with_nodes s [].

(** ProblemSolver.cpp:42-59; [new N] makes N nodes *)
Definition solve_t (new : nat -> H) (fuel : nat) (s : solver Z) : res (option Z) :=
  if s_n s =? SIZE_MAX then Ok None
  else
    r <- merge_limits s ;;
    match r with
    | None => Ok None
    | Some limits =>
        '(vmax, M, U) <- calc fuel limits ;;
        fl <- flow_new fuel (Z.to_nat (s_n s)) M U limits ;;
        '(_, mc) <- min_cost_t fuel (strip fl) (new (Z.to_nat (s_n s) + 1)%nat) ;;
        if dlt vmax mc then Ok None else Ok (Some mc)
    end.

Definition run_solver_t (new : nat -> H) (fuel : nat) (n : Z) (mus : list (MuLimit Z)) (oms : list (OmegaLimit Z)) : res (option Z) :=
  s <- solver_new fuel n mus oms ;;
  solve_t new fuel s.
End Tree.

(** ** Parents and values in two vectors *)
Definition plain := list (option nat * Z).
Definition plain_new (N : nat) : plain := repeat (None, 0) N.

(** the nodes from [x] to its root; [fuel] nodes at most *)
Fixpoint plain_way (fuel : nat) (h : plain) (x : nat) : res (list nat) :=
  match fuel with
  | O => Err OutOfFuel
  | S fuel =>
      '(p, _) <- vget h x ;;
      match p with
      | None => Ok [x]
      | Some y => l <- plain_way fuel h y ;; Ok (x :: l)
      end
  end.

Definition plain_add (h : plain) (x : nat) (d : Z) : res plain :=
  '(p, v) <- vget h x ;;
  vset h x (p, v + d).

(** the least value, and the last of the nodes that have it *)
Definition plain_min (h : plain) (l : list nat) (best : Z * nat) : res (Z * nat) :=
  for_each l best (fun best y =>
    '(_, v) <- vget h y ;;
    Ok (if v <=? fst best then (v, y) else best)).

Definition plain_call (h : plain) (op : lct_op) : res (plain * lct_out) :=
  match op with
  | FindRoot x => l <- plain_way (length h) h x ;; Ok (h, ONode (last l x))
  | SetFa x y => '(_, v) <- vget h x ;; h <- vset h x (Some y, v) ;; Ok (h, ONone)
  | Cut x => '(_, v) <- vget h x ;; h <- vset h x (None, v) ;; Ok (h, ONone)
  | GetVal x => '(_, v) <- vget h x ;; Ok (h, OVal v)
  | GetMin x => l <- plain_way (length h) h x ;; '(_, v) <- vget h x ;; '(v, y) <- plain_min h (removelast l) (v, x) ;; Ok (h, OMin v y)
  | SetVal x v => '(p, _) <- vget h x ;; h <- vset h x (p, v) ;; Ok (h, ONone)
  | AddPath x d => l <- plain_way (length h) h x ;; h <- for_each l h (fun h y => plain_add h y d) ;; Ok (h, ONone)
  end.
