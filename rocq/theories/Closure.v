(** * The function objects the solver builds

    Copies of the functions of ProblemDefine.v, Flow.v and ProblemSolver.v that make new
    cost functions out of old ones.  Here the new function is kept as a term that says
    how it is made: each constructor of [clos] is one lambda of the source, with the
    function objects it captures.  [run] is the function, [nesting] the number of
    function objects that are active at the same time during a call. *)
From Verif Require Import Base Data ProblemDefine Flow ProblemSolver EvalSpec.
Local Open Scope Z_scope.

Section Closure.
Context {D : Type} {ops : DataOps D}.

Inductive clos :=
| CEmpty                        (* Flow.cpp:16, a value-initialised std::function *)
| CUser (who : user_fn)         (* a function of the user *)
| CPre (min_point : Z) (c : clos) (* ProblemDefine.cpp:23-25 *)
| CRev (c : clos)               (* ProblemDefine.cpp:38 *)
| CSum (c c' : clos)            (* ProblemDefine.cpp:46-48 *)
| CTilt (x : D) (c : clos).     (* Flow.cpp:40 *)

Fixpoint nesting (c : clos) : nat :=
  match c with
  | CEmpty => 0
  | CUser _ => 1
  | CPre _ c | CRev c | CTilt _ c => S (nesting c)
  | CSum c c' => S (Nat.max (nesting c) (nesting c'))
  end.

(** the functions of the user *)
Variable mus : list (MuLimit D).
Variable oms : list (OmegaLimit D).
Definition user (who : user_fn) : Fn D :=
  match who with
  | OfMu i => match nth_error mus i with Some m => m_fn m | None => fun _ => Err BadCall end
  | OfOmega k => match nth_error oms k with Some o => o_fn o | None => fun _ => Err BadCall end
  end.

Fixpoint run (c : clos) : Fn D :=
  match c with
  | CEmpty => fun _ => Err BadCall
  | CUser who => user who
  | CPre min_point c => fun x => run c (Z.max min_point x)
  | CRev c => fun x => y <- ck (- x) ;; run c y
  | CSum c c' => fun x => a <- run c x ;; b <- run c' x ;; Ok (dadd a b)
  | CTilt x c => fun w => a <- run c w ;; Ok (dsub a (dmuli x w))
  end.

(** OmegaLimit with such a term as function *)
Record climit := mkC { c_l : Z; c_u : Z; c_fn : clos; c_i : nat; c_j : nat }.
Definition plain (c : climit) : OmegaLimit D := mkOm (c_l c) (c_u c) (run (c_fn c)) (c_i c) (c_j c).

(** ProblemDefine.cpp:18-26 *)
Definition pre_processing_c (fuel : nat) (o : climit) : res climit :=
  min_point <- partition_point fuel (c_l o) (c_u o) (decreasing_at (run (c_fn o))) ;;
  Ok (mkC (c_l o) (c_u o) (CPre min_point (c_fn o)) (c_i o) (c_j o)).

(** ProblemDefine.cpp:36-40 *)
Definition reverse_c (o : climit) : res climit :=
  l' <- ck (- c_u o) ;;
  u' <- ck (- c_l o) ;;
  Ok (mkC l' u' (CRev (c_fn o)) (c_j o) (c_i o)).

(** ProblemDefine.cpp:42-52 *)
Definition merge_c (o other : climit) : res (climit * bool) :=
  let l := Z.max (c_l o) (c_l other) in
  let u := Z.min (c_u o) (c_u other) in
  _ <- assert_ (Nat.eqb (c_i o) (c_i other)) ;;
  _ <- assert_ (Nat.eqb (c_j o) (c_j other)) ;;
  Ok (mkC l u (CSum (c_fn o) (c_fn other)) (c_i o) (c_j o), negb (l <=? u)).

(** ProblemSolver.cpp:28-38, one iteration *)
Definition check_omega_c (fuel : nat) (n : Z) (it : climit) : res (option climit) :=
  if negb ((1 <=? Z.of_nat (c_i it)) && (Z.of_nat (c_i it) <=? n)) then Ok None
  else if negb ((1 <=? Z.of_nat (c_j it)) && (Z.of_nat (c_j it) <=? n)) then Ok None
  else if Nat.eqb (c_i it) (c_j it) then Ok None
  else if negb (c_l it <=? c_u it) then Ok None
  else
    it <- pre_processing_c fuel it ;;
    a <- vget mus (c_i it) ;;
    b <- vget mus (c_j it) ;;
    l <- ck (m_l a - m_u b) ;;
    let it := mkC l (c_u it) (c_fn it) (c_i it) (c_j it) in
    if l <=? c_u it then Ok (Some it) else Ok None.

(** ProblemSolver.cpp:28-38 *)
Fixpoint check_omegas_c (fuel : nat) (n : Z) (os : list climit) : res (option (list climit)) :=
  match os with
  | [] => Ok (Some [])
  | it :: os =>
      r <- check_omega_c fuel n it ;;
      match r with
      | None => Ok None
      | Some it =>
          r <- check_omegas_c fuel n os ;;
          match r with None => Ok None | Some l => Ok (Some (it :: l)) end
      end
  end.

(** the argument of the constructor *)
Fixpoint given (k : nat) (os : list (OmegaLimit D)) : list climit :=
  match os with
  | [] => []
  | o :: os => mkC (o_l o) (o_u o) (CUser (OfOmega k)) (o_i o) (o_j o) :: given (S k) os
  end.

(** ProblemSolver.cpp:6-40: the member [Omegas] of the new object, [None] when the data are
    not accepted *)
Definition solver_new_c (fuel : nat) (n : Z) : res (option (list climit)) :=
  if negb (Z.of_nat (length mus) =? (n + 1) mod (SIZE_MAX + 1)) then Ok None
  else
    b <- check_mus fuel n mus 1 ;;
    if negb (b : bool) then Ok None else check_omegas_c fuel n (given 0 oms).

Definition cmap := list ((nat * nat) * climit).
Fixpoint find_c (m : cmap) (k : nat * nat) : option climit :=
  match m with [] => None | (k', v) :: m => if key_eqb k' k then Some v else find_c m k end.
Fixpoint set_c (m : cmap) (k : nat * nat) (v : climit) : cmap :=
  match m with
  | [] => [(k, v)]
  | (k', v') :: m' =>
      if key_eqb k' k then (k, v) :: m'
      else if key_ltb k k' then (k, v) :: m
      else (k', v') :: set_c m' k v
  end.

(** ProblemSolver.cpp:66-77 *)
Fixpoint merge_loop_c (os : list climit) (mp : cmap) : res (option cmap) :=
  match os with
  | [] => Ok (Some mp)
  | it :: os =>
      it <- (if (c_i it <? c_j it)%nat then reverse_c it else Ok it) ;;
      let k := (c_i it, c_j it) in
      match find_c mp k with
      | Some o =>
          '(o', err) <- merge_c o it ;;
          if (err : bool) then Ok None else merge_loop_c os (set_c mp k o')
      | None => merge_loop_c os (set_c mp k it)
      end
  end.

(** ProblemSolver.cpp:61-87 *)
Definition merge_limits_c (n : Z) (os : list climit) : res (option (list climit)) :=
  r <- merge_loop_c os [] ;;
  match r with
  | None => Ok None
  | Some mp =>
      ms <- for_each (seq 1 (Z.to_nat n)) [] (fun ret i =>
              m <- vget mus i ;;
              Ok (ret ++ [mkC (m_l m) (m_u m) (CUser (OfMu i)) i 0])) ;;
      Ok (Some (map snd mp ++ ms))
  end.

(** Flow.cpp:18-23 *)
Fixpoint double_edges_c (k : nat) (edges : list climit) : res (list climit) :=
  match k with
  | O => Ok edges
  | S k =>
      let i := (2 * k)%nat in
      e <- vget edges k ;;
      edges <- vset edges i e ;;
      edges <- vset edges (i + 1) e ;;
      e' <- reverse_c e ;;
      edges <- vset edges (i + 1) e' ;;
      double_edges_c k edges
  end.
Definition edges_c (limits : list climit) : res (list climit) :=
  double_edges_c (length limits) (limits ++ repeat (mkC 0 0 CEmpty 0 0) (length limits)).

(** Flow.cpp:37-42: the edges after [min_cost], with flows [xs] *)
Definition tilt_c (e : climit) (x : D) : climit := mkC (c_l e) (c_u e) (CTilt x (c_fn e)) (c_i e) (c_j e).
Definition tilted_c (es : list climit) (xs : list D) : list climit := map (fun ex => tilt_c (fst ex) (snd ex)) (combine es xs).
End Closure.
Arguments clos : clear implicits.
Arguments climit : clear implicits.
