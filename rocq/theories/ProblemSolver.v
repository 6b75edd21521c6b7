(** * src/include/ProblemSolver.hpp, src/ProblemSolver.cpp *)
From Verif Require Import Base Data ProblemDefine Flow.
Local Open Scope Z_scope.

Section Solver.
Context {D : Type} {ops : DataOps D}.

(** ProblemSolver.hpp:34-36.  [n] is a size_t, kept as a [Z] in [0, 2^64). *)
Record solver := mkSolver {
  s_n : Z;
  s_mus : list (MuLimit D);
  s_oms : list (OmegaLimit D)
}.

(** ProblemSolver.cpp:15-18: the state the constructor leaves on bad data *)
Definition invalid : solver := mkSolver SIZE_MAX [] [].

(** ProblemSolver.cpp:24-26; the result is [false] when the check fails *)
Fixpoint check_mus (fuel : nat) (n : Z) (mus : list (MuLimit D)) (i : nat) : res bool :=
  if n <? Z.of_nat i then Ok true
  else
    match fuel with
    | O => Err OutOfFuel
    | S fuel =>
        m <- vget mus i ;;
        if m_l m <=? m_u m then check_mus fuel n mus (S i) else Ok false
    end.

(** ProblemSolver.cpp:28-38, one iteration; [None] when a check fails *)
Definition check_omega (fuel : nat) (n : Z) (mus : list (MuLimit D)) (it : OmegaLimit D)
  : res (option (OmegaLimit D)) :=
  if negb ((1 <=? Z.of_nat (o_i it)) && (Z.of_nat (o_i it) <=? n)) then Ok None
  else if negb ((1 <=? Z.of_nat (o_j it)) && (Z.of_nat (o_j it) <=? n)) then Ok None
  else if Nat.eqb (o_i it) (o_j it) then Ok None
  else if negb (o_l it <=? o_u it) then Ok None
  else
    it <- pre_processing fuel it ;;
    a <- vget mus (o_i it) ;;
    b <- vget mus (o_j it) ;;
    l <- ck (m_l a - m_u b) ;;
    let it := mkOm l (o_u it) (o_fn it) (o_i it) (o_j it) in
    if l <=? o_u it then Ok (Some it) else Ok None.

(** ProblemSolver.cpp:28-38 *)
Fixpoint check_omegas (fuel : nat) (n : Z) (mus : list (MuLimit D)) (oms : list (OmegaLimit D))
  : res (option (list (OmegaLimit D))) :=
  match oms with
  | [] => Ok (Some [])
  | it :: oms =>
      r <- check_omega fuel n mus it ;;
      match r with
      | None => Ok None
      | Some it =>
          r <- check_omegas fuel n mus oms ;;
          match r with None => Ok None | Some l => Ok (Some (it :: l)) end
      end
  end.

(** ProblemSolver.cpp:6-40.  [assert(n >= 0)] is always true for a size_t;
    [n + 1] wraps modulo 2^64. *)
Definition solver_new (fuel : nat) (n : Z) (mus : list (MuLimit D)) (oms : list (OmegaLimit D))
  : res solver :=
  if negb (Z.of_nat (length mus) =? (n + 1) mod (SIZE_MAX + 1)) then Ok invalid
  else
    b <- check_mus fuel n mus 1 ;;
    if negb (b : bool) then Ok invalid
    else
      r <- check_omegas fuel n mus oms ;;
      match r with
      | None => Ok invalid
      | Some oms => Ok (mkSolver n mus oms)
      end.

(** std::map<std::pair<size_t,size_t>, OmegaLimit>: list sorted by key *)
Definition lmap := list ((nat * nat) * OmegaLimit D).

Definition key_eqb (a b : nat * nat) : bool :=
  Nat.eqb (fst a) (fst b) && Nat.eqb (snd a) (snd b).
Definition key_ltb (a b : nat * nat) : bool :=
  (fst a <? fst b)%nat || (Nat.eqb (fst a) (fst b) && (snd a <? snd b)%nat).

(** std::map::find *)
Fixpoint map_find (m : lmap) (k : nat * nat) : option (OmegaLimit D) :=
  match m with
  | [] => None
  | (k', v) :: m => if key_eqb k' k then Some v else map_find m k
  end.

(** std::map insertion or assignment, [mp[k] = v] *)
Fixpoint map_set (m : lmap) (k : nat * nat) (v : OmegaLimit D) : lmap :=
  match m with
  | [] => [(k, v)]
  | (k', v') :: m' =>
      if key_eqb k' k then (k, v) :: m'
      else if key_ltb k k' then (k, v) :: m
      else (k', v') :: map_set m' k v
  end.

(** ProblemSolver.cpp:66-77; [None] when [merge] reports an error *)
Fixpoint merge_loop (oms : list (OmegaLimit D)) (mp : lmap) : res (option lmap) :=
  match oms with
  | [] => Ok (Some mp)
  | it :: oms =>
      it <- (if (o_i it <? o_j it)%nat then reverse it else Ok it) ;;
      let k := (o_i it, o_j it) in
      match map_find mp k with
      | Some o =>
          '(o', err) <- merge o it ;;
          if (err : bool) then Ok None
          else merge_loop oms (map_set mp k o')
      | None => merge_loop oms (map_set mp k it)
      end
  end.

(** ProblemSolver.cpp:61-87 *)
Definition merge_limits (s : solver) : res (option (list (OmegaLimit D))) :=
  r <- merge_loop (s_oms s) [] ;;
  match r with
  | None => Ok None
  | Some mp =>
      ms <- for_each (seq 1 (Z.to_nat (s_n s))) [] (fun ret i =>
              m <- vget (s_mus s) i ;;
              Ok (ret ++ [mkOm (m_l m) (m_u m) (m_fn m) i 0])) ;;
      Ok (Some (map snd mp ++ ms))
  end.

(** ProblemSolver.cpp:89-99 *)
Definition calc (fuel : nat) (limits : list (OmegaLimit D)) : res (D * D * Z) :=
  for_each limits (dzero, done, 0) (fun '(vmax, M, U) it =>
    a <- o_fn it (o_l it) ;;
    b <- o_fn it (o_u it) ;;
    let vmax := dadd vmax (dmax a b) in
    mi <- limit_min fuel it ;;
    let M := dadd M (dsub (dmax a b) mi) in
    d <- ck (o_u it - o_l it) ;;
    Ok (vmax, M, Z.max U d)).

(** ProblemSolver.cpp:42-59 *)
Definition solve (fuel : nat) (s : solver) : res (option D) :=
  if s_n s =? SIZE_MAX then Ok None
  else
    r <- merge_limits s ;;
    match r with
    | None => Ok None
    | Some limits =>
        '(vmax, M, U) <- calc fuel limits ;;
        fl <- flow_new fuel (Z.to_nat (s_n s)) M U limits ;;
        '(_, mc) <- min_cost fuel fl ;;
        if dlt vmax mc then Ok None else Ok (Some mc)
    end.

(** The way the library is used (test/test.cpp:51-55):
    [ProblemSolver ps(n, Mus, Omegas); ps.solve()] *)
Definition run_solver (fuel : nat) (n : Z) (mus : list (MuLimit D)) (oms : list (OmegaLimit D))
  : res (option D) :=
  s <- solver_new fuel n mus oms ;;
  solve fuel s.

End Solver.

Arguments solver : clear implicits.
