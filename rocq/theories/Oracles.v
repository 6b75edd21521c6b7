(** * Reference solvers of the test-suite: test/test.cpp, test/SimpleSolver.cpp *)
From Verif Require Import Base Data ProblemDefine.
Local Open Scope Z_scope.

Section Oracles.
Context {D : Type} {ops : DataOps D}.

(** SimpleSolver.cpp:93-104, the lambda [FunctionMin]; the same loop is in
    SimpleSolver.cpp:60-71 *)
Fixpoint ternary_loop (fuel : nat) (f : Fn D) (l r : Z) : res (Z * Z) :=
  if l <? r then
    match fuel with
    | O => Err OutOfFuel
    | S fuel =>
        d <- ck (r - l) ;;
        lmid <- ck (l + Z.quot d 3) ;;
        rmid <- ck (r - Z.quot d 3) ;;
        a <- f lmid ;;
        b <- f rmid ;;
        if dle a b then r' <- ck (rmid - 1) ;; ternary_loop fuel f l r'
        else l' <- ck (lmid + 1) ;; ternary_loop fuel f l' r
    end
  else Ok (l, r).

Definition function_min (fuel : nat) (f : Fn D) (l r : Z) : res D :=
  '(l, r) <- ternary_loop fuel f l r ;;
  a <- f l ;;
  b <- f r ;;
  Ok (dmin a b).

(** test.cpp:23-30, the body of [if (p == n)]; [None] is the early [return] *)
Fixpoint bf_leaf (oms : list (OmegaLimit D)) (v : list Z) (now : D) : res (option D) :=
  match oms with
  | [] => Ok (Some now)
  | it :: oms =>
      a <- vget v (o_i it) ;;
      b <- vget v (o_j it) ;;
      x <- ck (a - b) ;;
      if o_u it <? x then Ok None
      else
        c <- o_fn it x ;;
        bf_leaf oms v (dadd now c)
  end.

(** test.cpp:35-36, the loop over the values of one node; [rec] is the
    recursive call.  [v[p]] is the loop variable. *)
Fixpoint bf_range (fuel : nat) (rec : list Z -> D -> option D -> res (list Z * option D))
  (m : MuLimit D) (p : nat) (i : Z) (v : list Z) (now : D) (ret : option D)
  : res (list Z * option D) :=
  v <- vset v p i ;;
  if i <=? m_u m then
    match fuel with
    | O => Err OutOfFuel
    | S fuel =>
        c <- m_fn m i ;;
        '(v, ret) <- rec v (dadd now c) ret ;;
        i' <- ck (i + 1) ;;
        bf_range fuel rec m p i' v now ret
    end
  else Ok (v, ret).

(** test.cpp:21-37, [dfs]; [k = n - p].  [ret] is [None] for INFINITY. *)
Fixpoint bf_dfs (fuel : nat) (mus : list (MuLimit D)) (oms : list (OmegaLimit D))
  (k p : nat) (v : list Z) (now : D) (ret : option D) : res (list Z * option D) :=
  match k with
  | O =>
      r <- bf_leaf oms v now ;;
      match r with
      | None => Ok (v, ret)
      | Some s =>
          (* ret = std::min(ret, now_sum) *)
          Ok (v, Some (match ret with None => s | Some w => dmin w s end))
      end
  | S k =>
      let p := S p in
      m <- vget mus p ;;
      bf_range fuel (fun v now ret => bf_dfs fuel mus oms k p v now ret) m p (m_l m) v now ret
  end.

(** test.cpp:17 *)
Fixpoint bf_prepare (fuel : nat) (oms : list (OmegaLimit D)) : res (list (OmegaLimit D)) :=
  match oms with
  | [] => Ok []
  | it :: oms =>
      it <- pre_processing fuel it ;;
      l <- bf_prepare fuel oms ;;
      Ok (it :: l)
  end.

(** test.cpp:12-43.  In the code the result is nullopt when [ret == INFINITY]. *)
Definition bf_solve (fuel : nat) (n : nat) (mus : list (MuLimit D)) (oms : list (OmegaLimit D))
  : res (option D) :=
  oms <- bf_prepare fuel oms ;;
  '(_, ret) <- bf_dfs fuel mus oms n 0 (repeat 0 (n + 1)) dzero None ;;
  Ok ret.

End Oracles.
