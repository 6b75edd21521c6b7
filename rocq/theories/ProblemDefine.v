(** * src/include/ProblemDefine.hpp, src/ProblemDefine.cpp *)
From Verif Require Import Base Data.
Local Open Scope Z_scope.

(** ProblemDefine.cpp:6-16.  [pred] may fail because it calls user code. *)
Fixpoint partition_point (fuel : nat) (l r : Z) (pred : Z -> res bool) : res Z :=
  match fuel with
  | O => Err OutOfFuel
  | S fuel =>
      if l =? r then Ok l
      else
        d <- ck (r - l) ;;
        mid <- ck (l + Z.quot d 2) ;;
        b <- pred mid ;;
        if (b : bool)
        then l' <- ck (mid + 1) ;; partition_point fuel l' r pred
        else partition_point fuel l mid pred
  end.

Section Limits.
Context {D : Type} {ops : DataOps D}.

(** ProblemDefine.hpp:17, [std::function<Data(int)>].  The call may fail
    (empty function, or a user function outside its domain). *)
Definition Fn := Z -> res D.

(** ProblemDefine.hpp:21-24 *)
Record MuLimit := mkMu { m_l : Z; m_u : Z; m_fn : Fn }.

(** ProblemDefine.hpp:32-51 (the inherited members are inlined) *)
Record OmegaLimit := mkOm { o_l : Z; o_u : Z; o_fn : Fn; o_i : nat; o_j : nat }.

(** Value-initialised limit, as produced by [edges.resize] (Flow.cpp:16). *)
Definition OmegaLimit0 : OmegaLimit := mkOm 0 0 (fun _ => Err BadCall) 0 0.

(** The lambda [fn(x) > fn(x + 1)] of ProblemDefine.cpp:20-22 and 30-32 *)
Definition decreasing_at (fn : Fn) (x : Z) : res bool :=
  a <- fn x ;;
  x1 <- ck (x + 1) ;;
  b <- fn x1 ;;
  Ok (dlt b a).

(** ProblemDefine.cpp:18-26 *)
Definition pre_processing (fuel : nat) (o : OmegaLimit) : res OmegaLimit :=
  min_point <- partition_point fuel (o_l o) (o_u o) (decreasing_at (o_fn o)) ;;
  Ok (mkOm (o_l o) (o_u o) (fun x => o_fn o (Z.max min_point x)) (o_i o) (o_j o)).

(** ProblemDefine.cpp:28-34 *)
Definition limit_min (fuel : nat) (o : OmegaLimit) : res D :=
  min_point <- partition_point fuel (o_l o) (o_u o) (decreasing_at (o_fn o)) ;;
  o_fn o min_point.

(** ProblemDefine.cpp:36-40 *)
Definition reverse (o : OmegaLimit) : res OmegaLimit :=
  l' <- ck (- o_u o) ;;
  u' <- ck (- o_l o) ;;
  Ok (mkOm l' u' (fun x => y <- ck (- x) ;; o_fn o y) (o_j o) (o_i o)).

(** ProblemDefine.cpp:42-52; the flag is [true] on error. *)
Definition merge (o other : OmegaLimit) : res (OmegaLimit * bool) :=
  let l := Z.max (o_l o) (o_l other) in
  let u := Z.min (o_u o) (o_u other) in
  let fn := fun x => a <- o_fn o x ;; b <- o_fn other x ;; Ok (dadd a b) in
  _ <- assert_ (Nat.eqb (o_i o) (o_i other)) ;;
  _ <- assert_ (Nat.eqb (o_j o) (o_j other)) ;;
  Ok (mkOm l u fn (o_i o) (o_j o), negb (l <=? u)).

End Limits.

Arguments Fn : clear implicits.
Arguments MuLimit : clear implicits.
Arguments OmegaLimit : clear implicits.
