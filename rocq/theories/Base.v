(** * Outcomes of C++ code, vectors, machine integers *)
From Coq Require Export List ZArith Bool Lia Arith.
Export ListNotations.

(** Everything that can go wrong, as distinct outcomes.  A theorem that says
    [... = Ok v] therefore says that none of these happens. *)
Inductive err : Type :=
| IntOverflow      (* signed int arithmetic leaves [-2^31, 2^31-1]: UB *)
| OutOfBounds      (* vector / pointer access outside an object: UB *)
| NullDeref        (* dereference of nullptr: UB *)
| AssertFail       (* a failing assert() *)
| EmptyQueue       (* front()/pop() of an empty std::queue: UB *)
| BadCall          (* call of an empty std::function, or of a user cost
                      function outside the range where it is defined *)
| OutOfFuel.       (* modelling device: the loop has not finished yet *)

Inductive res (A : Type) : Type :=
| Ok (a : A)
| Err (e : err).
Arguments Ok {A} a.
Arguments Err {A} e.

Definition bind {A B : Type} (m : res A) (k : A -> res B) : res B :=
  match m with Ok a => k a | Err e => Err e end.

Notation "x <- m ;; k" := (bind m (fun x => k))
  (at level 100, m at next level, right associativity).
Notation "' p <- m ;; k" := (bind m (fun p => k))
  (at level 100, p pattern, m at next level, right associativity).

(** [for (auto x : l) st = body(st, x)] *)
Fixpoint for_each {A S : Type} (l : list A) (st : S) (body : S -> A -> res S) : res S :=
  match l with
  | [] => Ok st
  | x :: l' => st' <- body st x ;; for_each l' st' body
  end.

(** std::vector::operator[] (read), UB outside the vector. *)
Definition vget {A : Type} (l : list A) (i : nat) : res A :=
  match nth_error l i with Some a => Ok a | None => Err OutOfBounds end.

Fixpoint upd {A : Type} (l : list A) (i : nat) (a : A) : list A :=
  match l, i with
  | [], _ => []
  | _ :: l', O => a :: l'
  | x :: l', S i' => x :: upd l' i' a
  end.

(** std::vector::operator[] (write), UB outside the vector. *)
Definition vset {A : Type} (l : list A) (i : nat) (a : A) : res (list A) :=
  if i <? length l then Ok (upd l i a) else Err OutOfBounds.

(** 32-bit signed int *)
Definition INT_MAX : Z := 2147483647%Z.
Definition INT_MIN : Z := (-2147483648)%Z.

(** Result of a signed int operation whose mathematical value is [z]. *)
Definition ck (z : Z) : res Z :=
  if ((INT_MIN <=? z) && (z <=? INT_MAX))%Z then Ok z else Err IntOverflow.

(** size_t(-1) *)
Definition SIZE_MAX : Z := 18446744073709551615%Z.

Definition assert_ (b : bool) : res unit := if b then Ok tt else Err AssertFail.
