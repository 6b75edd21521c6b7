(** * src/UniqueQueue.hpp, src/UniqueQueue.cpp *)
From Verif Require Import Base.

(** UniqueQueue.hpp:23-25.  [std::queue<size_t>] is a list, front first. *)
Record uqueue := mkUQ { uq_queue : list nat; uq_in : list bool }.

(** UniqueQueue.cpp:3 *)
Definition uq_new (n : nat) : uqueue := mkUQ [] (repeat false n).

(** UniqueQueue.cpp:5-9 *)
Definition uq_push (u : uqueue) (x : nat) : res uqueue :=
  b <- vget (uq_in u) x ;;
  if (b : bool) then Ok u
  else
    i <- vset (uq_in u) x true ;;
    Ok (mkUQ (uq_queue u ++ [x]) i).

(** UniqueQueue.cpp:11 *)
Definition uq_front (u : uqueue) : res nat :=
  match uq_queue u with [] => Err EmptyQueue | x :: _ => Ok x end.

(** UniqueQueue.cpp:13-16 *)
Definition uq_pop (u : uqueue) : res uqueue :=
  match uq_queue u with
  | [] => Err EmptyQueue
  | x :: q =>
      i <- vset (uq_in u) x false ;;
      Ok (mkUQ q i)
  end.

(** UniqueQueue.cpp:18 *)
Definition uq_empty (u : uqueue) : bool :=
  match uq_queue u with [] => true | _ => false end.

(** UniqueQueue.cpp:20-23 *)
Definition uq_clear (u : uqueue) : uqueue :=
  mkUQ [] (repeat false (length (uq_in u))).
