(** * Specification of UniqueQueue: a first-in first-out list without repetitions *)
From Coq Require Import List Arith.
Import ListNotations.

Inductive uq_op := Push (x : nat) | Front | Pop | Empty | Clear.
Inductive uq_out := QNone | QLabel (x : nat) | QBool (b : bool).

(** what a plain waiting line does; there is no step for a forbidden call *)
Inductive fifo_step (n : nat) : list nat -> uq_op -> list nat -> uq_out -> Prop :=
| fs_push_new l x : x < n -> ~ In x l -> fifo_step n l (Push x) (l ++ [x]) QNone
| fs_push_old l x : x < n -> In x l -> fifo_step n l (Push x) l QNone
| fs_front x l : fifo_step n (x :: l) Front (x :: l) (QLabel x)
| fs_pop x l : fifo_step n (x :: l) Pop l QNone
| fs_empty_yes : fifo_step n [] Empty [] (QBool true)
| fs_empty_no x l : fifo_step n (x :: l) Empty (x :: l) (QBool false)
| fs_clear l : fifo_step n l Clear [] QNone.

Inductive fifo_run (n : nat) : list nat -> list uq_op -> list nat -> list uq_out -> Prop :=
| fr_nil l : fifo_run n l [] l []
| fr_cons l op l1 o ops l2 os :
    fifo_step n l op l1 o -> fifo_run n l1 ops l2 os -> fifo_run n l (op :: ops) l2 (o :: os).
