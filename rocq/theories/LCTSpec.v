(** * Specification of the link-cut tree: a plain rooted forest

    Nodes are 0 .. N-1; each has an optional parent and a value. *)
From Coq Require Import List ZArith Arith.
Import ListNotations.
Local Open Scope Z_scope.

Record forest := mkForest { parent : nat -> option nat; value : nat -> Z }.

(** [path par x l]: [l] lists the nodes from [x] up to the root of its tree. *)
Inductive path (par : nat -> option nat) : nat -> list nat -> Prop :=
| path_root x : par x = None -> path par x [x]
| path_up x y l : par x = Some y -> path par y l -> path par x (x :: l).

Definition set_parent (par : nat -> option nat) (x : nat) (p : option nat) : nat -> option nat :=
  fun y => if Nat.eqb y x then p else par y.

Definition set_value (val : nat -> Z) (x : nat) (v : Z) : nat -> Z :=
  fun y => if Nat.eqb y x then v else val y.

Definition add_values (val : nat -> Z) (l : list nat) (d : Z) : nat -> Z :=
  fun y => if existsb (Nat.eqb y) l then val y + d else val y.

Inductive lct_op :=
| FindRoot (x : nat)            (* find_root() *)
| SetFa (x y : nat)             (* set_fa(&y) *)
| Cut (x : nat)                 (* cut() *)
| GetVal (x : nat)              (* get_val() *)
| GetMin (x : nat)              (* get_min_wtrbnr() *)
| SetVal (x : nat) (v : Z)      (* set_val(v) *)
| AddPath (x : nat) (d : Z).    (* add_val_way_to_root(d) *)

Inductive lct_out :=
| ONone
| ONode (x : nat)
| OVal (v : Z)
| OMin (v : Z) (x : nat).

(** One operation on the plain forest, with its precondition. *)
Inductive lct_step (N : nat) : forest -> lct_op -> forest -> lct_out -> Prop :=
| step_find_root f x l r :
    (x < N)%nat -> path (parent f) x (l ++ [r]) ->
    lct_step N f (FindRoot x) f (ONode r)
| step_set_fa f x y ly :
    (* x is a root and y is not below x *)
    (x < N)%nat -> (y < N)%nat -> parent f x = None ->
    path (parent f) y ly -> ~ In x ly ->
    lct_step N f (SetFa x y) (mkForest (set_parent (parent f) x (Some y)) (value f)) ONone
| step_cut f x y :
    (x < N)%nat -> parent f x = Some y ->
    lct_step N f (Cut x) (mkForest (set_parent (parent f) x None) (value f)) ONone
| step_get_val f x :
    (x < N)%nat ->
    lct_step N f (GetVal x) f (OVal (value f x))
| step_get_min f x r below y above :
    (* the path without its root [r] is [below ++ y :: above] *)
    (x < N)%nat -> path (parent f) x ((below ++ y :: above) ++ [r]) ->
    (forall z, In z below -> value f y <= value f z) ->
    (forall z, In z above -> value f y < value f z) ->
    lct_step N f (GetMin x) f (OMin (value f y) y)
| step_set_val f x v :
    (x < N)%nat ->
    lct_step N f (SetVal x v) (mkForest (parent f) (set_value (value f) x v)) ONone
| step_add_path f x l d :
    (x < N)%nat -> path (parent f) x l ->
    lct_step N f (AddPath x d) (mkForest (parent f) (add_values (value f) l d)) ONone.

Inductive lct_run (N : nat) : forest -> list lct_op -> forest -> list lct_out -> Prop :=
| run_nil f : lct_run N f [] f []
| run_cons f op f1 o ops f2 os :
    lct_step N f op f1 o -> lct_run N f1 ops f2 os -> lct_run N f (op :: ops) f2 (o :: os).

(** the forest after construction: every node alone, value 0 *)
Definition forest0 : forest := mkForest (fun _ => None) (fun _ => 0).
