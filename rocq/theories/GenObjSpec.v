(** * What a generator object is asked for by a sequence of calls *)
From Verif Require Import Base Generator GenObj.
Local Open Scope Z_scope.

(** the last value asked for *)
Definition asked_node (n : Z) (l : list gcall) : Z := fold_left (fun a k => match k with SetNode x => x | _ => a end) l n.
Definition asked_side (m : Z) (l : list gcall) : Z := fold_left (fun a k => match k with SetSide x => x | _ => a end) l m.
Definition asked_direction (l : list gcall) : bool := fold_left (fun a k => match k with SetDirection x => x | _ => a end) l false.
Definition asked_multiply (l : list gcall) : bool := fold_left (fun a k => match k with SetMultiplyEdge x => x | _ => a end) l false.
Definition asked_loop (l : list gcall) : bool := fold_left (fun a k => match k with SetSelfLoop x => x | _ => a end) l false.
Definition asked_connect (l : list gcall) : bool := fold_left (fun a k => match k with SetConnect x => x | _ => a end) l false.

(** the settings that a class forces, as its comment in gen.h says *)
Definition forced_direction (c : gclass) : option bool :=
  match c with CBipartite | CPseudo | CCactus => Some false | CDag | CPseudoIn | CPseudoOut => Some true | _ => None end.
Definition forced_multiply (c : gclass) : option bool :=
  match c with CCycle | CWheel | CPseudo | CPseudoIn | CPseudoOut | CCactus => Some false | _ => None end.
Definition forced_loop (c : gclass) : option bool := match c with CGraph => None | _ => Some false end.
Definition forced_connect (c : gclass) : option bool := match c with CGraph | CBipartite | CDag => None | _ => Some true end.
Definition forced_side (c : gclass) (n : Z) : option Z :=
  match c with CCycle | CPseudo | CPseudoIn | CPseudoOut => Some n | CWheel => Some (2 * n - 2) | _ => None end.
Definition or_else {A} (o : option A) (a : A) : A := match o with Some x => x | None => a end.

(** a new object with the settings asked for *)
Definition as_asked (c : gclass) (n m : Z) (l : list gcall) : gen_graph :=
  mkGen (asked_node n l) (or_else (forced_side c (asked_node n l)) (asked_side m l)) [] []
    (or_else (forced_direction c) (asked_direction l)) (or_else (forced_multiply c) (asked_multiply l))
    (or_else (forced_loop c) (asked_loop l)) (or_else (forced_connect c) (asked_connect l)).

Definition generates (k : gcall) : bool :=
  match k with Gen _ | GenOn _ | GenAround _ _ | GenByGraph | GenByPseudo _ => true | _ => false end.

(** ** RootTree *)
(** the shifts for which the model of wnext is complete: small ones and those of the classes Chain and Flower *)
Definition good_shift (shift : Z) : Prop := Z.abs shift < 25 \/ shift = 100000 \/ shift = -100000.
Definition asked_nodes (n : Z) (l : list tcall) : Z := fold_left (fun a k => match k with RSetNode x | TreeSetNode x => x | _ => a end) l n.
Definition asked_root (rt : Z) (l : list tcall) : Z := fold_left (fun a k => match k with RSetRoot x => x | _ => a end) l rt.
Definition asked_rootfather (rtf : Z) (l : list tcall) : Z := fold_left (fun a k => match k with RSetRootFather x => x | _ => a end) l rtf.
Definition asked_shift (sh : Z) (l : list tcall) : Z := fold_left (fun a k => match k with RSetShift x => x | _ => a end) l sh.
(** the calls are on the object itself and their arguments sensible *)
Definition sensible (k : tcall) : Prop :=
  match k with
  | RSetNode n => 1 <= n <= INT_MAX | TreeSetNode _ => False | RSetRoot rt => 0 <= rt | RSetRootFather _ => True | RSetShift sh => good_shift sh | RGenTree => True
  end.
