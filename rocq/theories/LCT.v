(** * 3rd/lct/LCT.hpp, 3rd/lct/LCT.cpp: link-cut tree on splay trees

    The nodes are the elements of one vector ([Flow::nodes]); the heap is the
    list of these elements and a [Node*] is [option nat] ([None] = nullptr).
    Every method takes the heap and the index of [*this]. *)
From Verif Require Import Base Data.

Section LCT.
Context {D : Type} {ops : DataOps D}.

(** LCT.hpp:50-52 *)
Record node := mkNode {
  n_fa : option nat;
  n_c0 : option nat;          (* ch[0] *)
  n_c1 : option nat;          (* ch[1] *)
  n_min : D * option nat;     (* Val min *)
  n_val : D;
  n_add : D
}.

Definition heap := list node.

(** Value-initialised node ([std::vector<LCT::Node> nodes(n + 1)], Flow.cpp:7;
    [Node() = default] is not user-provided, so all members are zeroed). *)
Definition node0 : node := mkNode None None None (dzero, None) dzero dzero.

Definition set_fa_ (a : option nat) (x : node) : node :=
  mkNode a (n_c0 x) (n_c1 x) (n_min x) (n_val x) (n_add x).
Definition set_min_ (m : D * option nat) (x : node) : node :=
  mkNode (n_fa x) (n_c0 x) (n_c1 x) m (n_val x) (n_add x).
Definition set_val_ (v : D) (x : node) : node :=
  mkNode (n_fa x) (n_c0 x) (n_c1 x) (n_min x) v (n_add x).
Definition set_add_ (a : D) (x : node) : node :=
  mkNode (n_fa x) (n_c0 x) (n_c1 x) (n_min x) (n_val x) a.
(** [ch[d]] with d : int used as a truth value *)
Definition ch (x : node) (d : bool) : option nat := if d then n_c1 x else n_c0 x.
Definition set_ch_ (d : bool) (c : option nat) (x : node) : node :=
  if d then mkNode (n_fa x) (n_c0 x) c (n_min x) (n_val x) (n_add x)
  else mkNode (n_fa x) c (n_c1 x) (n_min x) (n_val x) (n_add x).

(** pointer equality *)
Definition ptr_eqb (p q : option nat) : bool :=
  match p, q with
  | None, None => true
  | Some a, Some b => Nat.eqb a b
  | _, _ => false
  end.

(** [*p] for a non-null pointer *)
Definition ld (h : heap) (x : nat) : res node := vget h x.
(** modify [*p] *)
Definition modi (h : heap) (x : nat) (f : node -> node) : res heap :=
  nx <- ld h x ;; vset h x (f nx).

(** LCT.cpp:58-62 *)
Definition push_up (h : heap) (x : nat) : res heap :=
  nx <- ld h x ;;
  let m := (n_val nx, Some x) in
  m <- match n_c0 nx with
       | None => Ok m
       | Some c => nc <- ld h c ;;
                   Ok (if dle (fst (n_min nc)) (fst m) then n_min nc else m)
       end ;;
  m <- match n_c1 nx with
       | None => Ok m
       | Some c => nc <- ld h c ;;
                   Ok (if dlt (fst (n_min nc)) (fst m) then n_min nc else m)
       end ;;
  modi h x (set_min_ m).

(** LCT.cpp:64-67 *)
Definition setc (h : heap) (x : nat) (p : option nat) (d : bool) : res heap :=
  h <- modi h x (set_ch_ d p) ;;
  match p with
  | None => Ok h
  | Some c => modi h c (set_fa_ (Some x))
  end.

(** LCT.cpp:69 *)
Definition dir (h : heap) (x : nat) : res bool :=
  nx <- ld h x ;;
  match n_fa nx with
  | None => Err NullDeref
  | Some f => nf <- ld h f ;; Ok (ptr_eqb (n_c1 nf) (Some x))
  end.

(** LCT.cpp:71-73 *)
Definition is_root (h : heap) (x : nat) : res bool :=
  nx <- ld h x ;;
  match n_fa nx with
  | None => Ok true
  | Some f => nf <- ld h f ;;
      Ok (negb (ptr_eqb (n_c0 nf) (Some x)) && negb (ptr_eqb (n_c1 nf) (Some x)))
  end.

(** LCT.cpp:75-79 *)
Definition update_add (h : heap) (x : nat) (w : D) : res heap :=
  modi h x (fun nx =>
    mkNode (n_fa nx) (n_c0 nx) (n_c1 nx)
           (dadd (fst (n_min nx)) w, snd (n_min nx))
           (dadd (n_val nx) w) (dadd (n_add nx) w)).

(** LCT.cpp:81-87 *)
Definition push_down (h : heap) (x : nat) : res heap :=
  nx <- ld h x ;;
  if negb (deq (n_add nx) dzero) then
    h <- match n_c0 nx with None => Ok h | Some c => update_add h c (n_add nx) end ;;
    h <- match n_c1 nx with None => Ok h | Some c => update_add h c (n_add nx) end ;;
    modi h x (set_add_ dzero)
  else Ok h.

(** LCT.cpp:89-93 *)
Fixpoint push_down_from_root (fuel : nat) (h : heap) (x : nat) : res heap :=
  match fuel with
  | O => Err OutOfFuel
  | S fuel =>
      r <- is_root h x ;;
      h <- (if (r : bool) then Ok h
            else nx <- ld h x ;;
                 match n_fa nx with
                 | None => Err NullDeref
                 | Some f => push_down_from_root fuel h f
                 end) ;;
      push_down h x
  end.

(** LCT.cpp:95-105.  [ch[!c]] is read before [f->setc] runs. *)
Definition rot (h : heap) (x : nat) : res heap :=
  nx <- ld h x ;;
  match n_fa nx with
  | None => Err NullDeref
  | Some f =>
      nf <- ld h f ;;
      let ff := n_fa nf in
      c <- dir h x ;;
      cc <- match ff with None => Ok false | Some _ => dir h f end ;;
      h <- setc h f (ch nx (negb c)) c ;;
      h <- setc h x (Some f) (negb c) ;;
      h <- match ff with
           | None => modi h x (set_fa_ None)
           | Some g =>
               ng <- ld h g ;;
               if ptr_eqb (ch ng cc) (Some f) then setc h g (Some x) cc
               else modi h x (set_fa_ ff)
           end ;;
      push_up h f
  end.

(** LCT.cpp:109-113, the loop of [splay] *)
Fixpoint splay_loop (fuel : nat) (h : heap) (x : nat) : res heap :=
  match fuel with
  | O => Err OutOfFuel
  | S fuel =>
      r <- is_root h x ;;
      if (r : bool) then Ok h
      else
        nx <- ld h x ;;
        match n_fa nx with
        | None => Err NullDeref
        | Some f =>
            rf <- is_root h f ;;
            h <- (if (rf : bool) then Ok h
                  else dx <- dir h x ;;
                       df <- dir h f ;;
                       if Bool.eqb dx df then rot h f else rot h x) ;;
            h <- rot h x ;;
            splay_loop fuel h x
        end
  end.

(** LCT.cpp:107-116 *)
Definition splay (fuel : nat) (h : heap) (x : nat) : res heap :=
  h <- push_down_from_root fuel h x ;;
  h <- splay_loop fuel h x ;;
  push_up h x.

(** LCT.cpp:119-122, the loop of [access]; [p->splay()->setc(q, 1)] *)
Fixpoint access_loop (fuel0 fuel : nat) (h : heap) (p q : option nat) : res heap :=
  match p with
  | None => Ok h
  | Some x =>
      match fuel with
      | O => Err OutOfFuel
      | S fuel =>
          h <- splay fuel0 h x ;;
          h <- setc h x q true ;;
          h <- push_up h x ;;
          nx <- ld h x ;;
          access_loop fuel0 fuel h (n_fa nx) (Some x)
      end
  end.

(** LCT.cpp:118-124 *)
Definition access (fuel : nat) (h : heap) (x : nat) : res heap :=
  h <- access_loop fuel fuel h (Some x) None ;;
  splay fuel h x.

(** LCT.cpp:9-10 *)
Fixpoint leftmost (fuel : nat) (h : heap) (x : nat) : res nat :=
  match fuel with
  | O => Err OutOfFuel
  | S fuel =>
      nx <- ld h x ;;
      match n_c0 nx with
      | None => Ok x
      | Some c => leftmost fuel h c
      end
  end.

(** LCT.cpp:7-12 *)
Definition find_root (fuel : nat) (h : heap) (x : nat) : res (heap * nat) :=
  h <- access fuel h x ;;
  r <- leftmost fuel h x ;;
  Ok (h, r).

(** LCT.cpp:14-18 *)
Definition set_fa (fuel : nat) (h : heap) (x : nat) (p : option nat) : res heap :=
  h <- splay fuel h x ;;
  nx <- ld h x ;;
  _ <- assert_ (ptr_eqb (n_fa nx) None) ;;
  modi h x (set_fa_ p).

(** LCT.cpp:20-26 *)
Definition cut (fuel : nat) (h : heap) (x : nat) : res heap :=
  h <- access fuel h x ;;
  nx <- ld h x ;;
  _ <- assert_ (negb (ptr_eqb (n_c0 nx) None)) ;;
  match n_c0 nx with
  | None => Err NullDeref
  | Some c =>
      h <- modi h c (set_fa_ None) ;;
      h <- modi h x (set_ch_ false None) ;;
      push_up h x
  end.

(** LCT.cpp:28-32 *)
Definition get_val (fuel : nat) (h : heap) (x : nat) : res (heap * D) :=
  r <- is_root h x ;;
  h <- (if (r : bool) then Ok h else access fuel h x) ;;
  nx <- ld h x ;;
  Ok (h, n_val nx).

(** LCT.cpp:37-42 *)
Fixpoint get_min_loop (fuel : nat) (h : heap) (p : nat) (ret : D * option nat)
  : res (heap * (D * option nat)) :=
  match fuel with
  | O => Err OutOfFuel
  | S fuel =>
      h <- push_down h p ;;
      np <- ld h p ;;
      ret <- match n_c1 np with
             | None => Ok ret
             | Some c => nc <- ld h c ;;
                         Ok (if dle (fst (n_min nc)) (fst ret) then n_min nc else ret)
             end ;;
      match n_c0 np with
      | None => Ok (h, ret)
      | Some c =>
          let ret := if dle (n_val np) (fst ret) then (n_val np, Some p) else ret in
          get_min_loop fuel h c ret
      end
  end.

(** LCT.cpp:34-44 *)
Definition get_min_wtrbnr (fuel : nat) (h : heap) (x : nat)
  : res (heap * (D * option nat)) :=
  h <- access fuel h x ;;
  nx <- ld h x ;;
  get_min_loop fuel h x (n_val nx, Some x).

(** LCT.cpp:46-51 *)
Definition set_val (fuel : nat) (h : heap) (x : nat) (v : D) : res heap :=
  r <- is_root h x ;;
  h <- (if (r : bool) then Ok h else access fuel h x) ;;
  h <- modi h x (set_val_ v) ;;
  push_up h x.

(** LCT.cpp:53-56 *)
Definition add_val_way_to_root (fuel : nat) (h : heap) (x : nat) (d : D) : res heap :=
  h <- access fuel h x ;;
  update_add h x d.

End LCT.

Arguments node : clear implicits.
Arguments heap : clear implicits.
