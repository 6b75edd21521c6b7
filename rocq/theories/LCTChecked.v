(** * The link-cut tree with the size of its numbers asserted

    Copies of the functions of LCT.v that add numbers (LCT.cpp:75-79 and all
    its callers), in which every sum is checked against a predicate [okd].  A
    failing check is the outcome [AssertFail].  The checks do not change the
    heap; [*_chk_sim] says that a checked run that succeeds is a run of the
    unchecked model. *)
From Verif Require Import Base BaseLemmas Data LCT.

Section Checked.
Context {D : Type} {ops : DataOps D}.
Variable okd : D -> bool.

Definition ckd (z : D) : res D := if okd z then Ok z else Err AssertFail.

(** LCT.cpp:75-79 *)
Definition update_add_chk (h : heap D) (x : nat) (w : D) : res (heap D) :=
  nx <- ld h x ;;
  m <- ckd (dadd (fst (n_min nx)) w) ;;
  v <- ckd (dadd (n_val nx) w) ;;
  a <- ckd (dadd (n_add nx) w) ;;
  vset h x (mkNode (n_fa nx) (n_c0 nx) (n_c1 nx) (m, snd (n_min nx)) v a).

(** LCT.cpp:81-87 *)
Definition push_down_chk (h : heap D) (x : nat) : res (heap D) :=
  nx <- ld h x ;;
  if negb (deq (n_add nx) dzero) then
    h <- match n_c0 nx with None => Ok h | Some c => update_add_chk h c (n_add nx) end ;;
    h <- match n_c1 nx with None => Ok h | Some c => update_add_chk h c (n_add nx) end ;;
    modi h x (set_add_ dzero)
  else Ok h.

(** LCT.cpp:89-93 *)
Fixpoint pdfr_chk (fuel : nat) (h : heap D) (x : nat) : res (heap D) :=
  match fuel with
  | O => Err OutOfFuel
  | S fuel =>
      r <- is_root h x ;;
      h <- (if (r : bool) then Ok h
            else nx <- ld h x ;;
                 match n_fa nx with
                 | None => Err NullDeref
                 | Some f => pdfr_chk fuel h f
                 end) ;;
      push_down_chk h x
  end.

(** LCT.cpp:107-116 *)
Definition splay_chk (fuel : nat) (h : heap D) (x : nat) : res (heap D) :=
  h <- pdfr_chk fuel h x ;;
  h <- splay_loop fuel h x ;;
  push_up h x.

(** LCT.cpp:119-122 *)
Fixpoint access_loop_chk (fuel0 fuel : nat) (h : heap D) (p q : option nat) : res (heap D) :=
  match p with
  | None => Ok h
  | Some x =>
      match fuel with
      | O => Err OutOfFuel
      | S fuel =>
          h <- splay_chk fuel0 h x ;;
          h <- setc h x q true ;;
          h <- push_up h x ;;
          nx <- ld h x ;;
          access_loop_chk fuel0 fuel h (n_fa nx) (Some x)
      end
  end.

(** LCT.cpp:118-124 *)
Definition access_chk (fuel : nat) (h : heap D) (x : nat) : res (heap D) :=
  h <- access_loop_chk fuel fuel h (Some x) None ;;
  splay_chk fuel h x.

(** LCT.cpp:7-12 *)
Definition find_root_chk (fuel : nat) (h : heap D) (x : nat) : res (heap D * nat) :=
  h <- access_chk fuel h x ;;
  r <- leftmost fuel h x ;;
  Ok (h, r).

(** LCT.cpp:14-18 *)
Definition set_fa_chk (fuel : nat) (h : heap D) (x : nat) (p : option nat) : res (heap D) :=
  h <- splay_chk fuel h x ;;
  nx <- ld h x ;;
  _ <- assert_ (ptr_eqb (n_fa nx) None) ;;
  modi h x (set_fa_ p).

(** LCT.cpp:20-26 *)
Definition cut_chk (fuel : nat) (h : heap D) (x : nat) : res (heap D) :=
  h <- access_chk fuel h x ;;
  nx <- ld h x ;;
  _ <- assert_ (negb (ptr_eqb (n_c0 nx) None)) ;;
  match n_c0 nx with
  | None => Err NullDeref
  | Some c =>
      h <- modi h c (set_fa_ None) ;;
      h <- modi h x (set_ch_ false None) ;;
      push_up h x
  end.

(** LCT.cpp:28-32 *)
Definition get_val_chk (fuel : nat) (h : heap D) (x : nat) : res (heap D * D) :=
  r <- is_root h x ;;
  h <- (if (r : bool) then Ok h else access_chk fuel h x) ;;
  nx <- ld h x ;;
  Ok (h, n_val nx).

(** LCT.cpp:37-42 *)
Fixpoint get_min_loop_chk (fuel : nat) (h : heap D) (p : nat) (ret : D * option nat)
  : res (heap D * (D * option nat)) :=
  match fuel with
  | O => Err OutOfFuel
  | S fuel =>
      h <- push_down_chk h p ;;
      np <- ld h p ;;
      ret <- match n_c1 np with
             | None => Ok ret
             | Some c => nc <- ld h c ;;
                         Ok (if dle (fst (n_min nc)) (fst ret) then n_min nc else ret)
             end ;;
      match n_c0 np with
      | None => Ok (h, ret)
      | Some c =>
          let ret := if dle (n_val np) (fst ret) then (n_val np, Some p) else ret in
          get_min_loop_chk fuel h c ret
      end
  end.

(** LCT.cpp:34-44 *)
Definition get_min_wtrbnr_chk (fuel : nat) (h : heap D) (x : nat)
  : res (heap D * (D * option nat)) :=
  h <- access_chk fuel h x ;;
  nx <- ld h x ;;
  get_min_loop_chk fuel h x (n_val nx, Some x).

(** LCT.cpp:46-51 *)
Definition set_val_chk (fuel : nat) (h : heap D) (x : nat) (v : D) : res (heap D) :=
  r <- is_root h x ;;
  h <- (if (r : bool) then Ok h else access_chk fuel h x) ;;
  h <- modi h x (set_val_ v) ;;
  push_up h x.

(** LCT.cpp:53-56 *)
Definition add_val_way_to_root_chk (fuel : nat) (h : heap D) (x : nat) (d : D) : res (heap D) :=
  h <- access_chk fuel h x ;;
  update_add_chk h x d.

(** ** A checked run that succeeds is a run of the model *)
Definition implies {A} (m1 m2 : res A) : Prop := forall a, m1 = Ok a -> m2 = Ok a.

Lemma implies_refl {A} (m : res A) : implies m m.
Proof. intros a H; exact H. Qed.

Lemma implies_bind {A B} (m1 m2 : res A) (k1 k2 : A -> res B) :
  implies m1 m2 -> (forall a, implies (k1 a) (k2 a)) -> implies (bind m1 k1) (bind m2 k2).
Proof.
  intros H1 H2 b E. apply bind_inv in E. destruct E as (a & E1 & E2).
  rewrite (H1 _ E1). cbn [bind]. apply H2; exact E2.
Qed.

Lemma ckd_inv z w : ckd z = Ok w -> w = z /\ okd z = true.
Proof. unfold ckd. destruct (okd z); [|discriminate]. intros H; inversion H; auto. Qed.

Lemma update_add_chk_sim h x w : implies (update_add_chk h x w) (update_add h x w).
Proof.
  unfold update_add_chk, update_add, modi. apply implies_bind; [apply implies_refl|].
  intros nx h' H. apply bind_inv in H. destruct H as (m & E1 & H). apply ckd_inv in E1. destruct E1 as [-> _].
  apply bind_inv in H. destruct H as (v & E2 & H). apply ckd_inv in E2. destruct E2 as [-> _].
  apply bind_inv in H. destruct H as (a & E3 & H). apply ckd_inv in E3. destruct E3 as [-> _]. exact H.
Qed.

Ltac sim := repeat first
  [ apply implies_refl
  | apply update_add_chk_sim
  | match goal with |- implies (bind _ _) (bind _ _) => apply implies_bind; [|intros ?] end
  | match goal with
    | |- implies (match ?x with _ => _ end) (match ?x with _ => _ end) => destruct x
    | |- implies (let _ := _ in _) _ => cbv zeta
    end ].

Lemma push_down_chk_sim h x : implies (push_down_chk h x) (push_down h x).
Proof. unfold push_down_chk, push_down. sim. Qed.

Lemma pdfr_chk_sim fuel : forall h x, implies (pdfr_chk fuel h x) (push_down_from_root fuel h x).
Proof.
  induction fuel as [|fuel IH]; intros h x; [apply implies_refl|]. cbn [pdfr_chk push_down_from_root].
  sim; try apply IH; try apply push_down_chk_sim.
Qed.

Lemma splay_chk_sim fuel h x : implies (splay_chk fuel h x) (splay fuel h x).
Proof. unfold splay_chk, splay. apply implies_bind; [apply pdfr_chk_sim|]. intros; sim. Qed.

Lemma access_loop_chk_sim fuel0 fuel : forall h p q,
  implies (access_loop_chk fuel0 fuel h p q) (access_loop fuel0 fuel h p q).
Proof.
  induction fuel as [|fuel IH]; intros h p q; destruct p as [x|]; try apply implies_refl.
  cbn [access_loop_chk access_loop]. apply implies_bind; [apply splay_chk_sim|intros]. sim. apply IH.
Qed.

Lemma access_chk_sim fuel h x : implies (access_chk fuel h x) (access fuel h x).
Proof. unfold access_chk, access. apply implies_bind; [apply access_loop_chk_sim|intros; apply splay_chk_sim]. Qed.

Lemma find_root_chk_sim fuel h x : implies (find_root_chk fuel h x) (find_root fuel h x).
Proof. unfold find_root_chk, find_root. apply implies_bind; [apply access_chk_sim|intros; sim]. Qed.

Lemma set_fa_chk_sim fuel h x p : implies (set_fa_chk fuel h x p) (set_fa fuel h x p).
Proof. unfold set_fa_chk, set_fa. apply implies_bind; [apply splay_chk_sim|intros; sim]. Qed.

Lemma cut_chk_sim fuel h x : implies (cut_chk fuel h x) (cut fuel h x).
Proof. unfold cut_chk, cut. apply implies_bind; [apply access_chk_sim|intros; sim]. Qed.

Lemma get_val_chk_sim fuel h x : implies (get_val_chk fuel h x) (get_val fuel h x).
Proof. unfold get_val_chk, get_val. sim; apply access_chk_sim. Qed.

Lemma get_min_loop_chk_sim fuel : forall h x r, implies (get_min_loop_chk fuel h x r) (get_min_loop fuel h x r).
Proof.
  induction fuel as [|fuel IH]; intros h x r; [apply implies_refl|]. cbn [get_min_loop_chk get_min_loop].
  apply implies_bind; [apply push_down_chk_sim|intros h1]. sim; apply IH.
Qed.

Lemma get_min_chk_sim fuel h x : implies (get_min_wtrbnr_chk fuel h x) (get_min_wtrbnr fuel h x).
Proof.
  unfold get_min_wtrbnr_chk, get_min_wtrbnr. apply implies_bind; [apply access_chk_sim|intros h1].
  apply implies_bind; [apply implies_refl|intros; apply get_min_loop_chk_sim].
Qed.

Lemma set_val_chk_sim fuel h x v : implies (set_val_chk fuel h x v) (set_val fuel h x v).
Proof. unfold set_val_chk, set_val. sim; apply access_chk_sim. Qed.

Lemma add_path_chk_sim fuel h x d : implies (add_val_way_to_root_chk fuel h x d) (add_val_way_to_root fuel h x d).
Proof.
  unfold add_val_way_to_root_chk, add_val_way_to_root. apply implies_bind; [apply access_chk_sim|intros; sim].
Qed.

End Checked.
