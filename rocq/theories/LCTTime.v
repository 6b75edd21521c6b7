(** * The link-cut tree with its loop turns counted

    Copies of the functions of LCT.v that also return how many turns the loops
    and the recursion of LCT.cpp make: one for every call of
    [push_down_from_root] (LCT.cpp:89-93), one for every test of the loop
    condition of [splay] (109-113), one for every round of the loop of [access]
    (119-122), one for every node visited by the loops of [find_root] (9-10) and
    [get_min_wtrbnr] (37-42).  Everything else is straight-line code.
    [*_erase] says that the counting changes nothing else. *)
From Verif Require Import Base BaseLemmas Data LCT.

(** ** Counted computations *)
Definition counted (A : Type) : Type := res (A * nat).

Definition cbind {A B} (m : counted A) (k : A -> counted B) : counted B :=
  match m with
  | Ok (a, i) => match k a with Ok (b, j) => Ok (b, (i + j)%nat) | Err e => Err e end
  | Err e => Err e
  end.

(** no turn *)
Definition free {A} (m : res A) : counted A := match m with Ok a => Ok (a, O) | Err e => Err e end.
(** one turn, then [m] *)
Definition turn {A} (m : counted A) : counted A := match m with Ok (a, i) => Ok (a, S i) | Err e => Err e end.

Definition erase {A} (m : counted A) : res A := match m with Ok (a, _) => Ok a | Err e => Err e end.

Notation "x <~ c1 ;; c2" := (cbind c1 (fun x => c2)) (at level 61, c1 at next level, right associativity).

Section Time.
Context {D : Type} {ops : DataOps D}.

(** LCT.cpp:89-93 *)
Fixpoint push_down_from_root_t (fuel : nat) (h : heap D) (x : nat) : counted (heap D) :=
  match fuel with
  | O => Err OutOfFuel
  | S fuel => turn (
      r <~ free (is_root h x) ;;
      h <~ (if (r : bool) then free (Ok h)
            else nx <~ free (ld h x) ;;
                 match n_fa nx with
                 | None => Err NullDeref
                 | Some f => push_down_from_root_t fuel h f
                 end) ;;
      free (push_down h x))
  end.

(** LCT.cpp:109-113 *)
Fixpoint splay_loop_t (fuel : nat) (h : heap D) (x : nat) : counted (heap D) :=
  match fuel with
  | O => Err OutOfFuel
  | S fuel => turn (
      r <~ free (is_root h x) ;;
      if (r : bool) then free (Ok h)
      else
        nx <~ free (ld h x) ;;
        match n_fa nx with
        | None => Err NullDeref
        | Some f =>
            rf <~ free (is_root h f) ;;
            h <~ free (if (rf : bool) then Ok h
                  else dx <- dir h x ;;
                       df <- dir h f ;;
                       if Bool.eqb dx df then rot h f else rot h x) ;;
            h <~ free (rot h x) ;;
            splay_loop_t fuel h x
        end)
  end.

(** LCT.cpp:107-116 *)
Definition splay_t (fuel : nat) (h : heap D) (x : nat) : counted (heap D) :=
  h <~ push_down_from_root_t fuel h x ;;
  h <~ splay_loop_t fuel h x ;;
  free (push_up h x).

(** LCT.cpp:119-122 *)
Fixpoint access_loop_t (fuel0 fuel : nat) (h : heap D) (p q : option nat) : counted (heap D) :=
  match p with
  | None => free (Ok h)
  | Some x =>
      match fuel with
      | O => Err OutOfFuel
      | S fuel => turn (
          h <~ splay_t fuel0 h x ;;
          h <~ free (setc h x q true) ;;
          h <~ free (push_up h x) ;;
          nx <~ free (ld h x) ;;
          access_loop_t fuel0 fuel h (n_fa nx) (Some x))
      end
  end.

(** LCT.cpp:118-124 *)
Definition access_t (fuel : nat) (h : heap D) (x : nat) : counted (heap D) :=
  h <~ access_loop_t fuel fuel h (Some x) None ;;
  splay_t fuel h x.

(** LCT.cpp:9-10 *)
Fixpoint leftmost_t (fuel : nat) (h : heap D) (x : nat) : counted nat :=
  match fuel with
  | O => Err OutOfFuel
  | S fuel => turn (
      nx <~ free (ld h x) ;;
      match n_c0 nx with
      | None => free (Ok x)
      | Some c => leftmost_t fuel h c
      end)
  end.

(** LCT.cpp:7-12 *)
Definition find_root_t (fuel : nat) (h : heap D) (x : nat) : counted (heap D * nat) :=
  h <~ access_t fuel h x ;;
  r <~ leftmost_t fuel h x ;;
  free (Ok (h, r)).

(** LCT.cpp:14-18 *)
Definition set_fa_t (fuel : nat) (h : heap D) (x : nat) (p : option nat) : counted (heap D) :=
  h <~ splay_t fuel h x ;;
  nx <~ free (ld h x) ;;
  _ <~ free (assert_ (ptr_eqb (n_fa nx) None)) ;;
  free (modi h x (set_fa_ p)).

(** LCT.cpp:20-26 *)
Definition cut_t (fuel : nat) (h : heap D) (x : nat) : counted (heap D) :=
  h <~ access_t fuel h x ;;
  nx <~ free (ld h x) ;;
  _ <~ free (assert_ (negb (ptr_eqb (n_c0 nx) None))) ;;
  match n_c0 nx with
  | None => Err NullDeref
  | Some c =>
      h <~ free (modi h c (set_fa_ None)) ;;
      h <~ free (modi h x (set_ch_ false None)) ;;
      free (push_up h x)
  end.

(** LCT.cpp:28-32 *)
Definition get_val_t (fuel : nat) (h : heap D) (x : nat) : counted (heap D * D) :=
  r <~ free (is_root h x) ;;
  h <~ (if (r : bool) then free (Ok h) else access_t fuel h x) ;;
  nx <~ free (ld h x) ;;
  free (Ok (h, n_val nx)).

(** LCT.cpp:37-42 *)
Fixpoint get_min_loop_t (fuel : nat) (h : heap D) (p : nat) (ret : D * option nat)
  : counted (heap D * (D * option nat)) :=
  match fuel with
  | O => Err OutOfFuel
  | S fuel => turn (
      h <~ free (push_down h p) ;;
      np <~ free (ld h p) ;;
      ret <~ free (match n_c1 np with
             | None => Ok ret
             | Some c => nc <- ld h c ;;
                         Ok (if dle (fst (n_min nc)) (fst ret) then n_min nc else ret)
             end) ;;
      match n_c0 np with
      | None => free (Ok (h, ret))
      | Some c =>
          let ret := if dle (n_val np) (fst ret) then (n_val np, Some p) else ret in
          get_min_loop_t fuel h c ret
      end)
  end.

(** LCT.cpp:34-44 *)
Definition get_min_wtrbnr_t (fuel : nat) (h : heap D) (x : nat)
  : counted (heap D * (D * option nat)) :=
  h <~ access_t fuel h x ;;
  nx <~ free (ld h x) ;;
  get_min_loop_t fuel h x (n_val nx, Some x).

(** LCT.cpp:46-51 *)
Definition set_val_t (fuel : nat) (h : heap D) (x : nat) (v : D) : counted (heap D) :=
  r <~ free (is_root h x) ;;
  h <~ (if (r : bool) then free (Ok h) else access_t fuel h x) ;;
  h <~ free (modi h x (set_val_ v)) ;;
  free (push_up h x).

(** LCT.cpp:53-56 *)
Definition add_val_way_to_root_t (fuel : nat) (h : heap D) (x : nat) (d : D) : counted (heap D) :=
  h <~ access_t fuel h x ;;
  free (update_add h x d).

(** ** Counting changes nothing *)
Lemma erase_cbind {A B} (m : counted A) (k : A -> counted B) :
  erase (cbind m k) = bind (erase m) (fun a => erase (k a)).
Proof. destruct m as [[a i]|e]; [|reflexivity]. cbn [cbind erase bind]. destruct (k a) as [[b j]|e]; reflexivity. Qed.

Lemma erase_free {A} (m : res A) : erase (free m) = m.
Proof. destruct m; reflexivity. Qed.

Lemma erase_turn {A} (m : counted A) : erase (turn m) = erase m.
Proof. destruct m as [[a i]|e]; reflexivity. Qed.

Lemma bind_ext {A B} (m : res A) (k k' : A -> res B) : (forall a, k a = k' a) -> bind m k = bind m k'.
Proof. intro H. destruct m; [apply H|reflexivity]. Qed.

Lemma bind_ext2 {A B} (m m' : res A) (k k' : A -> res B) : m = m' -> (forall a, k a = k' a) -> bind m k = bind m' k'.
Proof. intros -> H. apply bind_ext. exact H. Qed.

Lemma push_down_from_root_erase fuel : forall h x, erase (push_down_from_root_t fuel h x) = push_down_from_root fuel h x.
Proof.
  induction fuel as [|fuel IH]; intros h x; [reflexivity|]. cbn [push_down_from_root_t push_down_from_root].
  rewrite erase_turn, erase_cbind, erase_free. apply bind_ext. intros r. rewrite erase_cbind.
  apply bind_ext2; [|intros h1; apply erase_free]. destruct r; [reflexivity|]. rewrite erase_cbind, erase_free.
  apply bind_ext. intros nx. destruct (n_fa nx); [apply IH|reflexivity].
Qed.

Lemma splay_loop_erase fuel : forall h x, erase (splay_loop_t fuel h x) = splay_loop fuel h x.
Proof.
  induction fuel as [|fuel IH]; intros h x; [reflexivity|]. cbn [splay_loop_t splay_loop].
  rewrite erase_turn, erase_cbind, erase_free. apply bind_ext. intros r. destruct r; [reflexivity|].
  rewrite erase_cbind, erase_free. apply bind_ext. intros nx. destruct (n_fa nx); [|reflexivity].
  rewrite erase_cbind, erase_free. apply bind_ext. intros rf. rewrite erase_cbind, erase_free. apply bind_ext. intros h1.
  rewrite erase_cbind, erase_free. apply bind_ext. intros h2. apply IH.
Qed.

Lemma splay_erase fuel h x : erase (splay_t fuel h x) = splay fuel h x.
Proof.
  unfold splay_t, splay. rewrite erase_cbind, push_down_from_root_erase. apply bind_ext. intros h1.
  rewrite erase_cbind, splay_loop_erase. apply bind_ext. intros h2. apply erase_free.
Qed.

Lemma access_loop_erase fuel0 fuel : forall h p q, erase (access_loop_t fuel0 fuel h p q) = access_loop fuel0 fuel h p q.
Proof.
  induction fuel as [|fuel IH]; intros h p q; destruct p as [x|]; try reflexivity. cbn [access_loop_t access_loop].
  rewrite erase_turn, erase_cbind, splay_erase. apply bind_ext. intros h1.
  rewrite erase_cbind, erase_free. apply bind_ext. intros h2. rewrite erase_cbind, erase_free. apply bind_ext. intros h3.
  rewrite erase_cbind, erase_free. apply bind_ext. intros nx. apply IH.
Qed.

Lemma access_erase fuel h x : erase (access_t fuel h x) = access fuel h x.
Proof. unfold access_t, access. rewrite erase_cbind, access_loop_erase. apply bind_ext. intros h1. apply splay_erase. Qed.

Lemma leftmost_erase fuel : forall h x, erase (leftmost_t fuel h x) = leftmost fuel h x.
Proof.
  induction fuel as [|fuel IH]; intros h x; [reflexivity|]. cbn [leftmost_t leftmost].
  rewrite erase_turn, erase_cbind, erase_free. apply bind_ext. intros nx. destruct (n_c0 nx); [apply IH|reflexivity].
Qed.

Lemma find_root_erase fuel h x : erase (find_root_t fuel h x) = find_root fuel h x.
Proof.
  unfold find_root_t, find_root. rewrite erase_cbind, access_erase. apply bind_ext. intros h1.
  rewrite erase_cbind, leftmost_erase. apply bind_ext. intros r. reflexivity.
Qed.

Lemma set_fa_erase fuel h x p : erase (set_fa_t fuel h x p) = set_fa fuel h x p.
Proof.
  unfold set_fa_t, set_fa. rewrite erase_cbind, splay_erase. apply bind_ext. intros h1.
  rewrite erase_cbind, erase_free. apply bind_ext. intros nx. rewrite erase_cbind, erase_free. apply bind_ext. intros u. apply erase_free.
Qed.

Lemma cut_erase fuel h x : erase (cut_t fuel h x) = cut fuel h x.
Proof.
  unfold cut_t, cut. rewrite erase_cbind, access_erase. apply bind_ext. intros h1.
  rewrite erase_cbind, erase_free. apply bind_ext. intros nx. rewrite erase_cbind, erase_free. apply bind_ext. intros u.
  destruct (n_c0 nx); [|reflexivity]. rewrite erase_cbind, erase_free. apply bind_ext. intros h2.
  rewrite erase_cbind, erase_free. apply bind_ext. intros h3. apply erase_free.
Qed.

Lemma get_val_erase fuel h x : erase (get_val_t fuel h x) = get_val fuel h x.
Proof.
  unfold get_val_t, get_val. rewrite erase_cbind, erase_free. apply bind_ext. intros r. rewrite erase_cbind.
  apply bind_ext2; [destruct r; [reflexivity|apply access_erase]|]. intros h1. rewrite erase_cbind, erase_free. apply bind_ext. reflexivity.
Qed.

Lemma get_min_loop_erase fuel : forall h x ret, erase (get_min_loop_t fuel h x ret) = get_min_loop fuel h x ret.
Proof.
  induction fuel as [|fuel IH]; intros h x ret; [reflexivity|]. cbn [get_min_loop_t get_min_loop].
  rewrite erase_turn, erase_cbind, erase_free. apply bind_ext. intros h1. rewrite erase_cbind, erase_free. apply bind_ext. intros nx.
  rewrite erase_cbind, erase_free. apply bind_ext. intros rt. destruct (n_c0 nx); [apply IH|reflexivity].
Qed.

Lemma get_min_erase fuel h x : erase (get_min_wtrbnr_t fuel h x) = get_min_wtrbnr fuel h x.
Proof.
  unfold get_min_wtrbnr_t, get_min_wtrbnr. rewrite erase_cbind, access_erase. apply bind_ext. intros h1.
  rewrite erase_cbind, erase_free. apply bind_ext. intros nx. apply get_min_loop_erase.
Qed.

Lemma set_val_erase fuel h x v : erase (set_val_t fuel h x v) = set_val fuel h x v.
Proof.
  unfold set_val_t, set_val. rewrite erase_cbind, erase_free. apply bind_ext. intros r. rewrite erase_cbind.
  apply bind_ext2; [destruct r; [reflexivity|apply access_erase]|]. intros h1. rewrite erase_cbind, erase_free. apply bind_ext.
  intros h2. apply erase_free.
Qed.

Lemma add_path_erase fuel h x d : erase (add_val_way_to_root_t fuel h x d) = add_val_way_to_root fuel h x d.
Proof.
  unfold add_val_way_to_root_t, add_val_way_to_root. rewrite erase_cbind, access_erase. apply bind_ext. intros h1. apply erase_free.
Qed.

(** ** A loop makes no more turns than a fuel that is enough for it *)
Lemma cbind_inv {A B} (m : counted A) (k : A -> counted B) b n : cbind m k = Ok (b, n) ->
  exists a i j, m = Ok (a, i) /\ k a = Ok (b, j) /\ n = (i + j)%nat.
Proof.
  destruct m as [[a i]|e]; [|discriminate]. cbn [cbind]. destruct (k a) as [[b' j]|e] eqn:E; [|discriminate].
  intro H. inversion H; subst. eauto 6.
Qed.

Lemma free_inv {A} (m : res A) a n : free m = Ok (a, n) -> m = Ok a /\ n = O.
Proof. destruct m; [|discriminate]. intro H. inversion H; auto. Qed.

Lemma turn_inv {A} (m : counted A) a n : turn m = Ok (a, n) -> exists i, m = Ok (a, i) /\ n = S i.
Proof. destruct m as [[b i]|e]; [|discriminate]. intro H. inversion H; subst. eauto. Qed.

Lemma erase_inv {A} (m : counted A) a : erase m = Ok a -> exists i, m = Ok (a, i).
Proof. destruct m as [[b i]|e]; [|discriminate]. intro H. inversion H; subst. eauto. Qed.

Lemma push_down_from_root_count k : forall fuel h x h1 h2 c, push_down_from_root k h x = Ok h1 ->
  push_down_from_root_t fuel h x = Ok (h2, c) -> (c <= k)%nat.
Proof.
  induction k as [|k IH]; intros fuel h x h1 h2 c H HT; [discriminate|]. destruct fuel as [|fuel]; [discriminate|].
  cbn [push_down_from_root push_down_from_root_t] in *.
  apply turn_inv in HT. destruct HT as (i & HT & ->).
  apply cbind_inv in HT. destruct HT as (r & i1 & i2 & E1 & HT & ->). apply free_inv in E1. destruct E1 as [E1 ->].
  rewrite E1 in H. cbn [bind] in H.
  apply cbind_inv in HT. destruct HT as (h3 & i3 & i4 & E3 & HT & ->). apply free_inv in HT. destruct HT as [_ ->].
  apply bind_inv in H. destruct H as (h4 & H & _). destruct r.
  - apply free_inv in E3. destruct E3 as [_ ->]. lia.
  - apply cbind_inv in E3. destruct E3 as (nx & i5 & i6 & E5 & E3 & ->). apply free_inv in E5. destruct E5 as [E5 ->].
    rewrite E5 in H. cbn [bind] in H. destruct (n_fa nx); [|discriminate]. specialize (IH _ _ _ _ _ _ H E3). lia.
Qed.

Lemma splay_loop_count k : forall fuel h x h1 h2 c, splay_loop k h x = Ok h1 ->
  splay_loop_t fuel h x = Ok (h2, c) -> (c <= k)%nat.
Proof.
  induction k as [|k IH]; intros fuel h x h1 h2 c H HT; [discriminate|]. destruct fuel as [|fuel]; [discriminate|].
  cbn [splay_loop splay_loop_t] in *.
  apply turn_inv in HT. destruct HT as (i & HT & ->).
  apply cbind_inv in HT. destruct HT as (r & i1 & i2 & E1 & HT & ->). apply free_inv in E1. destruct E1 as [E1 ->].
  rewrite E1 in H. cbn [bind] in H. destruct r; [apply free_inv in HT; destruct HT as [_ ->]; lia|].
  apply cbind_inv in HT. destruct HT as (nx & i3 & i4 & E3 & HT & ->). apply free_inv in E3. destruct E3 as [E3 ->].
  rewrite E3 in H. cbn [bind] in H. destruct (n_fa nx); [|discriminate].
  apply cbind_inv in HT. destruct HT as (rf & i5 & i6 & E5 & HT & ->). apply free_inv in E5. destruct E5 as [E5 ->].
  rewrite E5 in H. cbn [bind] in H.
  apply cbind_inv in HT. destruct HT as (h5 & i7 & i8 & E7 & HT & ->). apply free_inv in E7. destruct E7 as [E7 ->].
  rewrite E7 in H. cbn [bind] in H.
  apply cbind_inv in HT. destruct HT as (h6 & i9 & i10 & E9 & HT & ->). apply free_inv in E9. destruct E9 as [E9 ->].
  rewrite E9 in H. cbn [bind] in H. specialize (IH _ _ _ _ _ _ H HT). lia.
Qed.

Lemma leftmost_count k : forall fuel h x r1 r2 c, leftmost k h x = Ok r1 -> leftmost_t fuel h x = Ok (r2, c) -> (c <= k)%nat.
Proof.
  induction k as [|k IH]; intros fuel h x r1 r2 c H HT; [discriminate|]. destruct fuel as [|fuel]; [discriminate|].
  cbn [leftmost leftmost_t] in *. apply turn_inv in HT. destruct HT as (i & HT & ->).
  apply cbind_inv in HT. destruct HT as (nx & i1 & i2 & E1 & HT & ->). apply free_inv in E1. destruct E1 as [E1 ->].
  rewrite E1 in H. cbn [bind] in H. destruct (n_c0 nx).
  - specialize (IH _ _ _ _ _ _ H HT). lia.
  - apply free_inv in HT. destruct HT as [_ ->]. lia.
Qed.

Lemma get_min_loop_count k : forall fuel h x ret r1 r2 c, get_min_loop k h x ret = Ok r1 ->
  get_min_loop_t fuel h x ret = Ok (r2, c) -> (c <= k)%nat.
Proof.
  induction k as [|k IH]; intros fuel h x ret r1 r2 c H HT; [discriminate|]. destruct fuel as [|fuel]; [discriminate|].
  cbn [get_min_loop get_min_loop_t] in *. apply turn_inv in HT. destruct HT as (i & HT & ->).
  apply cbind_inv in HT. destruct HT as (h1 & i1 & i2 & E1 & HT & ->). apply free_inv in E1. destruct E1 as [E1 ->].
  rewrite E1 in H. cbn [bind] in H.
  apply cbind_inv in HT. destruct HT as (nx & i3 & i4 & E3 & HT & ->). apply free_inv in E3. destruct E3 as [E3 ->].
  rewrite E3 in H. cbn [bind] in H.
  apply cbind_inv in HT. destruct HT as (rt & i5 & i6 & E5 & HT & ->). apply free_inv in E5. destruct E5 as [E5 ->].
  rewrite E5 in H. cbn [bind] in H. destruct (n_c0 nx).
  - specialize (IH _ _ _ _ _ _ _ H HT). lia.
  - apply free_inv in HT. destruct HT as [_ ->]. lia.
Qed.
End Time.
