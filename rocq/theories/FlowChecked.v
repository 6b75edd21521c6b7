(** * The flow solver with contracts and the size of its numbers asserted

    Copies of the functions of Flow.v that additionally check, before each
    call of a link-cut-tree operation, that the documented precondition of that
    operation holds, and after every addition and subtraction, that the result
    satisfies a predicate [okd].  A failing check is the outcome [AssertFail].
    The checks do not change the state; [*_chk_sim] says that a checked run that
    succeeds is a run of the unchecked model. *)
From Verif Require Import Base BaseLemmas Data UniqueQueue LCT LCTChecked ProblemDefine Flow.
Local Open Scope Z_scope.

(** root of [v] according to the parent array, Flow.hpp:66 *)
Fixpoint root_of (k : nat) (fa : list (option nat)) (v : nat) : option nat :=
  match k with
  | O => None
  | S k =>
      match nth_error fa v with
      | Some None => Some v
      | Some (Some w) => root_of k fa w
      | None => None
      end
  end.

Definition is_root (fa : list (option nat)) (v : nat) : bool :=
  match nth_error fa v with Some None => true | _ => false end.
Definition has_parent (fa : list (option nat)) (v : nat) : bool :=
  match nth_error fa v with Some (Some _) => true | _ => false end.

Section Checked.
Context {D : Type} {ops : DataOps D}.
Variable okd : D -> bool.

(** Flow.cpp:128-140 *)
Definition q_chk (s : flow D) (e_id : nat) : res D :=
  e <- vget (f_edges s) e_id ;;
  pi <- vget (f_scal s) (o_i e) ;;
  pj <- vget (f_scal s) (o_j e) ;;
  d <- ck (pi - pj) ;;
  t <- ck (ceil_div d (Z.of_nat (2 * (f_n s + 1))) - 1) ;;
  t1 <- ck (t + 1) ;;
  x <- vget (f_flows s) e_id ;;
  if o_u e <? t1 then ckd okd (dsub (f_M s) x)
  else if t <? o_l e then Ok dzero
  else
    a <- o_fn e t1 ;;
    b <- o_fn e t ;;
    c <- ckd okd (dsub a b) ;;
    r <- ckd okd (dsub c x) ;;
    Ok (dmax dzero r).

(** Flow.cpp:142-145 *)
Definition add_flow_chk (s : flow D) (e_id : nat) (flow_add : D) : res (flow D) :=
  x <- vget (f_flows s) e_id ;;
  y <- ckd okd (dadd x flow_add) ;;
  fl <- vset (f_flows s) e_id y ;;
  x <- vget fl e_id ;;
  fl <- vset fl (rev_id e_id) (dopp x) ;;
  Ok (with_flows s fl).

(** linking [p]: [p] is a root and the new parent is in another tree *)
Definition link_pre (s : flow D) (p : nat) : res bool :=
  g <- vget (f_G s) p ;;
  c <- vget (f_cur s) p ;;
  e_id <- vget g c ;;
  e <- vget (f_edges s) e_id ;;
  Ok (is_root (f_fa s) p &&
      match root_of (length (f_fa s)) (f_fa s) (o_j e) with
      | Some r => negb (Nat.eqb r p)
      | None => false
      end).

Definition link_chk (fuel : nat) (s : flow D) (p : nat) : res (flow D) :=
  b <- link_pre s p ;;
  _ <- assert_ b ;;
  g <- vget (f_G s) p ;;
  c <- vget (f_cur s) p ;;
  e_id <- vget g c ;;
  e <- vget (f_edges s) e_id ;;
  fa <- vset (f_fa s) p (Some (o_j e)) ;;
  let s := with_fa s fa in
  v <- q_chk s e_id ;;
  h <- set_val_chk okd fuel (f_nodes s) p v ;;
  _ <- vget (f_nodes s) (o_j e) ;;
  h <- set_fa_chk okd fuel h p (Some (o_j e)) ;;
  Ok (with_nodes s h).

(** cutting [p]: [p] has a parent *)
Definition flow_cut_chk (fuel : nat) (s : flow D) (p : nat) : res (flow D) :=
  _ <- assert_ (has_parent (f_fa s) p) ;;
  fa <- vset (f_fa s) p None ;;
  let s := with_fa s fa in
  h <- cut_chk okd fuel (f_nodes s) p ;;
  let s := with_nodes s h in
  g <- vget (f_G s) p ;;
  c <- vget (f_cur s) p ;;
  e_id <- vget g c ;;
  a <- q_chk s e_id ;;
  '(h, v) <- get_val_chk okd fuel (f_nodes s) p ;;
  let s := with_nodes s h in
  d <- ckd okd (dsub a v) ;;
  add_flow_chk s e_id d.

(** Flow.cpp:97-103 *)
Definition send_push_chk (fuel : nat) (s : flow D) (p root_id : nat) (x : D) : res (flow D) :=
  h <- add_val_way_to_root_chk okd fuel (f_nodes s) p (dopp x) ;;
  let s := with_nodes s h in
  a <- vget (f_imb s) p ;;
  a' <- ckd okd (dsub a x) ;;
  im <- vset (f_imb s) p a' ;;
  b <- vget im root_id ;;
  b' <- ckd okd (dadd b x) ;;
  im <- vset im root_id b' ;;
  let s := with_imb s im in
  r <- vget im root_id ;;
  if dlt dzero r then
    u <- uq_push (f_uq s) root_id ;; Ok (with_uq s u)
  else Ok s.

(** the path minimum is asked for a node that has a parent, and [root_id] is
    the root of its tree *)
Fixpoint send_loop_chk (fuel0 fuel : nat) (s : flow D) (p root_id : nat) : res (flow D) :=
  if Nat.eqb p root_id then Ok s
  else
    match fuel with
    | O => Err OutOfFuel
    | S fuel =>
        _ <- assert_ (has_parent (f_fa s) p) ;;
        _ <- assert_ (ptr_eqb (root_of (length (f_fa s)) (f_fa s) p) (Some root_id)) ;;
        '(h, m) <- get_min_wtrbnr_chk okd fuel0 (f_nodes s) p ;;
        let s := with_nodes s h in
        a <- vget (f_imb s) p ;;
        if dlt a (fst m) then send_push_chk fuel0 s p root_id a
        else
          s <- send_push_chk fuel0 s p root_id (fst m) ;;
          match snd m with
          | None => Err NullDeref
          | Some r =>
              s <- flow_cut_chk fuel0 s r ;;
              send_loop_chk fuel0 fuel s p r
          end
    end.

Definition send_chk (fuel : nat) (s : flow D) (p : nat) : res (flow D) :=
  '(h, root_id) <- find_root_chk okd fuel (f_nodes s) p ;;
  send_loop_chk fuel fuel (with_nodes s h) p root_id.

Definition update_scaling_chk (fuel : nat) (s : flow D) (p : nat) : res (flow D) :=
  g <- vget (f_G s) p ;;
  s <- for_each g s (fun s e_id =>
         e <- vget (f_edges s) e_id ;;
         let cut_p := o_j e in
         a <- vget (f_fa s) cut_p ;;
         if ptr_eqb a (Some p) then flow_cut_chk fuel s cut_p else Ok s) ;;
  a <- vget (f_scal s) p ;;
  a' <- ck (a + Z.quot (f_eps s) 2) ;;
  sc <- vset (f_scal s) p a' ;;
  cu <- vset (f_cur s) p O ;;
  Ok (with_cur (with_scal s sc) cu).

Fixpoint choice_loop_chk (fuel0 fuel : nat) (s : flow D) (p : nat) : res (flow D) :=
  match fuel with
  | O => Err OutOfFuel
  | S fuel =>
      c <- vget (f_cur s) p ;;
      g <- vget (f_G s) p ;;
      if (c <? length g)%nat then
        e_id <- vget g c ;;
        v <- q_chk s e_id ;;
        if dlt dzero v then
          s <- link_chk fuel0 s p ;; send_chk fuel0 s p
        else
          cu <- vset (f_cur s) p (c + 1)%nat ;;
          choice_loop_chk fuel0 fuel (with_cur s cu) p
      else update_scaling_chk fuel0 s p
  end.

(** every node with positive imbalance is a root *)
Definition pos_roots (s : flow D) : bool :=
  forallb (fun i => match nth_error (f_imb s) i with
                    | Some a => negb (dlt dzero a) || is_root (f_fa s) i
                    | None => false
                    end) (seq 0 (f_n s + 1)).

Fixpoint refine_loop_chk (fuel0 fuel : nat) (s : flow D) : res (flow D) :=
  if uq_empty (f_uq s) then Ok s
  else
    match fuel with
    | O => Err OutOfFuel
    | S fuel =>
        _ <- assert_ (pos_roots s) ;;
        p <- uq_front (f_uq s) ;;
        s <- choice_loop_chk fuel0 fuel0 s p ;;
        p <- uq_front (f_uq s) ;;
        a <- vget (f_imb s) p ;;
        s <- (if deq a dzero
              then u <- uq_pop (f_uq s) ;; Ok (with_uq s u)
              else Ok s) ;;
        refine_loop_chk fuel0 fuel s
    end.

Definition cut_all_chk (fuel : nat) (s : flow D) : res (flow D) :=
  for_each (seq 0 (f_n s + 1)) s (fun s i =>
    a <- vget (f_fa s) i ;;
    match a with
    | None => Ok s
    | Some _ => flow_cut_chk fuel s i
    end).

Definition refine_chk (fuel : nat) (s : flow D) : res (flow D) :=
  s <- refine_loop_chk fuel fuel s ;;
  cut_all_chk fuel s.

(** Flow.cpp:58-71 *)
Definition push_all_chk (s : flow D) : res (flow D) :=
  s <- for_each (seq 0 (length (f_edges s))) s (fun s e_id =>
         e <- vget (f_edges s) e_id ;;
         v <- q_chk s e_id ;;
         if dlt dzero v then
           a <- vget (f_imb s) (o_i e) ;;
           a' <- ckd okd (dsub a v) ;;
           im <- vset (f_imb s) (o_i e) a' ;;
           b <- vget im (o_j e) ;;
           b' <- ckd okd (dadd b v) ;;
           im <- vset im (o_j e) b' ;;
           add_flow_chk (with_imb s im) e_id v
         else Ok s) ;;
  for_each (seq 0 (f_n s + 1)) s (fun s i =>
    a <- vget (f_imb s) i ;;
    if dlt dzero a then u <- uq_push (f_uq s) i ;; Ok (with_uq s u)
    else Ok s).

Definition phase_chk (fuel : nat) (s : flow D) : res (flow D) :=
  let s := initialization s in
  s <- push_all_chk s ;;
  refine_chk fuel s.

Fixpoint scaling_loop_chk (fuel0 fuel : nat) (s : flow D) : res (flow D) :=
  if f_eps s <? 2 then Ok s
  else
    match fuel with
    | O => Err OutOfFuel
    | S fuel =>
        s <- phase_chk fuel0 s ;;
        scaling_loop_chk fuel0 fuel (with_eps s (Z.quot (f_eps s) 2))
    end.

(** ** A checked run that succeeds is a run of the model *)
Lemma implies_ckd {B} z (k1 k2 : D -> res B) : implies (k1 z) (k2 z) -> implies (bind (ckd okd z) k1) (k2 z).
Proof.
  intros H b E. apply bind_inv in E. destruct E as (a & E1 & E2). apply ckd_inv in E1. destruct E1 as [-> _]. apply H; exact E2.
Qed.

Lemma implies_assert {B} b (k1 : unit -> res B) m2 : implies (k1 tt) m2 -> implies (bind (assert_ b) k1) m2.
Proof. intros H. destruct b; cbn [assert_ bind]; [exact H|]. intros a E; discriminate. Qed.

Ltac fsim := repeat first
  [ apply implies_refl
  | match goal with
    | |- implies (let _ := _ in _) _ => cbv zeta
    | |- implies _ (let _ := _ in _) => cbv zeta
    | |- implies (bind (assert_ _) _) _ => apply implies_assert
    | |- implies (bind _ _) (bind _ _) => apply implies_bind; [|intros ?]
    end
  | match goal with
    | |- implies (match ?x with _ => _ end) (match ?x with _ => _ end) => destruct x
    end ].

Lemma q_chk_sim s e : implies (q_chk s e) (q s e).
Proof.
  unfold q_chk, q. fsim.
  - intros r E. apply ckd_inv in E. destruct E as [-> _]. reflexivity.
  - intros r E. apply bind_inv in E. destruct E as (c & E1 & E). apply ckd_inv in E1. destruct E1 as [-> _].
    apply bind_inv in E. destruct E as (c' & E2 & E). apply ckd_inv in E2. destruct E2 as [-> _]. exact E.
Qed.

Lemma add_flow_chk_sim s e d : implies (add_flow_chk s e d) (add_flow_of_edge s e d).
Proof. unfold add_flow_chk, add_flow_of_edge. fsim. apply (implies_ckd _ _ (fun y => bind (vset (f_flows s) e y) _)). fsim. Qed.

Lemma link_chk_sim fuel s p : implies (link_chk fuel s p) (link fuel s p).
Proof.
  unfold link_chk. intros s' E. apply bind_inv in E. destruct E as (b & _ & E). revert s' E.
  change (implies (_ <- assert_ b ;;
    g <- vget (f_G s) p ;; c <- vget (f_cur s) p ;; e_id <- vget g c ;; e <- vget (f_edges s) e_id ;;
    fa <- vset (f_fa s) p (Some (o_j e)) ;; let s := with_fa s fa in v <- q_chk s e_id ;;
    h <- set_val_chk okd fuel (f_nodes s) p v ;; _ <- vget (f_nodes s) (o_j e) ;;
    h <- set_fa_chk okd fuel h p (Some (o_j e)) ;; Ok (with_nodes s h)) (link fuel s p)).
  unfold link. fsim; [apply q_chk_sim|apply set_val_chk_sim|apply set_fa_chk_sim].
Qed.

Lemma flow_cut_chk_sim fuel s p : implies (flow_cut_chk fuel s p) (flow_cut fuel s p).
Proof.
  unfold flow_cut_chk, flow_cut. fsim; [apply cut_chk_sim|apply q_chk_sim|apply get_val_chk_sim|].
  intros s' E. apply bind_inv in E. destruct E as (c & E1 & E). apply ckd_inv in E1. destruct E1 as [-> _].
  apply add_flow_chk_sim. exact E.
Qed.

Lemma send_push_chk_sim fuel s p r x : implies (send_push_chk fuel s p r x) (send_push fuel s p r x).
Proof.
  unfold send_push_chk, send_push. apply implies_bind; [apply add_path_chk_sim|intros h]. cbv zeta.
  apply implies_bind; [apply implies_refl|intros a].
  apply (implies_ckd _ _ (fun y => bind (vset _ p y) _)).
  apply implies_bind; [apply implies_refl|intros im]. apply implies_bind; [apply implies_refl|intros b].
  apply (implies_ckd _ _ (fun y => bind (vset im r y) _)). fsim.
Qed.

Lemma send_loop_chk_sim fuel0 : forall fuel s p r, implies (send_loop_chk fuel0 fuel s p r) (send_loop fuel0 fuel s p r).
Proof.
  induction fuel as [|fuel IH]; intros s p r; cbn [send_loop_chk send_loop]; destruct (Nat.eqb p r); try apply implies_refl.
  fsim; try apply get_min_chk_sim; try apply send_push_chk_sim; try apply flow_cut_chk_sim; apply IH.
Qed.

Lemma send_chk_sim fuel s p : implies (send_chk fuel s p) (send fuel s p).
Proof. unfold send_chk, send. fsim; [apply find_root_chk_sim|apply send_loop_chk_sim]. Qed.

Lemma for_each_sim {A S} (l : list A) (f g : S -> A -> res S) :
  (forall s x, implies (f s x) (g s x)) -> forall s, implies (for_each l s f) (for_each l s g).
Proof.
  intros H. induction l as [|x l IH]; intros s; cbn [for_each]; [apply implies_refl|].
  apply implies_bind; [apply H|intros; apply IH].
Qed.

Lemma update_scaling_chk_sim fuel s p : implies (update_scaling_chk fuel s p) (update_scaling fuel s p).
Proof.
  unfold update_scaling_chk, update_scaling. fsim. apply for_each_sim. intros s0 e. fsim. apply flow_cut_chk_sim.
Qed.

Lemma choice_loop_chk_sim fuel0 : forall fuel s p, implies (choice_loop_chk fuel0 fuel s p) (choice_loop fuel0 fuel s p).
Proof.
  induction fuel as [|fuel IH]; intros s p; cbn [choice_loop_chk choice_loop]; [apply implies_refl|].
  fsim; [apply q_chk_sim|apply link_chk_sim|apply send_chk_sim|apply IH|apply update_scaling_chk_sim].
Qed.

Lemma refine_loop_chk_sim fuel0 : forall fuel s, implies (refine_loop_chk fuel0 fuel s) (refine_loop fuel0 fuel s).
Proof.
  induction fuel as [|fuel IH]; intros s; cbn [refine_loop_chk refine_loop]; destruct (uq_empty (f_uq s)); try apply implies_refl.
  fsim; [apply choice_loop_chk_sim|apply IH].
Qed.

Lemma cut_all_chk_sim fuel s : implies (cut_all_chk fuel s) (cut_all fuel s).
Proof. apply for_each_sim. intros s0 i. fsim. apply flow_cut_chk_sim. Qed.

Lemma refine_chk_sim fuel s : implies (refine_chk fuel s) (refine fuel s).
Proof. unfold refine_chk, refine. fsim; [apply refine_loop_chk_sim|apply cut_all_chk_sim]. Qed.

Lemma push_all_chk_sim s : implies (push_all_chk s) (push_all_admissible_edge s).
Proof.
  unfold push_all_chk, push_all_admissible_edge. fsim. apply for_each_sim. intros s0 e. fsim; [apply q_chk_sim|].
  apply (implies_ckd _ _ (fun y => bind (vset _ _ y) _)).
  apply implies_bind; [apply implies_refl|intros im]. apply implies_bind; [apply implies_refl|intros b].
  apply (implies_ckd _ _ (fun y => bind (vset im _ y) _)). fsim. apply add_flow_chk_sim.
Qed.

Lemma phase_chk_sim fuel s : implies (phase_chk fuel s) (phase fuel s).
Proof. unfold phase_chk, phase. fsim; [apply push_all_chk_sim|apply refine_chk_sim]. Qed.

Lemma scaling_loop_chk_sim fuel0 : forall fuel s, implies (scaling_loop_chk fuel0 fuel s) (scaling_loop fuel0 fuel s).
Proof.
  induction fuel as [|fuel IH]; intros s; cbn [scaling_loop_chk scaling_loop]; destruct (f_eps s <? 2); try apply implies_refl.
  fsim; [apply phase_chk_sim|apply IH].
Qed.

End Checked.
