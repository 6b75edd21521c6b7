(** * The flow solver with its loop turns counted

    Copies of the functions of Flow.v, of [limit_min] and of [partition_point]
    that also return how many turns all loops make: those of Flow.cpp (one for
    every iteration of 31-35, 37-42, 59-67, 68-70, 74-78, 80-82, 86-91, 104-113
    and 118-122, and one for every entry that std::fill writes at 53), the search of ProblemDefine.cpp:6-16 (one for every call), and
    those of the link-cut tree (LCTTime.v).  Everything else is straight-line
    code.  [*_erase] says that the counting changes nothing else. *)
From Verif Require Import Base BaseLemmas Data UniqueQueue LCT ProblemDefine Flow LCTTime.
Local Open Scope Z_scope.

Fixpoint for_each_t {A S : Type} (l : list A) (st : S) (body : S -> A -> counted S) : counted S :=
  match l with
  | [] => free (Ok st)
  | x :: l' => turn (st' <~ body st x ;; for_each_t l' st' body)
  end.

(** ProblemDefine.cpp:6-16 *)
Fixpoint partition_point_t (fuel : nat) (l r : Z) (pred : Z -> res bool) : counted Z :=
  match fuel with
  | O => Err OutOfFuel
  | S fuel => turn (
      if l =? r then free (Ok l)
      else
        d <~ free (ck (r - l)) ;;
        mid <~ free (ck (l + Z.quot d 2)) ;;
        b <~ free (pred mid) ;;
        if (b : bool)
        then l' <~ free (ck (mid + 1)) ;; partition_point_t fuel l' r pred
        else partition_point_t fuel l mid pred)
  end.

(** [k] turns *)
Definition turns (k : nat) : counted unit := Ok (tt, k).

Section Time.
Context {D : Type} {ops : DataOps D}.

(** ProblemDefine.cpp:28-34 *)
Definition limit_min_t (fuel : nat) (o : OmegaLimit D) : counted D :=
  min_point <~ partition_point_t fuel (o_l o) (o_u o) (decreasing_at (o_fn o)) ;;
  free (o_fn o min_point).

(** Flow.cpp:147-154 *)
Definition link_t (fuel : nat) (s : flow D) (p : nat) : counted (flow D) :=
  g <~ free (vget (f_G s) p) ;;
  c <~ free (vget (f_cur s) p) ;;
  e_id <~ free (vget g c) ;;
  e <~ free (vget (f_edges s) e_id) ;;
  fa <~ free (vset (f_fa s) p (Some (o_j e))) ;;
  let s := with_fa s fa in
  v <~ free (q s e_id) ;;
  h <~ set_val_t fuel (f_nodes s) p v ;;
  _ <~ free (vget (f_nodes s) (o_j e)) ;;
  h <~ set_fa_t fuel h p (Some (o_j e)) ;;
  free (Ok (with_nodes s h)).

(** Flow.cpp:156-162 *)
Definition flow_cut_t (fuel : nat) (s : flow D) (p : nat) : counted (flow D) :=
  fa <~ free (vset (f_fa s) p None) ;;
  let s := with_fa s fa in
  h <~ cut_t fuel (f_nodes s) p ;;
  let s := with_nodes s h in
  g <~ free (vget (f_G s) p) ;;
  c <~ free (vget (f_cur s) p) ;;
  e_id <~ free (vget g c) ;;
  a <~ free (q s e_id) ;;
  r <~ get_val_t fuel (f_nodes s) p ;;
  let ' (h, v) := r in
  let s := with_nodes s h in
  free (add_flow_of_edge s e_id (dsub a v)).

(** Flow.cpp:97-103 *)
Definition send_push_t (fuel : nat) (s : flow D) (p root_id : nat) (x : D) : counted (flow D) :=
  h <~ add_val_way_to_root_t fuel (f_nodes s) p (dopp x) ;;
  let s := with_nodes s h in
  free (a <- vget (f_imb s) p ;;
        im <- vset (f_imb s) p (dsub a x) ;;
        b <- vget im root_id ;;
        im <- vset im root_id (dadd b x) ;;
        let s := with_imb s im in
        r <- vget im root_id ;;
        if dlt dzero r then
          u <- uq_push (f_uq s) root_id ;; Ok (with_uq s u)
        else Ok s).

(** Flow.cpp:104-113 *)
Fixpoint send_loop_t (fuel0 fuel : nat) (s : flow D) (p root_id : nat) : counted (flow D) :=
  if Nat.eqb p root_id then free (Ok s)
  else
    match fuel with
    | O => Err OutOfFuel
    | S fuel => turn (
        r <~ get_min_wtrbnr_t fuel0 (f_nodes s) p ;;
        let ' (h, m) := r in
        let s := with_nodes s h in
        a <~ free (vget (f_imb s) p) ;;
        if dlt a (fst m) then send_push_t fuel0 s p root_id a
        else
          s <~ send_push_t fuel0 s p root_id (fst m) ;;
          match snd m with
          | None => Err NullDeref
          | Some r =>
              s <~ flow_cut_t fuel0 s r ;;
              send_loop_t fuel0 fuel s p r
          end)
    end.

(** Flow.cpp:94-114 *)
Definition send_t (fuel : nat) (s : flow D) (p : nat) : counted (flow D) :=
  r <~ find_root_t fuel (f_nodes s) p ;;
  let ' (h, root_id) := r in
  send_loop_t fuel fuel (with_nodes s h) p root_id.

(** Flow.cpp:116-126 *)
Definition update_scaling_t (fuel : nat) (s : flow D) (p : nat) : counted (flow D) :=
  g <~ free (vget (f_G s) p) ;;
  s <~ for_each_t g s (fun s e_id =>
         e <~ free (vget (f_edges s) e_id) ;;
         let cut_p := o_j e in
         a <~ free (vget (f_fa s) cut_p) ;;
         if ptr_eqb a (Some p) then flow_cut_t fuel s cut_p else free (Ok s)) ;;
  free (a <- vget (f_scal s) p ;;
        a' <- ck (a + Z.quot (f_eps s) 2) ;;
        sc <- vset (f_scal s) p a' ;;
        cu <- vset (f_cur s) p O ;;
        Ok (with_cur (with_scal s sc) cu)).

(** Flow.cpp:86-91 *)
Fixpoint choice_loop_t (fuel0 fuel : nat) (s : flow D) (p : nat) : counted (flow D) :=
  match fuel with
  | O => Err OutOfFuel
  | S fuel => turn (
      c <~ free (vget (f_cur s) p) ;;
      g <~ free (vget (f_G s) p) ;;
      if (c <? length g)%nat then
        e_id <~ free (vget g c) ;;
        v <~ free (q s e_id) ;;
        if dlt dzero v then
          s <~ link_t fuel0 s p ;; send_t fuel0 s p
        else
          cu <~ free (vset (f_cur s) p (c + 1)%nat) ;;
          choice_loop_t fuel0 fuel (with_cur s cu) p
      else update_scaling_t fuel0 s p)
  end.

(** Flow.cpp:74-78 *)
Fixpoint refine_loop_t (fuel0 fuel : nat) (s : flow D) : counted (flow D) :=
  if uq_empty (f_uq s) then free (Ok s)
  else
    match fuel with
    | O => Err OutOfFuel
    | S fuel => turn (
        p <~ free (uq_front (f_uq s)) ;;
        s <~ choice_loop_t fuel0 fuel0 s p ;;
        p <~ free (uq_front (f_uq s)) ;;
        a <~ free (vget (f_imb s) p) ;;
        s <~ free (if deq a dzero
                   then u <- uq_pop (f_uq s) ;; Ok (with_uq s u)
                   else Ok s) ;;
        refine_loop_t fuel0 fuel s)
    end.

(** Flow.cpp:80-82 *)
Definition cut_all_t (fuel : nat) (s : flow D) : counted (flow D) :=
  for_each_t (seq 0 (f_n s + 1)) s (fun s i =>
    a <~ free (vget (f_fa s) i) ;;
    match a with
    | None => free (Ok s)
    | Some _ => flow_cut_t fuel s i
    end).

(** Flow.cpp:73-83 *)
Definition refine_t (fuel : nat) (s : flow D) : counted (flow D) :=
  s <~ refine_loop_t fuel fuel s ;;
  cut_all_t fuel s.

(** Flow.cpp:58-71 *)
Definition push_all_t (s : flow D) : counted (flow D) :=
  s <~ for_each_t (seq 0 (length (f_edges s))) s (fun s e_id => free (
         e <- vget (f_edges s) e_id ;;
         v <- q s e_id ;;
         if dlt dzero v then
           a <- vget (f_imb s) (o_i e) ;;
           im <- vset (f_imb s) (o_i e) (dsub a v) ;;
           b <- vget im (o_j e) ;;
           im <- vset im (o_j e) (dadd b v) ;;
           add_flow_of_edge (with_imb s im) e_id v
         else Ok s)) ;;
  for_each_t (seq 0 (f_n s + 1)) s (fun s i => free (
    a <- vget (f_imb s) i ;;
    if dlt dzero a then u <- uq_push (f_uq s) i ;; Ok (with_uq s u)
    else Ok s)).

(** Flow.cpp:31-35, one iteration *)
Definition phase_t (fuel : nat) (s : flow D) : counted (flow D) :=
  _ <~ turns (length (f_cur s)) ;;
  let s := initialization s in
  s <~ push_all_t s ;;
  refine_t fuel s.

(** Flow.cpp:31-35 *)
Fixpoint scaling_loop_t (fuel0 fuel : nat) (s : flow D) : counted (flow D) :=
  if f_eps s <? 2 then free (Ok s)
  else
    match fuel with
    | O => Err OutOfFuel
    | S fuel => turn (
        s <~ phase_t fuel0 s ;;
        scaling_loop_t fuel0 fuel (with_eps s (Z.quot (f_eps s) 2)))
    end.

(** Flow.cpp:36-42 *)
Definition sum_answer_t (fuel : nat) (s : flow D) : counted (flow D * D) :=
  for_each_t (seq 0 (length (f_edges s))) (s, dzero) (fun '(s, answer) e_id =>
    e <~ free (vget (f_edges s) e_id) ;;
    x <~ free (vget (f_flows s) e_id) ;;
    let e' := tilt e x in
    es <~ free (vset (f_edges s) e_id e') ;;
    let s := with_edges s es in
    m <~ limit_min_t fuel e' ;;
    free (Ok (s, dadd answer m))).

(** Flow.cpp:30-46 *)
Definition min_cost_t (fuel : nat) (s : flow D) : counted (flow D * D) :=
  s <~ scaling_loop_t fuel fuel s ;;
  r <~ sum_answer_t fuel s ;;
  let ' (s, answer) := r in
  free (Ok (s, dhalf answer)).

(** ** Counting changes nothing *)
Lemma for_each_erase {A S} (l : list A) (f : S -> A -> counted S) (g : S -> A -> res S) :
  (forall s x, erase (f s x) = g s x) -> forall s, erase (for_each_t l s f) = for_each l s g.
Proof.
  intros H. induction l as [|x l IH]; intros s; cbn [for_each_t for_each]; [reflexivity|].
  rewrite erase_turn, erase_cbind, H. apply bind_ext. exact IH.
Qed.

Lemma partition_point_erase fuel : forall l r pred, erase (partition_point_t fuel l r pred) = partition_point fuel l r pred.
Proof.
  induction fuel as [|fuel IH]; intros l r pred; [reflexivity|]. cbn [partition_point_t partition_point].
  rewrite erase_turn. destruct (l =? r); [reflexivity|]. do 3 (rewrite erase_cbind, erase_free; apply bind_ext; intro).
  destruct a1; [rewrite erase_cbind, erase_free; apply bind_ext; intro|]; apply IH.
Qed.

Ltac er := repeat (rewrite erase_cbind, erase_free; apply bind_ext; intro; cbv zeta).

Lemma limit_min_erase fuel o : erase (limit_min_t fuel o) = limit_min fuel o.
Proof. unfold limit_min_t, limit_min. rewrite erase_cbind, partition_point_erase. apply bind_ext. intro. apply erase_free. Qed.

Lemma link_erase fuel s p : erase (link_t fuel s p) = link fuel s p.
Proof.
  unfold link_t, link. er. rewrite erase_cbind, set_val_erase. apply bind_ext; intro. er.
  rewrite erase_cbind, set_fa_erase. apply bind_ext; intro. reflexivity.
Qed.

Lemma flow_cut_erase fuel s p : erase (flow_cut_t fuel s p) = flow_cut fuel s p.
Proof.
  unfold flow_cut_t, flow_cut. er. rewrite erase_cbind, cut_erase. apply bind_ext; intro. cbv zeta. er.
  rewrite erase_cbind, get_val_erase. apply bind_ext; intros [h v]. apply erase_free.
Qed.

Lemma send_push_erase fuel s p r x : erase (send_push_t fuel s p r x) = send_push fuel s p r x.
Proof. unfold send_push_t, send_push. rewrite erase_cbind, add_path_erase. apply bind_ext; intro. apply erase_free. Qed.

Lemma send_loop_erase fuel0 : forall fuel s p r, erase (send_loop_t fuel0 fuel s p r) = send_loop fuel0 fuel s p r.
Proof.
  induction fuel as [|fuel IH]; intros s p r; cbn [send_loop_t send_loop]; destruct (Nat.eqb p r); try reflexivity.
  rewrite erase_turn, erase_cbind, get_min_erase. apply bind_ext; intros [h m]. cbv zeta. er.
  destruct (dlt a (fst m)); [apply send_push_erase|]. rewrite erase_cbind, send_push_erase. apply bind_ext; intro.
  destruct (snd m); [|reflexivity]. rewrite erase_cbind, flow_cut_erase. apply bind_ext; intro. apply IH.
Qed.

Lemma send_erase fuel s p : erase (send_t fuel s p) = send fuel s p.
Proof. unfold send_t, send. rewrite erase_cbind, find_root_erase. apply bind_ext; intros [h r]. apply send_loop_erase. Qed.

Lemma update_scaling_erase fuel s p : erase (update_scaling_t fuel s p) = update_scaling fuel s p.
Proof.
  unfold update_scaling_t, update_scaling. er. rewrite erase_cbind. apply bind_ext2; [|intro; apply erase_free].
  apply for_each_erase. intros s1 e. er. destruct (ptr_eqb a1 (Some p)); [apply flow_cut_erase|reflexivity].
Qed.

Lemma choice_loop_erase fuel0 : forall fuel s p, erase (choice_loop_t fuel0 fuel s p) = choice_loop fuel0 fuel s p.
Proof.
  induction fuel as [|fuel IH]; intros s p; [reflexivity|]. cbn [choice_loop_t choice_loop]. rewrite erase_turn. er.
  destruct (a <? length a0)%nat; [|apply update_scaling_erase]. er. destruct (dlt dzero a2).
  - rewrite erase_cbind, link_erase. apply bind_ext; intro. apply send_erase.
  - er. apply IH.
Qed.

Lemma refine_loop_erase fuel0 : forall fuel s, erase (refine_loop_t fuel0 fuel s) = refine_loop fuel0 fuel s.
Proof.
  induction fuel as [|fuel IH]; intros s; cbn [refine_loop_t refine_loop]; destruct (uq_empty (f_uq s)); try reflexivity.
  rewrite erase_turn. er. rewrite erase_cbind, choice_loop_erase. apply bind_ext; intro. er. apply IH.
Qed.

Lemma cut_all_erase fuel s : erase (cut_all_t fuel s) = cut_all fuel s.
Proof.
  unfold cut_all_t, cut_all. apply for_each_erase. intros s1 i. er. destruct a; [apply flow_cut_erase|reflexivity].
Qed.

Lemma push_all_erase s : erase (push_all_t s) = push_all_admissible_edge s.
Proof.
  unfold push_all_t, push_all_admissible_edge. rewrite erase_cbind. apply bind_ext2; [|intro];
  apply for_each_erase; intros; apply erase_free.
Qed.

Lemma phase_erase fuel s : erase (phase_t fuel s) = phase fuel s.
Proof.
  unfold phase_t, phase. cbv zeta. rewrite erase_cbind. cbn [turns erase bind]. rewrite erase_cbind, push_all_erase. apply bind_ext; intro.
  unfold refine_t, refine. rewrite erase_cbind, refine_loop_erase. apply bind_ext; intro. apply cut_all_erase.
Qed.

Lemma scaling_loop_erase fuel0 : forall fuel s, erase (scaling_loop_t fuel0 fuel s) = scaling_loop fuel0 fuel s.
Proof.
  induction fuel as [|fuel IH]; intros s; cbn [scaling_loop_t scaling_loop]; destruct (f_eps s <? 2); try reflexivity.
  rewrite erase_turn, erase_cbind, phase_erase. apply bind_ext; intro. apply IH.
Qed.

Lemma sum_answer_erase fuel s : erase (sum_answer_t fuel s) = sum_answer fuel s.
Proof.
  unfold sum_answer_t, sum_answer. apply for_each_erase. intros [s1 a] e. er. rewrite erase_cbind, limit_min_erase.
  apply bind_ext; intro. reflexivity.
Qed.

Lemma min_cost_erase fuel s : erase (min_cost_t fuel s) = min_cost fuel s.
Proof.
  unfold min_cost_t, min_cost. rewrite erase_cbind, scaling_loop_erase. apply bind_ext; intro.
  rewrite erase_cbind, sum_answer_erase. apply bind_ext; intros [s1 v]. reflexivity.
Qed.
End Time.
