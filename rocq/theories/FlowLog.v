(** * The flow solver with its calls of the link-cut tree recorded

    Copies of the functions of Flow.v that also return the list of all calls of
    methods of [nodes], in order.  [*_unlog] says that recording changes nothing
    else. *)
From Verif Require Import Base BaseLemmas Data UniqueQueue LCT LCTSpec LCTTime ProblemDefine Flow.
Local Open Scope Z_scope.

Definition logged (A : Type) : Type := res (A * list lct_op).

Definition lbind {A B} (m : logged A) (k : A -> logged B) : logged B :=
  match m with
  | Ok (a, i) => match k a with Ok (b, j) => Ok (b, i ++ j) | Err e => Err e end
  | Err e => Err e
  end.

(** no call *)
Definition quiet {A} (m : res A) : logged A := match m with Ok a => Ok (a, []) | Err e => Err e end.
(** the call [op] *)
Definition call_log {A} (op : lct_op) (m : res A) : logged A := match m with Ok a => Ok (a, [op]) | Err e => Err e end.

Definition unlog {A} (m : logged A) : res A := match m with Ok (a, _) => Ok a | Err e => Err e end.

Notation "x <! c1 ;; c2" := (lbind c1 (fun x => c2)) (at level 61, c1 at next level, right associativity).

Fixpoint for_each_l {A S : Type} (l : list A) (st : S) (body : S -> A -> logged S) : logged S :=
  match l with
  | [] => quiet (Ok st)
  | x :: l' => st' <! body st x ;; for_each_l l' st' body
  end.

Section Log.
Variable one : Z.
#[local] Hint Extern 0 (DataOps Z) => exact (exact_ops one) : typeclass_instances.

(** Flow.cpp:147-154 *)
Definition link_l (fuel : nat) (s : flow Z) (p : nat) : logged (flow Z) :=
  g <! quiet (vget (f_G s) p) ;;
  c <! quiet (vget (f_cur s) p) ;;
  e_id <! quiet (vget g c) ;;
  e <! quiet (vget (f_edges s) e_id) ;;
  fa <! quiet (vset (f_fa s) p (Some (o_j e))) ;;
  let s := with_fa s fa in
  v <! quiet (q s e_id) ;;
  h <! call_log (SetVal p v) (set_val fuel (f_nodes s) p v) ;;
  _ <! quiet (vget (f_nodes s) (o_j e)) ;;
  h <! call_log (SetFa p (o_j e)) (set_fa fuel h p (Some (o_j e))) ;;
  quiet (Ok (with_nodes s h)).

(** Flow.cpp:156-162 *)
Definition flow_cut_l (fuel : nat) (s : flow Z) (p : nat) : logged (flow Z) :=
  fa <! quiet (vset (f_fa s) p None) ;;
  let s := with_fa s fa in
  h <! call_log (Cut p) (cut fuel (f_nodes s) p) ;;
  let s := with_nodes s h in
  g <! quiet (vget (f_G s) p) ;;
  c <! quiet (vget (f_cur s) p) ;;
  e_id <! quiet (vget g c) ;;
  a <! quiet (q s e_id) ;;
  r <! call_log (GetVal p) (get_val fuel (f_nodes s) p) ;;
  let ' (h, v) := r in
  let s := with_nodes s h in
  quiet (add_flow_of_edge s e_id (dsub a v)).

(** Flow.cpp:97-103 *)
Definition send_push_l (fuel : nat) (s : flow Z) (p root_id : nat) (x : Z) : logged (flow Z) :=
  h <! call_log (AddPath p (dopp x)) (add_val_way_to_root fuel (f_nodes s) p (dopp x)) ;;
  let s := with_nodes s h in
  quiet (a <- vget (f_imb s) p ;;
        im <- vset (f_imb s) p (dsub a x) ;;
        b <- vget im root_id ;;
        im <- vset im root_id (dadd b x) ;;
        let s := with_imb s im in
        r <- vget im root_id ;;
        if dlt dzero r then
          u <- uq_push (f_uq s) root_id ;; Ok (with_uq s u)
        else Ok s).

(** Flow.cpp:104-113 *)
Fixpoint send_loop_l (fuel0 fuel : nat) (s : flow Z) (p root_id : nat) : logged (flow Z) :=
  if Nat.eqb p root_id then quiet (Ok s)
  else
    match fuel with
    | O => Err OutOfFuel
    | S fuel => (
        r <! call_log (GetMin p) (get_min_wtrbnr fuel0 (f_nodes s) p) ;;
        let ' (h, m) := r in
        let s := with_nodes s h in
        a <! quiet (vget (f_imb s) p) ;;
        if dlt a (fst m) then send_push_l fuel0 s p root_id a
        else
          s <! send_push_l fuel0 s p root_id (fst m) ;;
          match snd m with
          | None => Err NullDeref
          | Some r =>
              s <! flow_cut_l fuel0 s r ;;
              send_loop_l fuel0 fuel s p r
          end)
    end.

(** Flow.cpp:94-114 *)
Definition send_l (fuel : nat) (s : flow Z) (p : nat) : logged (flow Z) :=
  r <! call_log (FindRoot p) (find_root fuel (f_nodes s) p) ;;
  let ' (h, root_id) := r in
  send_loop_l fuel fuel (with_nodes s h) p root_id.

(** Flow.cpp:116-126 *)
Definition update_scaling_l (fuel : nat) (s : flow Z) (p : nat) : logged (flow Z) :=
  g <! quiet (vget (f_G s) p) ;;
  s <! for_each_l g s (fun s e_id =>
         e <! quiet (vget (f_edges s) e_id) ;;
         let cut_p := o_j e in
         a <! quiet (vget (f_fa s) cut_p) ;;
         if ptr_eqb a (Some p) then flow_cut_l fuel s cut_p else quiet (Ok s)) ;;
  quiet (a <- vget (f_scal s) p ;;
        a' <- ck (a + Z.quot (f_eps s) 2) ;;
        sc <- vset (f_scal s) p a' ;;
        cu <- vset (f_cur s) p O ;;
        Ok (with_cur (with_scal s sc) cu)).

(** Flow.cpp:86-91 *)
Fixpoint choice_loop_l (fuel0 fuel : nat) (s : flow Z) (p : nat) : logged (flow Z) :=
  match fuel with
  | O => Err OutOfFuel
  | S fuel => (
      c <! quiet (vget (f_cur s) p) ;;
      g <! quiet (vget (f_G s) p) ;;
      if (c <? length g)%nat then
        e_id <! quiet (vget g c) ;;
        v <! quiet (q s e_id) ;;
        if dlt dzero v then
          s <! link_l fuel0 s p ;; send_l fuel0 s p
        else
          cu <! quiet (vset (f_cur s) p (c + 1)%nat) ;;
          choice_loop_l fuel0 fuel (with_cur s cu) p
      else update_scaling_l fuel0 s p)
  end.

(** Flow.cpp:74-78 *)
Fixpoint refine_loop_l (fuel0 fuel : nat) (s : flow Z) : logged (flow Z) :=
  if uq_empty (f_uq s) then quiet (Ok s)
  else
    match fuel with
    | O => Err OutOfFuel
    | S fuel => (
        p <! quiet (uq_front (f_uq s)) ;;
        s <! choice_loop_l fuel0 fuel0 s p ;;
        p <! quiet (uq_front (f_uq s)) ;;
        a <! quiet (vget (f_imb s) p) ;;
        s <! quiet (if deq a dzero
                   then u <- uq_pop (f_uq s) ;; Ok (with_uq s u)
                   else Ok s) ;;
        refine_loop_l fuel0 fuel s)
    end.

(** Flow.cpp:80-82 *)
Definition cut_all_l (fuel : nat) (s : flow Z) : logged (flow Z) :=
  for_each_l (seq 0 (f_n s + 1)) s (fun s i =>
    a <! quiet (vget (f_fa s) i) ;;
    match a with
    | None => quiet (Ok s)
    | Some _ => flow_cut_l fuel s i
    end).

(** Flow.cpp:73-83 *)
Definition refine_l (fuel : nat) (s : flow Z) : logged (flow Z) :=
  s <! refine_loop_l fuel fuel s ;;
  cut_all_l fuel s.

(** Flow.cpp:31-35, one iteration *)
Definition phase_l (fuel : nat) (s : flow Z) : logged (flow Z) :=
  let s := initialization s in
  s <! quiet (push_all_admissible_edge s) ;;
  refine_l fuel s.

(** Flow.cpp:31-35 *)
Fixpoint scaling_loop_l (fuel0 fuel : nat) (s : flow Z) : logged (flow Z) :=
  if f_eps s <? 2 then quiet (Ok s)
  else
    match fuel with
    | O => Err OutOfFuel
    | S fuel => (
        s <! phase_l fuel0 s ;;
        scaling_loop_l fuel0 fuel (with_eps s (Z.quot (f_eps s) 2)))
    end.

(** Flow.cpp:30-46 *)
Definition min_cost_l (fuel : nat) (s : flow Z) : logged (flow Z * Z) :=
  s <! scaling_loop_l fuel fuel s ;;
  r <! quiet (sum_answer fuel s) ;;
  let ' (s, answer) := r in
  quiet (Ok (s, dhalf answer)).

(** ** Recording changes nothing *)
Lemma unlog_lbind {A B} (m : logged A) (k : A -> logged B) : unlog (lbind m k) = (a <- unlog m ;; unlog (k a)).
Proof. destruct m as [[a i]|]; cbn [lbind unlog bind]; [|reflexivity]. destruct (k a) as [[b j]|]; reflexivity. Qed.

Lemma unlog_quiet {A} (m : res A) : unlog (quiet m) = m.
Proof. destruct m; reflexivity. Qed.

Lemma unlog_call {A} op (m : res A) : unlog (call_log op m) = m.
Proof. destruct m; reflexivity. Qed.

Lemma for_each_unlog {A S} (l : list A) (f : S -> A -> logged S) (g : S -> A -> res S) :
  (forall s x, unlog (f s x) = g s x) -> forall s, unlog (for_each_l l s f) = for_each l s g.
Proof.
  intros H. induction l as [|x l IH]; intros s; cbn [for_each_l for_each]; [reflexivity|].
  rewrite unlog_lbind, H. apply bind_ext. exact IH.
Qed.

Ltac ul := repeat (rewrite unlog_lbind, ?unlog_quiet, ?unlog_call; apply bind_ext; intro; cbv zeta).

Lemma link_unlog fuel s p : unlog (link_l fuel s p) = link fuel s p.
Proof. unfold link_l, link. ul. reflexivity. Qed.

Lemma flow_cut_unlog fuel s p : unlog (flow_cut_l fuel s p) = flow_cut fuel s p.
Proof. unfold flow_cut_l, flow_cut. ul. destruct a5. apply unlog_quiet. Qed.

Lemma send_push_unlog fuel s p r x : unlog (send_push_l fuel s p r x) = send_push fuel s p r x.
Proof. unfold send_push_l, send_push. ul. apply unlog_quiet. Qed.

Lemma send_loop_unlog fuel0 : forall fuel s p r, unlog (send_loop_l fuel0 fuel s p r) = send_loop fuel0 fuel s p r.
Proof.
  induction fuel as [|fuel IH]; intros s p r; cbn [send_loop_l send_loop]; destruct (Nat.eqb p r); try reflexivity.
  rewrite unlog_lbind, unlog_call. apply bind_ext; intros [h m]. cbv zeta. rewrite unlog_lbind, unlog_quiet. apply bind_ext; intro a.
  destruct (dlt a (fst m)); [apply send_push_unlog|]. rewrite unlog_lbind, send_push_unlog. apply bind_ext; intro.
  destruct (snd m); [|reflexivity]. rewrite unlog_lbind, flow_cut_unlog. apply bind_ext; intro. apply IH.
Qed.

Lemma send_unlog fuel s p : unlog (send_l fuel s p) = send fuel s p.
Proof. unfold send_l, send. rewrite unlog_lbind, unlog_call. apply bind_ext; intros [h r]. apply send_loop_unlog. Qed.

Lemma update_scaling_unlog fuel s p : unlog (update_scaling_l fuel s p) = update_scaling fuel s p.
Proof.
  unfold update_scaling_l, update_scaling. rewrite unlog_lbind, unlog_quiet. apply bind_ext; intro. rewrite unlog_lbind. apply bind_ext2; [|intro; apply unlog_quiet].
  apply for_each_unlog. intros s1 e. do 2 (rewrite unlog_lbind, unlog_quiet; apply bind_ext; intro; cbv zeta). destruct (ptr_eqb a1 (Some p)); [apply flow_cut_unlog|reflexivity].
Qed.

Lemma choice_loop_unlog fuel0 : forall fuel s p, unlog (choice_loop_l fuel0 fuel s p) = choice_loop fuel0 fuel s p.
Proof.
  induction fuel as [|fuel IH]; intros s p; [reflexivity|]. cbn [choice_loop_l choice_loop]. do 2 (rewrite unlog_lbind, unlog_quiet; apply bind_ext; intro).
  destruct (a <? length a0)%nat; [|apply update_scaling_unlog]. do 2 (rewrite unlog_lbind, unlog_quiet; apply bind_ext; intro). destruct (dlt dzero a2).
  - rewrite unlog_lbind, link_unlog. apply bind_ext; intro. apply send_unlog.
  - rewrite unlog_lbind, unlog_quiet; apply bind_ext; intro. apply IH.
Qed.

Lemma refine_loop_unlog fuel0 : forall fuel s, unlog (refine_loop_l fuel0 fuel s) = refine_loop fuel0 fuel s.
Proof.
  induction fuel as [|fuel IH]; intros s; cbn [refine_loop_l refine_loop]; destruct (uq_empty (f_uq s)); try reflexivity.
  rewrite unlog_lbind, unlog_quiet. apply bind_ext; intro. rewrite unlog_lbind, choice_loop_unlog. apply bind_ext; intro.
  do 3 (rewrite unlog_lbind, unlog_quiet; apply bind_ext; intro). apply IH.
Qed.

Lemma cut_all_unlog fuel s : unlog (cut_all_l fuel s) = cut_all fuel s.
Proof.
  unfold cut_all_l, cut_all. apply for_each_unlog. intros s1 i. rewrite unlog_lbind, unlog_quiet. apply bind_ext; intro. destruct a; [apply flow_cut_unlog|reflexivity].
Qed.

Lemma phase_unlog fuel s : unlog (phase_l fuel s) = phase fuel s.
Proof.
  unfold phase_l, phase. cbv zeta. rewrite unlog_lbind, unlog_quiet. apply bind_ext; intro.
  unfold refine_l, refine. rewrite unlog_lbind, refine_loop_unlog. apply bind_ext; intro. apply cut_all_unlog.
Qed.

Lemma scaling_loop_unlog fuel0 : forall fuel s, unlog (scaling_loop_l fuel0 fuel s) = scaling_loop fuel0 fuel s.
Proof.
  induction fuel as [|fuel IH]; intros s; cbn [scaling_loop_l scaling_loop]; destruct (f_eps s <? 2); try reflexivity.
  rewrite unlog_lbind, phase_unlog. apply bind_ext; intro. apply IH.
Qed.

Lemma min_cost_unlog fuel s : unlog (min_cost_l fuel s) = min_cost fuel s.
Proof.
  unfold min_cost_l, min_cost. rewrite unlog_lbind, scaling_loop_unlog. apply bind_ext; intro.
  rewrite unlog_lbind, unlog_quiet. apply bind_ext; intros [s1 v]. reflexivity.
Qed.
End Log.
