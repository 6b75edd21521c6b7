(** * UniqueQueue refines its specification *)
From Verif Require Import Base BaseLemmas UniqueQueue UQSpec.

Definition uq_call (u : uqueue) (op : uq_op) : res (uqueue * uq_out) :=
  match op with
  | Push x => u <- uq_push u x ;; Ok (u, QNone)
  | Front => x <- uq_front u ;; Ok (u, QLabel x)
  | Pop => u <- uq_pop u ;; Ok (u, QNone)
  | Empty => Ok (u, QBool (uq_empty u))
  | Clear => Ok (uq_clear u, QNone)
  end.

Fixpoint uq_calls (u : uqueue) (os : list uq_op) : res (uqueue * list uq_out) :=
  match os with
  | [] => Ok (u, [])
  | op :: os =>
      ' (u, o) <- uq_call u op ;;
      ' (u, r) <- uq_calls u os ;;
      Ok (u, o :: r)
  end.

(** the flag vector mirrors membership *)
Record uq_ok (n : nat) (u : uqueue) : Prop := {
  uq_len : length (uq_in u) = n;
  uq_nodup : NoDup (uq_queue u);
  uq_lt : forall x, In x (uq_queue u) -> x < n;
  uq_mem : forall x, x < n -> (nth x (uq_in u) false = true <-> In x (uq_queue u))
}.

Lemma uq_ok_new n : uq_ok n (uq_new n).
Proof.
  constructor; simpl.
  - apply repeat_length.
  - constructor.
  - tauto.
  - intros x Hx. rewrite nth_repeat. split; [congruence|tauto].
Qed.

Lemma uq_ok_clear n u : uq_ok n u -> uq_ok n (uq_clear u).
Proof.
  intros [H1 H2 H3 H4]. unfold uq_clear. rewrite H1. apply uq_ok_new.
Qed.

Lemma nodup_snoc (l : list nat) x : NoDup l -> ~ In x l -> NoDup (l ++ [x]).
Proof.
  intros ND Hx. induction ND as [|y l Hy ND IH]; simpl.
  - constructor; [simpl; auto|constructor].
  - constructor.
    + intros Hi. apply in_app_or in Hi. destruct Hi as [Hi|[->|[]]]; [tauto|]. apply Hx; simpl; auto.
    + apply IH. intros Hi; apply Hx; simpl; auto.
Qed.

Lemma uq_push_ok n u x : uq_ok n u -> x < n ->
  exists u', uq_push u x = Ok u' /\ uq_ok n u' /\
    ((In x (uq_queue u) /\ uq_queue u' = uq_queue u) \/
     (~ In x (uq_queue u) /\ uq_queue u' = uq_queue u ++ [x])).
Proof.
  intros [H1 H2 H3 H4] Hx. unfold uq_push. rewrite (vget_nth _ _ false) by lia. cbn [bind].
  specialize (H4 x Hx) as Hm. destruct (nth x (uq_in u) false) eqn:E.
  - exists u. split; [reflexivity|]. split; [constructor; auto|]. left. tauto.
  - rewrite vset_ok by lia. cbn [bind]. eexists; split; [reflexivity|].
    assert (Hn : ~ In x (uq_queue u)) by (intros Hi; apply Hm in Hi; congruence).
    split; [|right; auto]. constructor; cbn [uq_queue uq_in].
    + rewrite upd_length. exact H1.
    + apply nodup_snoc; auto.
    + intros y Hy. apply in_app_or in Hy. destruct Hy as [Hy|[<-|[]]]; auto.
    + intros y Hy. rewrite in_app_iff. cbn [In]. destruct (Nat.eq_dec x y) as [->|Hxy].
      * rewrite nth_upd_eq by lia. tauto.
      * rewrite nth_upd_neq by auto. rewrite (H4 y Hy). split; [tauto|]. intros [?|[?|[]]]; [auto|congruence].
Qed.

Lemma uq_pop_ok n u x l : uq_ok n u -> uq_queue u = x :: l ->
  exists u', uq_pop u = Ok u' /\ uq_ok n u' /\ uq_queue u' = l.
Proof.
  intros [H1 H2 H3 H4] E. unfold uq_pop. rewrite E in *.
  assert (Hx : x < n) by (apply H3; simpl; auto).
  rewrite vset_ok by lia. cbn [bind]. eexists; split; [reflexivity|]. split; [|reflexivity].
  inversion H2 as [|z zs Hz Hd]; subst z zs.
  constructor; cbn [uq_queue uq_in].
  - rewrite upd_length; auto.
  - auto.
  - intros y Hy. apply H3; simpl; auto.
  - intros y Hy. destruct (Nat.eq_dec x y) as [->|Hxy].
    + rewrite nth_upd_eq by lia. split; [congruence|tauto].
    + rewrite nth_upd_neq by auto. rewrite (H4 y Hy). simpl. split; [intros [?|?]; [congruence|auto]|auto].
Qed.

Lemma uq_call_ok n u op l' o :
  uq_ok n u -> fifo_step n (uq_queue u) op l' o ->
  exists u', uq_call u op = Ok (u', o) /\ uq_ok n u' /\ uq_queue u' = l'.
Proof.
  intros HO HS. remember (uq_queue u) as l eqn:El.
  destruct HS as [l x Hx Hn|l x Hx Hi|x l|x l| |x l|l]; cbn [uq_call].
  - destruct (uq_push_ok n u x HO Hx) as (u' & E & O' & C). rewrite E. cbn [bind]. exists u'. split; auto. split; auto.
    rewrite <- El in C. destruct C as [[C _]|[_ C]]; [tauto|congruence].
  - destruct (uq_push_ok n u x HO Hx) as (u' & E & O' & C). rewrite E. cbn [bind]. exists u'. split; auto. split; auto.
    rewrite <- El in C. destruct C as [[_ C]|[C _]]; [congruence|tauto].
  - unfold uq_front. rewrite <- El. cbn [bind]. eauto.
  - destruct (uq_pop_ok n u x l HO (eq_sym El)) as (u' & E & O' & C). rewrite E. cbn [bind]. eauto.
  - unfold uq_empty. rewrite <- El. eauto.
  - unfold uq_empty. rewrite <- El. eauto.
  - exists (uq_clear u). split; auto. split; [apply uq_ok_clear; auto|reflexivity].
Qed.

Theorem uq_calls_ok n os l outs :
  fifo_run n [] os l outs ->
  exists u, uq_calls (uq_new n) os = Ok (u, outs) /\ uq_queue u = l.
Proof.
  assert (G : forall l0 os l outs, fifo_run n l0 os l outs -> forall u, uq_ok n u -> uq_queue u = l0 ->
     exists u', uq_calls u os = Ok (u', outs) /\ uq_queue u' = l).
  { intros l0 os0 l1 outs0 H. induction H as [l2|l2 op l3 o os1 l4 os2 H1 H2 IH]; intros u HO El.
    - exists u; auto.
    - subst l2. destruct (uq_call_ok n u op l3 o HO H1) as (u1 & E1 & O1 & L1).
      destruct (IH u1 O1 L1) as (u2 & E2 & L2). exists u2. cbn [uq_calls]. rewrite E1. cbn [bind]. rewrite E2. auto. }
  intros H. eapply G; eauto. apply uq_ok_new.
Qed.

Lemma uq_example_run :
  fifo_run 3 [] [Push 2; Push 0; Push 2; Front; Pop; Push 2; Front; Empty] [0; 2]
    [QNone; QNone; QNone; QLabel 2; QNone; QNone; QLabel 0; QBool false].
Proof.
  eapply fr_cons; [apply fs_push_new; [lia|simpl; tauto]|].
  eapply fr_cons; [apply fs_push_new; [lia|simpl; intuition lia]|].
  eapply fr_cons; [apply fs_push_old; [lia|simpl; tauto]|].
  eapply fr_cons; [apply fs_front|].
  eapply fr_cons; [apply fs_pop|].
  eapply fr_cons; [apply fs_push_new; [lia|simpl; intuition lia]|].
  eapply fr_cons; [apply fs_front|].
  eapply fr_cons; [apply fs_empty_no|].
  apply fr_nil.
Qed.
