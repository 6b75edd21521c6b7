(** * Lemmas about the outcome monad and vectors *)
From Verif Require Import Base.

Lemma upd_length {A} (l : list A) i a : length (upd l i a) = length l.
Proof.
  revert i; induction l as [|x l IH]; intros [|i]; simpl; auto.
Qed.

Lemma nth_error_upd_eq {A} (l : list A) i a :
  i < length l -> nth_error (upd l i a) i = Some a.
Proof.
  revert i; induction l as [|x l IH]; intros [|i]; simpl; intros H; try lia; auto.
  apply IH; lia.
Qed.

Lemma nth_error_upd_neq {A} (l : list A) i j a :
  i <> j -> nth_error (upd l i a) j = nth_error l j.
Proof.
  revert i j; induction l as [|x l IH]; intros [|i] [|j]; simpl; intros H; try congruence; auto.
Qed.

Lemma nth_error_lt {A} (l : list A) i a : nth_error l i = Some a -> i < length l.
Proof. intros H. apply nth_error_Some. congruence. Qed.

Lemma vget_ok {A} (l : list A) i a : nth_error l i = Some a -> vget l i = Ok a.
Proof. intros H. unfold vget. rewrite H. reflexivity. Qed.

Lemma vget_inv {A} (l : list A) i a : vget l i = Ok a -> nth_error l i = Some a.
Proof. unfold vget. destruct (nth_error l i); congruence. Qed.

Lemma vget_nth {A} (l : list A) i d : i < length l -> vget l i = Ok (nth i l d).
Proof. intros H. apply vget_ok. apply nth_error_nth'; exact H. Qed.

Lemma vset_ok {A} (l : list A) i a : i < length l -> vset l i a = Ok (upd l i a).
Proof. intros H. unfold vset. apply Nat.ltb_lt in H. rewrite H. reflexivity. Qed.

Lemma nth_upd_eq {A} (l : list A) i a d : i < length l -> nth i (upd l i a) d = a.
Proof.
  intros H. apply nth_error_nth. apply nth_error_upd_eq; exact H.
Qed.

Lemma nth_upd_neq {A} (l : list A) i j a d : i <> j -> nth j (upd l i a) d = nth j l d.
Proof.
  revert i j; induction l as [|x l IH]; intros [|i] [|j]; simpl; intros H; try congruence; auto.
Qed.

Lemma upd_same {A} (l : list A) i a : nth_error l i = Some a -> upd l i a = l.
Proof.
  revert i; induction l as [|x l IH]; intros [|i]; simpl; intros H; try congruence.
  f_equal; auto.
Qed.

Lemma ck_ok z : (INT_MIN <= z <= INT_MAX)%Z -> ck z = Ok z.
Proof.
  intros [H1 H2]. unfold ck.
  apply Z.leb_le in H1. apply Z.leb_le in H2. rewrite H1, H2. reflexivity.
Qed.

Lemma ck_inv z w : ck z = Ok w -> w = z /\ (INT_MIN <= z <= INT_MAX)%Z.
Proof.
  unfold ck. destruct ((INT_MIN <=? z) && (z <=? INT_MAX))%Z eqn:E; [|congruence].
  intros H. inversion H. apply andb_prop in E. lia.
Qed.

Lemma bind_inv {A B} (m : res A) (k : A -> res B) b :
  bind m k = Ok b -> exists a, m = Ok a /\ k a = Ok b.
Proof. destruct m; simpl; [eauto | congruence]. Qed.

Lemma for_each_app {A S} (l1 l2 : list A) (st : S) body :
  for_each (l1 ++ l2) st body = bind (for_each l1 st body) (fun st' => for_each l2 st' body).
Proof.
  revert st; induction l1 as [|x l1 IH]; intros st; simpl; [reflexivity|].
  destruct (body st x); simpl; auto.
Qed.

(** Invariant rule for [for_each]: [I done st] with [done] the processed prefix. *)
Lemma for_each_inv {A S} (I : list A -> S -> Prop) (body : S -> A -> res S) (l : list A) (st : S) :
  I [] st ->
  (forall pre x post st, l = pre ++ x :: post -> I pre st ->
     exists st', body st x = Ok st' /\ I (pre ++ [x]) st') ->
  exists st', for_each l st body = Ok st' /\ I l st'.
Proof.
  intros H0 Hs.
  assert (G : forall post pre st, l = pre ++ post -> I pre st ->
            exists st', for_each post st body = Ok st' /\ I l st').
  { induction post as [|x post IH]; intros pre st1 E HI; simpl.
    - rewrite app_nil_r in E. subst. eauto.
    - destruct (Hs pre x post st1 E HI) as (st2 & E2 & HI2).
      rewrite E2. simpl.
      apply (IH (pre ++ [x])); [rewrite <- app_assoc; exact E | exact HI2]. }
  apply (G l []); auto.
Qed.
