(** * Arithmetic that agrees with exact arithmetic while numbers are small *)
From Coq Require Import Floats.SpecFloat.
From Verif Require Import Base BaseLemmas Data Sums FloatSpec FloatExact FloatRun.
Local Open Scope Z_scope.

(** [R a x]: the number [x] of type [D] stands for the integer [a].  Sums,
    differences and products are right as long as the result is at most [B] in
    absolute value. *)
Record hom {D : Type} (ops : DataOps D) (R : Z -> D -> Prop) (B : Z) : Prop := {
  h_0 : R 0 dzero;
  h_add : forall a b x y, R a x -> R b y -> Z.abs (a + b) <= B -> R (a + b) (dadd x y);
  h_sub : forall a b x y, R a x -> R b y -> Z.abs (a - b) <= B -> R (a - b) (dsub x y);
  h_opp : forall a x, R a x -> R (- a) (dopp x);
  h_mul : forall a x w, R a x -> INT_MIN <= w <= INT_MAX -> Z.abs (a * w) <= B -> R (a * w) (dmuli x w);
  h_half : forall a x, R (2 * a) x -> R a (dhalf x);
  h_lt : forall a b x y, R a x -> R b y -> dlt x y = (a <? b);
  h_le : forall a b x y, R a x -> R b y -> dle x y = (a <=? b);
  h_eq : forall a b x y, R a x -> R b y -> deq x y = (a =? b)
}.

(** doubles are such numbers *)
Lemma f64_hom k : 0 <= k <= 52 -> hom f64_ops (RF k) (2 ^ 53 - 1).
Proof.
  intros Hk. constructor; unfold RF; cbn [dzero done dadd dsub dopp dmuli dhalf dlt dle deq f64_ops].
  - apply R_zero; exact Hk.
  - intros a b x y H1 H2 H. apply R_add; auto. lia.
  - intros a b x y H1 H2 H. apply R_sub; auto. lia.
  - intros a x H. apply R_opp; auto.
  - intros a x w H Hw Ho. apply R_mul; auto; [apply of_int_is; exact Hw|lia].
  - intros a x H. apply R_half; auto.
  - intros a b x y H1 H2. apply (R_lt k); auto.
  - intros a b x y H1 H2. apply (R_le k); auto.
  - intros a b x y H1 H2. apply (R_eq k); auto.
Qed.

Lemma f64_done k : 0 <= k <= 52 -> RF k (2 ^ k) (@done spec_float f64_ops).
Proof.
  intros Hk. unfold RF. cbn [done f64_ops]. assert (X := R_of_Z k Hk 1). rewrite Z.mul_1_l in X. apply X.
  assert (2 ^ k <= 2 ^ 52) by (apply Z.pow_le_mono_r; lia). assert (0 < 2 ^ k) by (apply Z.pow_pos_nonneg; lia).
  change (2 ^ 53) with (2 * 2 ^ 52). lia.
Qed.

(** exact numbers as well *)
Lemma exact_hom one B : hom (exact_ops one) (fun a x => x = a) B.
Proof.
  constructor; cbn [dzero done dadd dsub dopp dmuli dhalf dlt dle deq exact_ops]; intros; subst; auto.
  rewrite Z.mul_comm. apply Z.quot_mul. lia.
Qed.

Section Use.
Context {D : Type} {ops : DataOps D}.
Variables (R : Z -> D -> Prop) (B : Z).
Hypothesis H : hom ops R B.

Lemma h_min a b x y : R a x -> R b y -> R (Z.min a b) (dmin x y).
Proof.
  intros H1 H2. unfold dmin. rewrite (h_lt _ _ _ H b a y x) by auto. destruct (Z.ltb_spec b a); [rewrite Z.min_r|rewrite Z.min_l]; auto; lia.
Qed.
Lemma h_max a b x y : R a x -> R b y -> R (Z.max a b) (dmax x y).
Proof.
  intros H1 H2. unfold dmax. rewrite (h_lt _ _ _ H a b x y) by auto. destruct (Z.ltb_spec a b); [rewrite Z.max_r|rewrite Z.max_l]; auto; lia.
Qed.
End Use.

(** ** Vectors of such numbers *)
Section Vrel.
Context {A D : Type}.
Variable R : A -> D -> Prop.

Record vrel (l : list D) (N : nat) (f : nat -> A) : Prop := {
  vr_len : length l = N;
  vr_nth : forall i, (i < N)%nat -> exists d, nth_error l i = Some d /\ R (f i) d
}.

Lemma vrel_get l N f i : vrel l N f -> (i < N)%nat -> exists d, vget l i = Ok d /\ R (f i) d.
Proof. intros [H1 H2] Hi. destruct (H2 i Hi) as (d & E & HR). exists d. split; [apply vget_ok; auto|auto]. Qed.

Lemma vrel_set l N f i d : vrel l N f -> (i < N)%nat -> vset l i d = Ok (upd l i d).
Proof. intros [H1 H2] Hi. apply vset_ok. lia. Qed.

Lemma vrel_upd l N f i a d : vrel l N f -> (i < N)%nat -> R a d -> vrel (upd l i d) N (fup f i a).
Proof.
  intros [H1 H2] Hi HR. constructor; [rewrite upd_length; auto|]. intros k Hk. unfold fup.
  destruct (Nat.eqb_spec k i) as [->|N1]; [exists d; split; auto; apply nth_error_upd_eq; lia|].
  rewrite nth_error_upd_neq by auto. apply H2. auto.
Qed.

Lemma vrel_ext l N f g : vrel l N f -> (forall i, (i < N)%nat -> f i = g i) -> vrel l N g.
Proof. intros [H1 H2] E. constructor; auto. intros i Hi. rewrite <- E by auto. auto. Qed.

Lemma vrel_repeat a d N : R a d -> vrel (repeat d N) N (fun _ => a).
Proof.
  intros HR. constructor; [apply repeat_length|]. intros i Hi. exists d. split; auto.
  rewrite (nth_error_nth' _ d) by (rewrite repeat_length; auto). f_equal. apply nth_repeat.
Qed.

Lemma vrel_snoc l N f d : vrel l N f -> R (f N) d -> vrel (l ++ [d]) (S N) f.
Proof.
  intros [H1 H2] HR. constructor; [rewrite app_length; simpl; lia|]. intros i Hi.
  destruct (Nat.eq_dec i N) as [->|Hn].
  - exists d. split; auto. rewrite nth_error_app2 by lia. rewrite H1, Nat.sub_diag. reflexivity.
  - rewrite nth_error_app1 by lia. apply H2. lia.
Qed.

End Vrel.
