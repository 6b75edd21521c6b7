(** * Finite sums over lists, function updates, vectors as functions *)
From Verif Require Import Base BaseLemmas.
Local Open Scope Z_scope.

Fixpoint zsum {A} (L : list A) (f : A -> Z) : Z :=
  match L with [] => 0 | k :: L => f k + zsum L f end.

Lemma zsum_ext {A} (L : list A) f g : (forall k, In k L -> f k = g k) -> zsum L f = zsum L g.
Proof.
  induction L as [|a L IH]; intros H; simpl; auto.
  rewrite H by (simpl; auto). rewrite IH; auto. intros; apply H; simpl; auto.
Qed.

Lemma zsum_le {A} (L : list A) f g : (forall k, In k L -> f k <= g k) -> zsum L f <= zsum L g.
Proof.
  induction L as [|a L IH]; intros H; simpl; [lia|].
  assert (f a <= g a) by (apply H; simpl; auto).
  assert (zsum L f <= zsum L g) by (apply IH; intros; apply H; simpl; auto). lia.
Qed.

Lemma zsum_add {A} (L : list A) f g : zsum L (fun k => f k + g k) = zsum L f + zsum L g.
Proof. induction L as [|a L IH]; simpl; [lia|]. rewrite IH. lia. Qed.

Lemma zsum_sub {A} (L : list A) f g : zsum L (fun k => f k - g k) = zsum L f - zsum L g.
Proof. induction L as [|a L IH]; simpl; [lia|]. rewrite IH. lia. Qed.

Lemma zsum_scale {A} (L : list A) c f : zsum L (fun k => c * f k) = c * zsum L f.
Proof. induction L as [|a L IH]; simpl; [lia|]. rewrite IH. lia. Qed.

Lemma zsum_zero {A} (L : list A) f : (forall k, In k L -> f k = 0) -> zsum L f = 0.
Proof.
  induction L as [|a L IH]; intros H; simpl; auto.
  rewrite H by (simpl; auto). rewrite IH; auto. intros; apply H; simpl; auto.
Qed.

Lemma zsum_nonneg {A} (L : list A) f : (forall k, In k L -> 0 <= f k) -> 0 <= zsum L f.
Proof.
  induction L as [|a L IH]; intros H; simpl; [lia|].
  assert (0 <= f a) by (apply H; simpl; auto).
  assert (0 <= zsum L f) by (apply IH; intros; apply H; simpl; auto). lia.
Qed.

Lemma zsum_app {A} (L1 L2 : list A) f : zsum (L1 ++ L2) f = zsum L1 f + zsum L2 f.
Proof. induction L1 as [|a L IH]; simpl; [lia|]. rewrite IH. lia. Qed.

Lemma zsum_map {A B} (L : list A) (g : A -> B) f : zsum (map g L) f = zsum L (fun k => f (g k)).
Proof. induction L as [|a L IH]; simpl; [lia|]. rewrite IH. lia. Qed.

Lemma zsum_swap {A B} (L : list A) (K : list B) (f : A -> B -> Z) :
  zsum L (fun a => zsum K (fun b => f a b)) = zsum K (fun b => zsum L (fun a => f a b)).
Proof.
  induction L as [|a L IH]; simpl.
  - symmetry. apply zsum_zero; auto.
  - rewrite IH. rewrite <- zsum_add. reflexivity.
Qed.

Lemma zsum_point (L : list nat) k0 f g :
  NoDup L -> In k0 L -> (forall k, In k L -> k <> k0 -> g k = f k) ->
  zsum L g = zsum L f + (g k0 - f k0).
Proof.
  intros ND; induction ND as [|a L Ha ND IH]; intros Hi HE; [destruct Hi|]. simpl.
  destruct (Nat.eq_dec a k0) as [->|Hn].
  - rewrite (zsum_ext L g f); [lia|]. intros k Hk. apply HE; simpl; auto. intros ->; auto.
  - destruct Hi as [?|Hi]; [congruence|]. rewrite (HE a) by (simpl; auto).
    rewrite IH; auto; [lia|]. intros k Hk; apply HE; simpl; auto.
Qed.

(** the sum over v of [if v = a then c else 0] *)
Lemma zsum_indicator (L : list nat) a (c : nat -> Z) :
  NoDup L -> zsum L (fun v => if Nat.eqb a v then c v else 0) = if in_dec Nat.eq_dec a L then c a else 0.
Proof.
  intros ND; induction ND as [|b L Hb ND IH]; simpl; [reflexivity|].
  rewrite IH. destruct (Nat.eqb_spec a b) as [->|Hn].
  - destruct (in_dec Nat.eq_dec b L); [tauto|]. destruct (Nat.eq_dec b b); [lia|congruence].
  - destruct (Nat.eq_dec b a); [congruence|].
    destruct (in_dec Nat.eq_dec a L); lia.
Qed.

(** ** Function update *)
Definition fup {A} (f : nat -> A) (i : nat) (a : A) : nat -> A :=
  fun j => if Nat.eqb j i then a else f j.

Lemma fup_eq {A} (f : nat -> A) i a : fup f i a i = a.
Proof. unfold fup. rewrite Nat.eqb_refl. reflexivity. Qed.
Lemma fup_neq {A} (f : nat -> A) i j a : j <> i -> fup f i a j = f j.
Proof. intros H. unfold fup. destruct (Nat.eqb_spec j i); congruence. Qed.

(** ** A vector seen as a function *)
Record vec {A} (l : list A) (N : nat) (f : nat -> A) : Prop := {
  vec_len : length l = N;
  vec_nth : forall i, (i < N)%nat -> nth_error l i = Some (f i)
}.

Lemma vec_get {A} (l : list A) N f i : vec l N f -> (i < N)%nat -> vget l i = Ok (f i).
Proof. intros [_ H] Hi. apply vget_ok. apply H; auto. Qed.

Lemma vec_upd {A} (l : list A) N f i a : vec l N f -> (i < N)%nat -> vec (upd l i a) N (fup f i a).
Proof.
  intros [H1 H2] Hi. constructor; [rewrite upd_length; auto|].
  intros j Hj. destruct (Nat.eq_dec j i) as [->|Hn].
  - rewrite nth_error_upd_eq by lia. rewrite fup_eq. reflexivity.
  - rewrite nth_error_upd_neq by auto. rewrite fup_neq by auto. apply H2; auto.
Qed.

Lemma vec_set {A} (l : list A) N f i a : vec l N f -> (i < N)%nat -> vset l i a = Ok (upd l i a).
Proof. intros [H1 H2] Hi. apply vset_ok. lia. Qed.

Lemma vec_ext {A} (l : list A) N f g : vec l N f -> (forall i, (i < N)%nat -> f i = g i) -> vec l N g.
Proof. intros [H1 H2] HE. constructor; auto. intros i Hi. rewrite <- HE by auto. auto. Qed.

Lemma vec_repeat {A} (a : A) N : vec (repeat a N) N (fun _ => a).
Proof.
  constructor; [apply repeat_length|]. intros i Hi. apply nth_error_repeat; auto.
Qed.

Lemma vec_nth_d {A} (l : list A) d : vec l (length l) (fun i => nth i l d).
Proof. constructor; auto. intros i Hi. apply nth_error_nth'; auto. Qed.
