(** * The edge list of Flow as a network in the sense of NetMath *)
From Verif Require Import Base BaseLemmas Data ProblemDefine Flow Sums NetMath Spec Convex.
Local Open Scope Z_scope.

(** ceiling division *)
Definition cdiv (a b : Z) : Z := - ((- a) / b).

Lemma ceil_div_cdiv a b : 0 < b -> ceil_div a b = cdiv a b.
Proof.
  intros Hb. unfold ceil_div, cdiv.
  assert (E := Z.quot_rem' a b).
  assert (B : (0 <= a -> 0 <= Z.rem a b < b) /\ (a <= 0 -> - b < Z.rem a b <= 0)).
  { split; intros Ha; [apply Z.rem_bound_pos; auto|apply Z.rem_bound_pos_neg; auto]. }
  revert E B. generalize (Z.quot a b) as k. generalize (Z.rem a b) as r. intros r k E B.
  destruct (Z.ltb_spec 0 r) as [Hr|Hr].
  - rewrite <- (Z.div_unique (- a) b (- (k + 1)) (b - r)); [lia|left; lia|nia].
  - rewrite <- (Z.div_unique (- a) b (- k) (- r)); [lia|left; lia|nia].
Qed.

Lemma cdiv_mono a b c : 0 < c -> a <= b -> cdiv a c <= cdiv b c.
Proof. intros Hc H. unfold cdiv. assert (- b / c <= - a / c) by (apply Z.div_le_mono; lia). lia. Qed.

Lemma cdiv_floor a c : 0 < c -> cdiv a c - 1 <= a / c.
Proof.
  intros Hc. unfold cdiv. assert (E1 := Z.div_mod a c ltac:(lia)). assert (B1 := Z.mod_pos_bound a c Hc).
  assert (E2 := Z.div_mod (- a) c ltac:(lia)). assert (B2 := Z.mod_pos_bound (- a) c Hc). nia.
Qed.

Lemma floor_cdiv a b c : 0 < c -> a < b -> a / c <= cdiv b c - 1.
Proof.
  intros Hc H. unfold cdiv. assert (E1 := Z.div_mod a c ltac:(lia)). assert (B1 := Z.mod_pos_bound a c Hc).
  assert (E2 := Z.div_mod (- b) c ltac:(lia)). assert (B2 := Z.mod_pos_bound (- b) c Hc). nia.
Qed.

Lemma cdiv_range a c : 2 <= c -> - INT_MAX <= a <= INT_MAX -> - INT_MAX <= cdiv a c - 1 /\ cdiv a c <= INT_MAX.
Proof.
  intros Hc H. unfold cdiv. assert (E2 := Z.div_mod (- a) c ltac:(lia)). assert (B2 := Z.mod_pos_bound (- a) c ltac:(lia)).
  unfold INT_MAX in *. nia.
Qed.

(** what one edge must satisfy *)
Record edge_ok (M : Z) (o : OmegaLimit Z) : Prop := {
  eo_lu : o_l o <= o_u o;
  eo_def : defined_on (o_fn o) (o_l o) (o_u o);
  eo_conv : convex_on (cost (o_fn o)) (o_l o) (o_u o);
  eo_slope : forall t, o_l o <= t < o_u o -> - M <= cost (o_fn o) (t + 1) - cost (o_fn o) t <= M
}.

Definition rev_edge (o o' : OmegaLimit Z) : Prop :=
  o_i o' = o_j o /\ o_j o' = o_i o /\ o_l o' = - o_u o /\ o_u o' = - o_l o /\
  forall x, o_l o <= x <= o_u o -> cost (o_fn o') (- x) = cost (o_fn o) x.

Definition edge (E : list (OmegaLimit Z)) (e : nat) : OmegaLimit Z := nth e E OmegaLimit0.

Record flownet (n m : nat) (M : Z) (E : list (OmegaLimit Z)) (Gl : list (list nat)) : Prop := {
  fn_len : length E = (2 * m)%nat;
  fn_Glen : length Gl = (n + 1)%nat;
  fn_M : 0 <= M;
  fn_i : forall e, (e < 2 * m)%nat -> (o_i (edge E e) <= n)%nat;
  fn_rev : forall e, (e < 2 * m)%nat -> rev_edge (edge E e) (edge E (rev_id e));
  fn_ok : forall e, (e < 2 * m)%nat -> edge_ok M (edge E e);
  fn_G : forall v e, (v <= n)%nat -> (In e (nth v Gl []) <-> (e < 2 * m)%nat /\ o_i (edge E e) = v);
  fn_deg : zsum (seq 0 (n + 1)) (fun v => Z.of_nat (length (nth v Gl []))) = Z.of_nat (2 * m)
}.

Definition Dn (n : nat) : Z := Z.of_nat (2 * (n + 1)).

Lemma Dn_pos n : 2 <= Dn n.
Proof. unfold Dn. lia. Qed.

Definition eslope (M : Z) (o : OmegaLimit Z) : Z -> Z := slope (cost (o_fn o)) (o_l o) (o_u o) M.

Definition lftE (n : nat) (M : Z) (E : list (OmegaLimit Z)) (e : nat) (a : Z) : Z :=
  eslope M (edge E e) (cdiv a (Dn n) - 1).

Lemma eslope_rev M o o' t : rev_edge o o' -> o_l o <= o_u o -> eslope M o' t = - eslope M o (- t - 1).
Proof.
  intros (_ & _ & El & Eu & HE) Hlu. unfold eslope, slope. rewrite El, Eu.
  destruct (Z.leb_spec (- o_l o) t).
  - destruct (Z.leb_spec (o_u o) (- t - 1)); [lia|]. destruct (Z.ltb_spec (- t - 1) (o_l o)); lia.
  - destruct (Z.ltb_spec t (- o_u o)).
    + destruct (Z.leb_spec (o_u o) (- t - 1)); lia.
    + destruct (Z.leb_spec (o_u o) (- t - 1)); [lia|]. destruct (Z.ltb_spec (- t - 1) (o_l o)); [lia|].
      replace (t + 1) with (- (- t - 1)) by lia. rewrite HE by lia.
      replace (- t - 1 + 1) with (- t) by lia. rewrite <- (HE (- t)) by lia.
      replace (- - t) with t by lia. lia.
Qed.

Lemma lft_rev n M E Gl m e a : flownet n m M E Gl -> (e < 2 * m)%nat ->
  - lftE n M E (rev_id e) (- a) = eslope M (edge E e) (a / Dn n).
Proof.
  intros HN He. unfold lftE.
  rewrite (eslope_rev M _ _ _ (fn_rev _ _ _ _ _ HN e He) (eo_lu _ _ (fn_ok _ _ _ _ _ HN e He))).
  unfold cdiv. rewrite Z.opp_involutive, Z.opp_involutive. f_equal. lia.
Qed.

Lemma eslope_bound M o t : 0 <= M -> edge_ok M o -> - M <= eslope M o t <= M.
Proof. intros H [A B C D]. apply slope_bound; auto. Qed.

Lemma eslope_mono M o t t' : 0 <= M -> edge_ok M o -> t <= t' -> eslope M o t <= eslope M o t'.
Proof. intros H [A B C D] Ht. apply slope_mono; auto. Qed.

Definition nei (E : list (OmegaLimit Z)) (e : nat) : nat := o_i (edge E e).
Definition nej (E : list (OmegaLimit Z)) (e : nat) : nat := o_j (edge E e).
Definition nG (Gl : list (list nat)) (v : nat) : list nat := nth v Gl [].

Lemma flownet_netok n m M E Gl : flownet n m M E Gl ->
  netok n m M (nei E) (nej E) (nG Gl) (lftE n M E).
Proof.
  intros HN. assert (HD := Dn_pos n). assert (HM := fn_M _ _ _ _ _ HN). constructor.
  - apply (fn_i _ _ _ _ _ HN).
  - intros e He. apply (fn_rev _ _ _ _ _ HN); auto.
  - apply (fn_G _ _ _ _ _ HN).
  - intros e a He. apply eslope_bound; auto. apply (fn_ok _ _ _ _ _ HN); auto.
  - intros e a b He Hab. apply eslope_mono; auto; [apply (fn_ok _ _ _ _ _ HN); auto|].
    assert (cdiv a (Dn n) <= cdiv b (Dn n)) by (apply cdiv_mono; lia). lia.
  - intros e a He. rewrite (lft_rev n M E Gl m) by auto.
    apply eslope_mono; auto; [apply (fn_ok _ _ _ _ _ HN); auto|]. apply cdiv_floor; lia.
  - intros e a b He Hab. rewrite (lft_rev n M E Gl m) by auto.
    apply eslope_mono; auto; [apply (fn_ok _ _ _ _ _ HN); auto|]. apply floor_cdiv; lia.
Qed.

Lemma cost_ok fn l u x : defined_on fn l u -> l <= x <= u -> fn x = Ok (cost fn x).
Proof. intros HD Hx. destruct (HD x Hx) as [v Hv]. unfold cost. rewrite Hv. reflexivity. Qed.

Section Q.
Variable one : Z.
#[local] Hint Extern 0 (DataOps Z) => exact (exact_ops one) : typeclass_instances.

Variables (n m : nat) (M : Z) (E : list (OmegaLimit Z)) (Gl : list (list nat)).
Hypothesis HN : flownet n m M E Gl.

Lemma q_ok (s : flow Z) e p fl :
  f_n s = n -> f_M s = M -> f_edges s = E ->
  vec (f_flows s) (2 * m) fl -> vec (f_scal s) (n + 1) p ->
  (e < 2 * m)%nat -> - M <= fl e <= M ->
  (forall v, (v <= n)%nat -> 0 <= p v <= INT_MAX) ->
  q s e = Ok (Z.max 0 (lftE n M E e (pe (nei E) (nej E) p e) - fl e)).
Proof.
  intros E1 E2 E3 Hfl Hp He HM HI. unfold q. rewrite E1, E2, E3. fold (Dn n). unfold pe, nei, nej.
  assert (HD := Dn_pos n).
  assert (Hi := fn_i _ _ _ _ _ HN e He).
  assert (Hj : (o_j (edge E e) <= n)%nat).
  { destruct (fn_rev _ _ _ _ _ HN e He) as (A & _). rewrite <- A. apply (fn_i _ _ _ _ _ HN). apply rev_lt; auto. }
  assert (Ho := fn_ok _ _ _ _ _ HN e He).
  rewrite (vget_nth E e OmegaLimit0) by (rewrite (fn_len _ _ _ _ _ HN); auto). fold (edge E e). set (o := edge E e) in *.
  cbn [bind]. rewrite (vec_get _ _ _ _ Hp) by lia. cbn [bind]. rewrite (vec_get _ _ _ _ Hp) by lia. cbn [bind].
  assert (B1 := HI _ Hi). assert (B2 := HI _ Hj).
  set (d := p (o_i o) - p (o_j o)).
  assert (HR := cdiv_range d (Dn n) HD ltac:(unfold d; lia)).
  rewrite ck_ok by (unfold d, INT_MIN, INT_MAX in *; lia). cbn [bind]. fold d.
  rewrite ceil_div_cdiv by lia. unfold lftE. fold o. set (t := cdiv d (Dn n) - 1) in *.
  rewrite ck_ok by (unfold INT_MIN, INT_MAX in *; lia). cbn [bind].
  rewrite ck_ok by (unfold INT_MIN, INT_MAX in *; lia). cbn [bind].
  rewrite (vec_get _ _ _ _ Hfl) by lia. cbn [bind].
  unfold eslope, slope. assert (Hlu := eo_lu _ _ Ho).
  destruct (Z.ltb_spec (o_u o) (t + 1)) as [C1|C1].
  - destruct (Z.leb_spec (o_u o) t); [|lia]. cbn [dsub exact_ops]. f_equal. lia.
  - destruct (Z.leb_spec (o_u o) t); [lia|].
    destruct (Z.ltb_spec t (o_l o)) as [C2|C2].
    + cbn [dzero exact_ops]. f_equal. lia.
    + rewrite (cost_ok _ _ _ (t + 1) (eo_def _ _ Ho)) by lia. cbn [bind].
      rewrite (cost_ok _ _ _ t (eo_def _ _ Ho)) by lia. cbn [bind].
      unfold dmax. cbn [dzero dsub dlt exact_ops]. f_equal.
      destruct (Z.ltb_spec 0 (cost (o_fn o) (t + 1) - cost (o_fn o) t - fl e)); lia.
Qed.

End Q.
