(** * ProblemDefine: binary search, minimum, preprocessing, reverse, merge *)
From Verif Require Import Base BaseLemmas Data ProblemDefine Spec Convex FlowNet.
Local Open Scope Z_scope.

(** ProblemDefine.cpp:6-16 *)
Lemma partition_point_ok (pred : Z -> res bool) (b : Z -> bool) : forall k fuel l r,
  (k < fuel)%nat -> l <= r -> r - l < 2 ^ Z.of_nat k ->
  INT_MIN <= l -> r <= INT_MAX -> r - l <= INT_MAX ->
  (forall x, l <= x < r -> pred x = Ok (b x)) ->
  exists p, partition_point fuel l r pred = Ok p /\ l <= p <= r /\
    (p < r -> b p = false) /\ (l < p -> b (p - 1) = true).
Proof.
  induction k as [|k IH]; intros fuel l r Hf Hlr Hd Hl Hr Hi Hp; (destruct fuel as [|fuel]; [lia|]); cbn [partition_point].
  - change (2 ^ Z.of_nat 0) with 1 in Hd. destruct (Z.eqb_spec l r); [|lia]. exists l. split; auto. split; [lia|]. lia.
  - destruct (Z.eqb_spec l r) as [->|Hn].
    { exists r. split; auto. split; [lia|]. lia. }
    rewrite ck_ok by (unfold INT_MIN, INT_MAX in *; lia). cbn [bind].
    assert (Hq : Z.quot (r - l) 2 = (r - l) / 2) by (apply Z.quot_div_nonneg; lia).
    rewrite Hq. assert (Hdm := Z.div_mod (r - l) 2 ltac:(lia)). assert (Hmb := Z.mod_pos_bound (r - l) 2 ltac:(lia)).
    set (mid := l + (r - l) / 2).
    assert (Hmid : l <= mid < r) by (unfold mid; lia).
    rewrite ck_ok by (unfold INT_MIN, INT_MAX in *; lia). cbn [bind].
    rewrite Hp by lia. cbn [bind].
    rewrite Nat2Z.inj_succ, Z.pow_succ_r in Hd by lia.
    destruct (b mid) eqn:Eb.
    + rewrite ck_ok by (unfold INT_MIN, INT_MAX in *; lia). cbn [bind].
      destruct (IH fuel (mid + 1) r) as (p & E & B1 & B2 & B3); try lia.
      { intros x Hx. apply Hp. lia. }
      exists p. split; auto. split; [lia|]. split; auto. intros _.
      destruct (Z.eq_dec p (mid + 1)) as [->|Hne]; [|apply B3; lia]. replace (mid + 1 - 1) with mid by lia. auto.
    + destruct (IH fuel l mid) as (p & E & B1 & B2 & B3); try lia.
      { intros x Hx. apply Hp. lia. }
      exists p. split; auto. split; [lia|]. split; auto. intros _.
      destruct (Z.eq_dec p mid) as [->|Hne]; [auto|apply B2; lia].
Qed.

(** [v] is the least value of [F] on l..u, attained at [x] *)
Definition argmin (F : Z -> Z) (l u x : Z) : Prop := l <= x <= u /\ forall y, l <= y <= u -> F x <= F y.

Definition int_range (l u : Z) : Prop := INT_MIN <= l /\ u <= INT_MAX /\ u - l <= INT_MAX.

Section PD.
Variable one : Z.
#[local] Hint Extern 0 (DataOps Z) => exact (exact_ops one) : typeclass_instances.

Lemma pow32 l u : u - l <= INT_MAX -> u - l < 2 ^ Z.of_nat 31.
Proof. unfold INT_MAX. change (2 ^ Z.of_nat 31) with 2147483648. lia. Qed.

(** the search finds a minimiser; it is the leftmost one *)
Lemma search_min fuel fn l u :
  (31 < fuel)%nat -> l <= u -> int_range l u -> defined_on fn l u -> convex_on (cost fn) l u ->
  exists p, partition_point fuel l u (decreasing_at fn) = Ok p /\ argmin (cost fn) l u p /\
    (forall y, l <= y < p -> cost fn (y + 1) < cost fn y).
Proof.
  intros Hf Hlu (R1 & R2 & R3) HD HC.
  destruct (partition_point_ok (decreasing_at fn) (fun x => cost fn (x + 1) <? cost fn x) 31 fuel l u)
    as (p & E & B1 & B2 & B3); auto using pow32.
  { intros x Hx. unfold decreasing_at. rewrite (cost_ok _ _ _ x HD) by lia. cbn [bind].
    rewrite ck_ok by (unfold INT_MIN, INT_MAX in *; lia). cbn [bind]. rewrite (cost_ok _ _ _ (x + 1) HD) by lia. reflexivity. }
  exists p. split; auto.
  assert (HL : forall y, l <= y < p -> cost fn (y + 1) < cost fn y).
  { intros y Hy. assert (H := B3 ltac:(lia)). apply Z.ltb_lt in H. replace (p - 1 + 1) with p in H by lia.
    assert (D := diff_mono (cost fn) l u y (p - 1) HC ltac:(lia) ltac:(lia) ltac:(lia)).
    replace (p - 1 + 1) with p in D by lia. lia. }
  split; auto. split; auto. intros y Hy. destruct (Z.le_gt_cases p y) as [C|C].
  - assert (H : p < u -> 0 <= cost fn (p + 1) - cost fn p).
    { intros Hp. specialize (B2 Hp). apply Z.ltb_ge in B2. lia. }
    assert (D := sum_diff_ge (cost fn) l u p y 0 HC ltac:(lia) ltac:(lia) ltac:(lia) ltac:(intros; apply H; lia)). lia.
  - assert (D := sum_diff_le (cost fn) l u y p 0 HC ltac:(lia) ltac:(lia) ltac:(lia)).
    assert (H : y < p -> cost fn p - cost fn (p - 1) <= 0).
    { intros _. assert (H := HL (p - 1) ltac:(lia)). replace (p - 1 + 1) with p in H by lia. lia. }
    specialize (D H). lia.
Qed.

(** ProblemDefine.cpp:28-34 *)
Lemma limit_min_ok fuel (o : OmegaLimit Z) :
  (31 < fuel)%nat -> o_l o <= o_u o -> int_range (o_l o) (o_u o) ->
  defined_on (o_fn o) (o_l o) (o_u o) -> convex_on (cost (o_fn o)) (o_l o) (o_u o) ->
  exists p, limit_min fuel o = Ok (cost (o_fn o) p) /\ argmin (cost (o_fn o)) (o_l o) (o_u o) p.
Proof.
  intros Hf Hlu HR HD HC. destruct (search_min fuel (o_fn o) (o_l o) (o_u o) Hf Hlu HR HD HC) as (p & E & A & _).
  exists p. split; auto. unfold limit_min. rewrite E. cbn [bind]. apply cost_ok with (l := o_l o) (u := o_u o); auto.
  apply A.
Qed.

Lemma argmin_unique F l u x y : argmin F l u x -> argmin F l u y -> F x = F y.
Proof. intros [A1 A2] [B1 B2]. specialize (A2 y B1). specialize (B2 x A1). lia. Qed.

(** ProblemDefine.cpp:18-26.  The result's cost at [d] is the least cost of an
    omega that is at least [d]. *)
Definition bestcost (F : Z -> Z) (l u d v : Z) : Prop :=
  (exists w, l <= w <= u /\ d <= w /\ F w = v) /\ (forall w, l <= w <= u -> d <= w -> v <= F w).

Lemma pre_processing_ok fuel (o : OmegaLimit Z) :
  (31 < fuel)%nat -> o_l o <= o_u o -> int_range (o_l o) (o_u o) ->
  defined_on (o_fn o) (o_l o) (o_u o) -> convex_on (cost (o_fn o)) (o_l o) (o_u o) ->
  exists o', pre_processing fuel o = Ok o' /\
    o_l o' = o_l o /\ o_u o' = o_u o /\ o_i o' = o_i o /\ o_j o' = o_j o /\
    (forall d, d <= o_u o -> exists w, o_l o <= w <= o_u o /\ o_fn o' d = Ok (cost (o_fn o) w) /\
        bestcost (cost (o_fn o)) (o_l o) (o_u o) d (cost (o_fn o) w)) /\
    (forall d, d < o_u o -> 0 <= cost (o_fn o') (d + 1) - cost (o_fn o') d) /\
    (forall l', convex_on (cost (o_fn o')) l' (o_u o)).
Proof.
  intros Hf Hlu HR HD HC.
  destruct (search_min fuel (o_fn o) (o_l o) (o_u o) Hf Hlu HR HD HC) as (p & E & A & AL).
  unfold pre_processing. rewrite E. cbn [bind]. eexists. split; [reflexivity|]. cbn [o_l o_u o_i o_j o_fn].
  destruct A as [A1 A2].
  assert (V : forall d, d <= o_u o -> o_fn o (Z.max p d) = Ok (cost (o_fn o) (Z.max p d))).
  { intros d Hd. apply cost_ok with (l := o_l o) (u := o_u o); auto. lia. }
  assert (C : forall d, cost (fun x => o_fn o (Z.max p x)) d = cost (o_fn o) (Z.max p d)) by reflexivity.
  assert (Mono : forall a b, p <= a -> a <= b -> b <= o_u o -> cost (o_fn o) a <= cost (o_fn o) b).
  { intros a b H1 H2 H3.
    assert (D := sum_diff_ge (cost (o_fn o)) (o_l o) (o_u o) a b 0 HC ltac:(lia) ltac:(lia) ltac:(lia)).
    assert (H : a < b -> 0 <= cost (o_fn o) (a + 1) - cost (o_fn o) a).
    { intros Hab. assert (Hm := diff_mono (cost (o_fn o)) (o_l o) (o_u o) p a HC ltac:(lia) ltac:(lia) ltac:(lia)).
      assert (Hp := A2 (p + 1) ltac:(lia)). lia. }
    specialize (D H). lia. }
  split; auto. split; auto. split; auto. split; auto. split; [|split].
  - intros d Hd. exists (Z.max p d). split; [lia|]. split; [auto|]. split.
    + exists (Z.max p d). split; [lia|]. split; [lia|reflexivity].
    + intros w Hw Hdw. destruct (Z.le_gt_cases d p).
      * rewrite Z.max_l by lia. apply A2; lia.
      * rewrite Z.max_r by lia. apply Mono; lia.
  - intros d Hd. rewrite !C. assert (H := Mono (Z.max p d) (Z.max p (d + 1)) ltac:(lia) ltac:(lia) ltac:(lia)). lia.
  - intros l' x Hx. rewrite !C.
    destruct (Z.le_gt_cases x p).
    + rewrite !(Z.max_l p) by lia. assert (H1 := Mono p (Z.max p (x + 1)) ltac:(lia) ltac:(lia) ltac:(lia)). lia.
    + rewrite !(Z.max_r p) by lia. apply HC. lia.
Qed.

(** ProblemDefine.cpp:36-40 *)
Lemma reverse_ok (o : OmegaLimit Z) :
  - INT_MAX <= o_l o -> o_l o <= o_u o -> o_u o <= INT_MAX ->
  exists o', reverse o = Ok o' /\ rev_edge o o' /\
    (forall x, o_l o <= x <= o_u o -> o_fn o' (- x) = o_fn o x).
Proof.
  intros H1 H2 H3. unfold reverse.
  rewrite ck_ok by (unfold INT_MIN, INT_MAX in *; lia). cbn [bind].
  rewrite ck_ok by (unfold INT_MIN, INT_MAX in *; lia). cbn [bind].
  eexists. split; [reflexivity|].
  assert (HF : forall x, o_l o <= x <= o_u o -> (y <- ck (- - x) ;; o_fn o y) = o_fn o x).
  { intros x Hx. rewrite Z.opp_involutive, ck_ok by (unfold INT_MIN, INT_MAX in *; lia). reflexivity. }
  split; cbn [o_l o_u o_i o_j o_fn]; auto.
  repeat split; auto. intros x Hx. cbn [o_fn]. unfold cost. rewrite HF by auto. reflexivity.
Qed.

Lemma rev_edge_ok M o o' : rev_edge o o' -> (forall x, o_l o <= x <= o_u o -> o_fn o' (- x) = o_fn o x) ->
  edge_ok M o -> edge_ok M o'.
Proof.
  intros (E1 & E2 & E3 & E4 & E5) HF [A B C D]. constructor; rewrite ?E3, ?E4.
  - lia.
  - intros x Hx. replace x with (- - x) by lia. rewrite HF by lia. apply B. lia.
  - eapply convex_ext; [apply convex_opp; exact C|]. intros x Hx. cbv beta.
    replace x with (- - x) at 1 by lia. apply E5. lia.
  - intros t Ht. assert (X := D (- t - 1) ltac:(lia)).
    replace (- t - 1 + 1) with (- t) in X by lia.
    assert (Y := E5 (- t - 1) ltac:(lia)). assert (Y' := E5 (- t) ltac:(lia)).
    replace (- (- t - 1)) with (t + 1) in Y by lia. replace (- - t) with t in Y' by lia. lia.
Qed.

(** ProblemDefine.cpp:42-52 *)
Lemma merge_ok (o other : OmegaLimit Z) :
  o_i o = o_i other -> o_j o = o_j other ->
  exists o' flag, merge o other = Ok (o', flag) /\
    o_l o' = Z.max (o_l o) (o_l other) /\ o_u o' = Z.min (o_u o) (o_u other) /\
    o_i o' = o_i o /\ o_j o' = o_j o /\
    (flag = true <-> o_u o' < o_l o') /\
    (forall x a b, o_fn o x = Ok a -> o_fn other x = Ok b -> o_fn o' x = Ok (a + b)).
Proof.
  intros Hi Hj. unfold merge. rewrite Hi, Hj, !Nat.eqb_refl. cbn [assert_ bind].
  eexists _, _. split; [reflexivity|]. cbn [o_l o_u o_i o_j o_fn].
  repeat split; auto.
  - intros H. apply negb_true_iff, Z.leb_gt in H. lia.
  - intros H. apply negb_true_iff, Z.leb_gt. lia.
  - intros x a b Ha Hb. cbn [o_fn]. rewrite Ha, Hb. reflexivity.
Qed.

End PD.
