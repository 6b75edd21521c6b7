(** * Convex functions on integer intervals and their linear extension *)
From Verif Require Import Base BaseLemmas Spec.
Local Open Scope Z_scope.

Lemma diff_step F l u t : convex_on F l u -> l <= t -> t + 1 < u ->
  F (t + 1) - F t <= F (t + 1 + 1) - F (t + 1).
Proof.
  intros HC H1 H2. assert (H := HC (t + 1)). replace (t + 1 - 1) with t in H by lia.
  assert (H' : l < t + 1 < u) by lia. specialize (H H'). lia.
Qed.

Lemma diff_mono F l u t t' : convex_on F l u -> l <= t -> t <= t' -> t' < u ->
  F (t + 1) - F t <= F (t' + 1) - F t'.
Proof.
  intros HC H1 H2 H3. remember (Z.to_nat (t' - t)) as k eqn:Ek. revert t' H2 H3 Ek.
  induction k as [|k IH]; intros t' H2 H3 Ek.
  - replace t' with t by lia. lia.
  - assert (H4 := IH (t' - 1) ltac:(lia) ltac:(lia) ltac:(lia)).
    assert (H5 := diff_step F l u (t' - 1) HC ltac:(lia) ltac:(lia)).
    replace (t' - 1 + 1) with t' in * by lia. lia.
Qed.

(** F(b) - F(a) is at least (b-a) times the first difference, at most (b-a) times the last *)
Lemma sum_diff_ge F l u a b s : convex_on F l u -> l <= a -> a <= b -> b <= u ->
  (a < b -> s <= F (a + 1) - F a) -> (b - a) * s <= F b - F a.
Proof.
  intros HC H1 H2 H3 Hs. remember (Z.to_nat (b - a)) as k eqn:Ek. revert b H2 H3 Ek Hs.
  induction k as [|k IH]; intros b H2 H3 Ek Hs.
  - replace b with a by lia. lia.
  - assert (H4 := IH (b - 1) ltac:(lia) ltac:(lia) ltac:(lia) ltac:(intros; apply Hs; lia)).
    assert (H5 := diff_mono F l u a (b - 1) HC ltac:(lia) ltac:(lia) ltac:(lia)).
    replace (b - 1 + 1) with b in H5 by lia. assert (H6 := Hs ltac:(lia)).
    replace ((b - a) * s) with ((b - 1 - a) * s + s) by lia. lia.
Qed.

Lemma sum_diff_le F l u a b s : convex_on F l u -> l <= a -> a <= b -> b <= u ->
  (a < b -> F b - F (b - 1) <= s) -> F b - F a <= (b - a) * s.
Proof.
  intros HC H1 H2 H3 Hs. remember (Z.to_nat (b - a)) as k eqn:Ek. revert a H1 H2 Ek Hs.
  induction k as [|k IH]; intros a H1 H2 Ek Hs.
  - replace b with a by lia. lia.
  - assert (H4 := IH (a + 1) ltac:(lia) ltac:(lia) ltac:(lia) ltac:(intros; apply Hs; lia)).
    assert (H5 := diff_mono F l u a (b - 1) HC ltac:(lia) ltac:(lia) ltac:(lia)).
    replace (b - 1 + 1) with b in H5 by lia. assert (H6 := Hs ltac:(lia)).
    replace ((b - a) * s) with ((b - (a + 1)) * s + s) by lia. lia.
Qed.

(** ends dominate *)
Lemma convex_max F l u x : convex_on F l u -> l <= x <= u -> F x <= Z.max (F l) (F u).
Proof.
  intros HC Hx.
  destruct (Z.eq_dec x u) as [->|]; [lia|].
  destruct (Z.le_gt_cases (F (x + 1) - F x) 0) as [H|H].
  - assert (H1 := sum_diff_le F l u l x 0 HC ltac:(lia) ltac:(lia) ltac:(lia)).
    assert (H2 : l < x -> F x - F (x - 1) <= 0).
    { intros Hl. assert (H3 := diff_mono F l u (x - 1) x HC ltac:(lia) ltac:(lia) ltac:(lia)).
      replace (x - 1 + 1) with x in H3 by lia. lia. }
    specialize (H1 H2). lia.
  - assert (H1 := sum_diff_ge F l u x u 0 HC ltac:(lia) ltac:(lia) ltac:(lia) ltac:(lia)). lia.
Qed.

Lemma convex_sub F l u l' u' : convex_on F l u -> l <= l' -> u' <= u -> convex_on F l' u'.
Proof. intros HC H1 H2 x Hx. apply HC. lia. Qed.

Lemma convex_ext F G l u : convex_on F l u -> (forall x, l <= x <= u -> G x = F x) -> convex_on G l u.
Proof. intros HC HE x Hx. rewrite !HE by lia. apply HC; auto. Qed.

Lemma convex_opp F l u : convex_on F l u -> convex_on (fun x => F (- x)) (- u) (- l).
Proof.
  intros HC x Hx. assert (H := HC (- x)).
  replace (- (x - 1)) with (- x + 1) by lia. replace (- (x + 1)) with (- x - 1) by lia. lia.
Qed.

Lemma convex_add F G l u : convex_on F l u -> convex_on G l u -> convex_on (fun x => F x + G x) l u.
Proof. intros H1 H2 x Hx. assert (A := H1 x Hx). assert (B := H2 x Hx). lia. Qed.

Lemma convex_tilt F l u c : convex_on F l u -> convex_on (fun x => F x - c * x) l u.
Proof. intros HC x Hx. assert (A := HC x Hx). nia. Qed.

(** ** Extension outside [l, u] with slope M *)
Section Ext.
Variables (F : Z -> Z) (l u M : Z).

Definition slope (t : Z) : Z := if u <=? t then M else if t <? l then - M else F (t + 1) - F t.

Definition fext (d : Z) : Z :=
  if d <? l then F l + M * (l - d) else if u <? d then F u + M * (d - u) else F d.

Hypothesis Hlu : l <= u.
Hypothesis HC : convex_on F l u.
Hypothesis HM0 : 0 <= M.
Hypothesis HM : forall t, l <= t < u -> - M <= F (t + 1) - F t <= M.

Lemma slope_bound t : - M <= slope t <= M.
Proof.
  unfold slope. destruct (Z.leb_spec u t); [lia|]. destruct (Z.ltb_spec t l); [lia|]. apply HM. lia.
Qed.

Lemma slope_mono t t' : t <= t' -> slope t <= slope t'.
Proof.
  intros H. assert (B := slope_bound t). assert (B' := slope_bound t'). unfold slope in *.
  destruct (Z.leb_spec u t'), (Z.leb_spec u t), (Z.ltb_spec t l), (Z.ltb_spec t' l); try lia.
  apply (diff_mono F l u); auto; lia.
Qed.

Lemma fext_step d : fext (d + 1) - fext d = slope d.
Proof.
  unfold fext, slope.
  destruct (Z.leb_spec u d).
  - destruct (Z.ltb_spec (d + 1) l); [lia|]. destruct (Z.ltb_spec d l); [lia|].
    destruct (Z.ltb_spec u (d + 1)); [|lia]. destruct (Z.ltb_spec u d); [lia|].
    replace d with u by lia. lia.
  - destruct (Z.ltb_spec d l).
    + destruct (Z.ltb_spec (d + 1) l); [lia|]. destruct (Z.ltb_spec u (d + 1)); [lia|].
      replace (d + 1) with l by lia. replace (l - d) with 1 by lia. lia.
    + destruct (Z.ltb_spec (d + 1) l); [lia|]. destruct (Z.ltb_spec u (d + 1)); [lia|].
      destruct (Z.ltb_spec u d); lia.
Qed.

(** subgradient inequality *)
Lemma fext_sub d x w : slope (d - 1) <= x -> x <= slope d -> fext d - x * d <= fext w - x * w.
Proof.
  intros H1 H2.
  assert (HU : forall k, fext d - x * d <= fext (d + Z.of_nat k) - x * (d + Z.of_nat k)).
  { induction k as [|k IH]; [rewrite Z.add_0_r; lia|].
    assert (E := fext_step (d + Z.of_nat k)).
    assert (Sm := slope_mono d (d + Z.of_nat k) ltac:(lia)).
    replace (d + Z.of_nat (S k)) with (d + Z.of_nat k + 1) by lia. lia. }
  assert (HL : forall k, fext d - x * d <= fext (d - Z.of_nat k) - x * (d - Z.of_nat k)).
  { induction k as [|k IH]; [rewrite Z.sub_0_r; lia|].
    assert (E := fext_step (d - Z.of_nat k - 1)).
    assert (Sm := slope_mono (d - Z.of_nat k - 1) (d - 1) ltac:(lia)).
    replace (d - Z.of_nat k - 1 + 1) with (d - Z.of_nat k) in E by lia.
    replace (d - Z.of_nat (S k)) with (d - Z.of_nat k - 1) by lia. lia. }
  destruct (Z.le_gt_cases d w).
  - specialize (HU (Z.to_nat (w - d))). rewrite Z2Nat.id in HU by lia.
    replace (d + (w - d)) with w in HU by lia. exact HU.
  - specialize (HL (Z.to_nat (d - w))). rewrite Z2Nat.id in HL by lia.
    replace (d - (d - w)) with w in HL by lia. exact HL.
Qed.

Lemma fext_in d : l <= d <= u -> fext d = F d.
Proof. intros H. unfold fext. destruct (Z.ltb_spec d l); [lia|]. destruct (Z.ltb_spec u d); [lia|]. reflexivity. Qed.

(** clamping into the range never increases [fext w - x w] when |x| <= M *)
Lemma fext_clamp x w : - M <= x <= M ->
  exists w', l <= w' <= u /\ F w' - x * w' <= fext w - x * w.
Proof.
  intros Hx. unfold fext. destruct (Z.ltb_spec w l).
  - exists l. split; [lia|]. nia.
  - destruct (Z.ltb_spec u w).
    + exists u. split; [lia|]. nia.
    + exists w. split; lia.
Qed.

Lemma fext_ge mn d : (forall x, l <= x <= u -> mn <= F x) -> mn <= fext d.
Proof.
  intros H. unfold fext. assert (H1 := H l ltac:(lia)). assert (H2 := H u ltac:(lia)).
  destruct (Z.ltb_spec d l); [nia|]. destruct (Z.ltb_spec u d); [nia|]. apply H; lia.
Qed.

Lemma fext_violated mn d : (forall x, l <= x <= u -> mn <= F x) -> ~ (l <= d <= u) -> mn + M <= fext d.
Proof.
  intros H Hd. unfold fext. assert (H1 := H l ltac:(lia)). assert (H2 := H u ltac:(lia)).
  destruct (Z.ltb_spec d l); [nia|]. destruct (Z.ltb_spec u d); [nia|]. lia.
Qed.

End Ext.
