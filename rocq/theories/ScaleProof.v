(** * CostScaling::MinCost returns the least cost of a circulation *)
From Verif Require Import Base BaseLemmas Data ProblemDefine Flow CostScaling Sums NetMath Spec FlowOpt.
From Verif Require Import ScaleNet ScaleRefine ScaleRun ScaleSpec.
Local Open Scope Z_scope.

Section Api.
Variable one : Z.
#[local] Hint Extern 0 (DataOps Z) => exact (exact_ops one) : typeclass_instances.

Lemma exc_flows A y v : exc (length A) (sei A) (sej A) y v = inflow A y v - outflow A y v.
Proof.
  unfold exc, inflow, outflow. rewrite !sumZ_zsum, <- zsum_sub. apply zsum_ext. intros k _.
  unfold sei, sej. rewrite even_2k, div2_2k. reflexivity.
Qed.

Lemma inrange_iff A y : inrange A y <-> forall k, (k < length A)%nat -> 0 <= y k <= in_cap (arc_of A k).
Proof.
  split; intros H.
  - intros k Hk. apply (inrange_k 0 A 0 y k H Hk).
  - intros e He. assert (B := H _ (div2_lt _ _ He)). unfold rc, sub, scap, xd.
    change (ak A (Nat.div2 e)) with (arc_of A (Nat.div2 e)). destruct (Nat.even e); lia.
Qed.

Lemma circulation_iff n A y : circulation (n + 1) A y <->
  inrange A y /\ forall v, (v <= n)%nat -> exc (length A) (sei A) (sej A) y v = 0.
Proof.
  unfold circulation. rewrite inrange_iff. split; intros [H1 H2]; (split; [exact H1|]); intros v Hv.
  - rewrite exc_flows, H2 by lia. lia.
  - assert (E := H2 v ltac:(lia)). rewrite exc_flows in E. lia.
Qed.

Lemma cost_xcost A y : circulation_cost A y = xcost A y.
Proof. unfold circulation_cost, xcost. rewrite sumZ_zsum. reflexivity. Qed.

Lemma covered_of A : costs_covered A -> covered A.
Proof.
  intros H a Ha Hc. destruct (maxc_ge A) as [M1 M2]. destruct (Z_lt_dec (in_cost a) (-1)) as [L|L]; [|lia].
  destruct (H a Ha Hc L) as (b & B1 & B2). specialize (M2 b B1). lia.
Qed.

Lemma wf_arcs_ok n A K : arcs_wf (n + 1) A K -> arcs_ok n A.
Proof. intros H. constructor; intros a Ha; destruct (H a Ha) as (H1 & H2 & H3 & H4 & H5); auto. split; [lia|]. split; [lia|auto]. Qed.

Lemma scaling_fuel_ok n A K : 1 <= K -> maxc A <= K ->
  refine_fuel n A + Z.log2 (maxc A * (Z.of_nat n + 1)) + 1 <= scaling_fuel (n + 1) (length A) K.
Proof.
  intros HK HM. assert (M1 := proj1 (maxc_ge A)).
  assert (L : Z.log2 (maxc A * (Z.of_nat n + 1)) <= Z.log2 (K * Z.of_nat (n + 1))) by (apply Z.log2_le_mono; nia).
  unfold scaling_fuel, refine_fuel. cbv zeta. set (N := Z.of_nat (n + 1)) in *.
  replace (Z.of_nat n + 1) with N by lia. replace (6 * Z.of_nat n + 7) with (6 * N + 1) by lia.
  replace (Z.of_nat n + 2) with (N + 1) by lia. assert (HN : 1 <= N) by lia.
  set (k := Z.of_nat (length A)). assert (0 <= k) by lia.
  replace (Z.of_nat n + 1) with N in L by lia.
  set (R := (N + 1) * (N * (2 * k)) + N * N + 1).
  assert (0 <= R) by (unfold R; nia).
  replace ((N + 1) * (2 * N * k) + N * N + 1) with R by (unfold R; lia).
  replace (R * (N * (6 * N + 1)) + (N + 1) * (N * (2 * k)) + N * N + 1) with (R * (N * (6 * N + 1)) + R) by (unfold R; lia).
  nia.
Qed.

Theorem min_cost_least N A K s fuel :
  0 < one -> 1 <= K <= INT_MAX -> arcs_wf N A K ->
  (2 ^ Z.of_nat s | one) -> 2 * K * Z.of_nat N <= 2 ^ Z.of_nat s ->
  scaling_fuel N (length A) K <= Z.of_nat fuel ->
  exists b v, cs_min_cost fuel N A = Ok (b, v) /\ (costs_covered A -> b = true) /\
    (b = true -> least_cost N A (- v)) /\ (b = false -> v = 0).
Proof.
  intros H1 HK HW [w Hw] Hs Hf. destruct N as [|n].
  - destruct A as [|a A]; [|destruct (HW a (or_introl eq_refl)); lia].
    exists true, 0. split; [|split; [auto|split; [|auto]]].
    + unfold cs_min_cost, cs_init. cbn [for_each bind c_eps c_p c_head c_edge c_N c_total repeat].
      destruct fuel; cbn [scale_loop c_eps c_N dle done dmuli exact_ops]; change (Z.of_nat 0) with 0; rewrite Z.mul_0_r;
        (destruct (Z.leb_spec one 0); [lia|]); cbn [bind c_edge c_total for_each dzero dopp dhalf exact_ops]; reflexivity.
    + intros _. split.
      * exists (fun _ => 0). split; [|reflexivity]. split; intros k Hk; [simpl in Hk; lia|lia].
      * intros y _. reflexivity.
  - replace (S n) with (n + 1)%nat in * by lia.
    assert (HM : maxc A <= K).
    { apply maxc_le; [lia|]. intros a Ha. destruct (HW a Ha) as (_ & _ & _ & _ & B). lia. }
    assert (HF := scaling_fuel_ok n A K ltac:(lia) HM).
    destruct (cs_min_cost_ok one H1 n A (wf_arcs_ok n A K HW)) with (s := s) (w := w) (fuel := fuel)
      as (b & v & E & C & Z0 & V).
    + intros a Ha. destruct (HW a Ha) as (_ & _ & _ & _ & B). lia.
    + exact Hw.
    + assert (1 <= maxc A) by apply maxc_ge. nia.
    + lia.
    + exists b, v. split; auto. split; [intros Hc; apply C, covered_of; auto|]. split; [|auto].
      intros Eb. destruct (V Eb) as (x & nu & R & X & V1 & V2). replace (- v) with (xcost A x) by lia. split.
      * exists x. split; [apply circulation_iff; auto|apply cost_xcost].
      * intros y Hy. apply circulation_iff in Hy. destruct Hy as [Y1 Y2]. rewrite cost_xcost.
        assert (G := hinges_ge one n A (wf_arcs_ok n A K HW) 0 nu y Y1 Y2). lia.
Qed.

End Api.
