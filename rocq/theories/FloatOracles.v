(** * The reference solvers of the test-suite on doubles *)
From Coq Require Import Floats.SpecFloat.
From Verif Require Import Base BaseLemmas Data ProblemDefine Oracles CostScaling Spec FlowOpt FloatSpec FloatExact FloatRun.
From Verif Require Import ScaleNet ScaleRun ScaleSpec ScaleProof SimpleProof Sim SolverSim SolverProof Hom ScaleRel ScaleRunRel SimpleRel OracleRel.
Local Open Scope Z_scope.

Lemma double_solution_of k n mus oms r rf : optR (RF k) r rf -> solution n mus oms r -> double_solution k n mus oms (Ok rf).
Proof.
  intros HR HS. destruct r as [v|], rf as [f|]; cbn [optR] in HR; try contradiction.
  - left. exists f, v. split; [reflexivity|]. split; [apply HR|exact HS].
  - right. split; [reflexivity|exact HS].
Qed.

Theorem bf_doubles k n musf omsf mus oms K A fuel :
  0 <= k <= 52 -> problem_is k musf omsf mus oms -> admissible n mus oms K -> costs_within n mus oms A -> A < 2 ^ 53 ->
  2 * K + 32 <= Z.of_nat fuel ->
  double_solution k n mus oms (@bf_solve spec_float f64_ops fuel n musf omsf).
Proof.
  intros Hk HP (HW & HBd & HK & HI) HA HB Hf.
  destruct (problem_related k n musf omsf mus oms A HP HW HA HB) as [HR1 HR2].
  assert (HKI : 2 * K + 1 <= INT_MAX) by (clear - HI HK; assert (1 <= Z.of_nat (n + 1) * Z.of_nat (n + 1)) by nia; assert (28 * K <= INT_MAX) by nia; lia).
  destruct (bf_solve_rel (RF k) (2 ^ 53 - 1) (f64_hom k Hk) (2 ^ k) n mus oms musf omsf K A fuel HW HBd ltac:(lia) HKI HA ltac:(lia) HR1 HR2 Hf)
    as (r & rf & E & HR & HS).
  rewrite E. eapply double_solution_of; eassumption.
Qed.

Theorem simple_doubles k n musf omsf mus oms K S A fuel :
  0 <= k <= 52 -> problem_is k musf omsf mus oms -> admissible n mus oms K ->
  spread_within n mus oms S -> S < 1000000000 * 2 ^ k -> costs_within n mus oms A ->
  simple_sizes k n (length oms) K A -> simple_fuel n (length oms) K <= Z.of_nat fuel ->
  double_solution k n mus oms (@simple_solve spec_float f64_ops fuel n musf omsf).
Proof.
  intros Hk HP (HW & HBd & HK & HI) HS HS1 HA (HB1 & HB2) Hf.
  assert (P1 : 0 < 2 ^ k) by (apply Z.pow_pos_nonneg; lia).
  set (N := Z.of_nat n) in *. assert (HN : 0 <= N) by (unfold N; lia).
  assert (HLN : 0 <= Z.of_nat (n + length oms) * K) by (apply Z.mul_nonneg_nonneg; lia).
  destruct (costs_le n mus oms A HW HA) as (HA0 & _).
  destruct (problem_related k n musf omsf mus oms A HP HW HA) as [HR1 HR2].
  { assert (0 <= (8 * Z.of_nat (n + length oms) * K + 2) * (2 ^ k * 1000000000)) by (apply Z.mul_nonneg_nonneg; lia). lia. }
  assert (HI3 : 28 * K <= INT_MAX) by (clear - HI HK; assert (1 <= Z.of_nat (n + 1) * Z.of_nat (n + 1)) by nia; nia).
  assert (HI4 : Z.of_nat n + 1 <= INT_MAX) by (clear - HI HK; assert (Z.of_nat (n + 1) <= Z.of_nat (n + 1) * Z.of_nat (n + 1)) by nia; nia).
  set (X := 4 * K * (N + 1)). assert (HX : 4 <= X) by (unfold X; nia).
  set (s := Z.log2_up X). assert (Hs0 : 1 <= s) by (unfold s; assert (Q := Z.log2_up_le_mono 2 X ltac:(lia)); change (Z.log2_up 2) with 1 in Q; lia).
  assert (HsX : X <= 2 ^ s) by (apply Z.log2_up_spec; lia).
  assert (HsY : 2 ^ s < 2 * X).
  { assert (Q := proj1 (Z.log2_up_spec X ltac:(lia))). fold s in Q. replace s with (1 + Z.pred s) by lia. rewrite Z.pow_add_r by lia. lia. }
  assert (Hs52 : s <= 52).
  { destruct (Z.le_gt_cases s 52); auto. exfalso. assert (Q : 2 ^ 53 <= 2 ^ s) by (apply Z.pow_le_mono_r; lia).
    assert (2 * X <= 16 * K * K * (N + 1) * (12 * N + 15)); [|lia]. clear - HK HN. subst X. nia. }
  destruct (simple_solve_rel (RF k) (RF s) (2 ^ 53 - 1) (2 ^ 53 - 1) (f64_hom k Hk) (f64_hom s ltac:(lia)) (2 ^ k) (f64_done k Hk)
    n mus oms musf omsf K S A (Z.to_nat s) (2 ^ s) fuel) as (r & rf & E & HR & HSol); auto.
  - lia.
  - apply f64_done. lia.
  - lia.
  - rewrite Z2Nat.id by lia. apply Z.divide_refl.
  - rewrite Z2Nat.id by lia. unfold X, N in HsX. rewrite Nat2Z.inj_add. change (Z.of_nat 1) with 1. lia.
  - fold N. assert (Q : 2 ^ s * (2 * K) * (2 * (6 * N + 7) + 1) <= 2 * X * (2 * K) * (2 * (6 * N + 7) + 1)).
    { apply Z.mul_le_mono_nonneg_r; [lia|]. apply Z.mul_le_mono_nonneg_r; lia. }
    replace (2 * X * (2 * K) * (2 * (6 * N + 7) + 1)) with (16 * K * K * (N + 1) * (12 * N + 15)) in Q by (unfold X; ring). lia.
  - replace ((8 * Z.of_nat (n + length oms) * K + 2) * (2 ^ k * 1000000000)) with
      (8 * (2 ^ k * 1000000000 * Z.of_nat (n + length oms) * K) + 2 * (2 ^ k * 1000000000)) in HB2 by ring. lia.
  - rewrite E. eapply double_solution_of; eassumption.
Qed.

Lemma arcs_related k A AD : Forall2 (arc_is k) AD A -> (forall a, In a A -> 0 <= in_cap a) -> total_capacity A < 2 ^ 53 ->
  Forall2 (inR (RF k)) A AD.
Proof.
  intros HF. induction HF as [|b a AD A Hb HF IH]; intros H0 HB; constructor.
  - destruct Hb as (U & V & C & F). split; [auto|]. split; [auto|]. split; [auto|]. split; [exact F|].
    unfold total_capacity in HB. cbn [map sumZ] in HB.
    assert (0 <= sumZ (map in_cap A)).
    { clear - H0. assert (G : forall a, In a A -> 0 <= in_cap a) by (intros; apply H0; simpl; auto). clear H0.
      induction A as [|c A IH]; cbn [map sumZ]; [lia|]. assert (X := G c (or_introl eq_refl)). assert (Y := IH (fun d Hd => G d (or_intror Hd))). lia. }
    assert (Y := H0 a (or_introl eq_refl)). lia.
  - apply IH; [intros; apply H0; simpl; auto|]. unfold total_capacity in *. cbn [map sumZ] in HB. assert (Y := H0 a (or_introl eq_refl)). lia.
Qed.

Theorem min_cost_doubles k N AD A K fuel :
  0 <= k <= 52 -> (1 <= N)%nat -> Z.of_nat N <= INT_MAX -> 1 <= K <= INT_MAX -> arcs_wf N A K -> Forall2 (arc_is k) AD A ->
  2 * (total_capacity A * K) < 2 ^ 53 -> 4 * K * K * Z.of_nat N * (12 * Z.of_nat N + 3) < 2 ^ 53 ->
  scaling_fuel N (length A) K <= Z.of_nat fuel ->
  exists b f, @cs_min_cost spec_float f64_ops fuel N AD = Ok (b, f) /\
    (costs_covered A -> b = true) /\
    (b = true -> exists v, f64_is k f v /\ least_cost N A (- v)) /\
    (b = false -> f64_is k f 0).
Proof.
  intros Hk HN HNI HK HW HF HB1 HB2 Hf. destruct N as [|n]; [lia|]. replace (S n) with (n + 1)%nat in * by lia.
  assert (HA := wf_arcs_ok n A K HW).
  assert (HT : allcap A = total_capacity A) by (unfold total_capacity; rewrite sumZ_zsum; reflexivity).
  assert (HT0 : 0 <= allcap A) by (apply (allcap_nonneg n A HA)).
  assert (HR : Forall2 (inR (RF k)) A AD).
  { apply arcs_related; auto; [intros a Ha; destruct (HW a Ha) as (_ & _ & _ & C & _); exact C|]. rewrite HT in HT0. nia. }
  assert (HM : maxc A <= K).
  { apply maxc_le; [lia|]. intros a Ha. destruct (HW a Ha) as (_ & _ & _ & _ & B). lia. }
  assert (HFu := scaling_fuel_ok n A K ltac:(lia) HM).
  set (X := 2 * K * (Z.of_nat n + 1)). assert (HX : 2 <= X) by (unfold X; nia).
  set (s := Z.log2_up X). assert (Hs0 : 1 <= s) by (unfold s; assert (Q := Z.log2_up_le_mono 2 X ltac:(lia)); change (Z.log2_up 2) with 1 in Q; lia).
  assert (HsX : X <= 2 ^ s) by (apply Z.log2_up_spec; lia).
  assert (HsY : 2 ^ s < 2 * X).
  { assert (Q := proj1 (Z.log2_up_spec X ltac:(lia))). fold s in Q. replace s with (1 + Z.pred s) by lia. rewrite Z.pow_add_r by lia. lia. }
  assert (EN : Z.of_nat (n + 1) = Z.of_nat n + 1) by lia. rewrite EN in HB2, HNI.
  assert (Hs52 : s <= 52).
  { destruct (Z.le_gt_cases s 52); auto. exfalso. assert (Q : 2 ^ 53 <= 2 ^ s) by (apply Z.pow_le_mono_r; lia).
    assert (2 * X <= 4 * K * K * (Z.of_nat n + 1) * (12 * (Z.of_nat n + 1) + 3)); [|lia]. clear - HK. subst X. nia. }
  destruct (cs_min_cost_rel (RF k) (RF s) (2 ^ 53 - 1) (2 ^ 53 - 1) (f64_hom k Hk) (f64_hom s ltac:(lia)) (2 ^ s) n A AD HA HR K) with
    (s := Z.to_nat s) (w := 1) (fuel := fuel) as (b & f & E & C & Z0 & V).
  - apply f64_done. lia.
  - apply Z.pow_pos_nonneg; lia.
  - intros a Ha. destruct (HW a Ha) as (_ & _ & _ & _ & B). exact B.
  - exact HK.
  - assert (Q : 2 ^ s * K * (2 * (6 * Z.of_nat n + 7) + 1) <= 2 * X * K * (2 * (6 * Z.of_nat n + 7) + 1)).
    { apply Z.mul_le_mono_nonneg_r; [lia|]. apply Z.mul_le_mono_nonneg_r; lia. }
    replace (2 * X * K * (2 * (6 * Z.of_nat n + 7) + 1)) with (4 * K * K * (Z.of_nat n + 1) * (12 * (Z.of_nat n + 1) + 3)) in Q by (unfold X; ring). lia.
  - rewrite HT. lia.
  - exact HNI.
  - rewrite Z2Nat.id by lia. lia.
  - rewrite Z2Nat.id by lia. assert (2 * maxc A * (Z.of_nat n + 1) <= X); [|lia]. unfold X. apply Z.mul_le_mono_nonneg_r; lia.
  - lia.
  - exists b, f. split; [exact E|]. split; [intros Hc; apply C, covered_of; exact Hc|]. split.
    + intros Eb. destruct (V Eb) as (v & x & nu & RV & R & Xx & V1 & V2). exists v. split; [apply RV|].
      replace (- v) with (xcost A x) by lia. split.
      * exists x. split; [apply circulation_iff; auto|apply cost_xcost].
      * intros y Hy. apply circulation_iff in Hy. destruct Hy as [Y1 Y2]. rewrite cost_xcost.
        assert (G := hinges_ge (2 ^ s) n A HA 0 nu y Y1 Y2). lia.
    + intros Eb. rewrite (Z0 Eb). reflexivity.
Qed.
