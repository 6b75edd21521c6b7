(** * Runs with WrappedDouble *)
From Coq Require Import Floats.SpecFloat.
From Verif Require Import Base BaseLemmas Data ProblemDefine ProblemSolver WrappedDouble Sums Spec FlowOpt FlowSpec FloatSpec FloatExact FloatRound.
From Verif Require Import Sim SolverChecked SolverSim SolverProof SolverSize FloatRun.
Local Open Scope Z_scope.

(** ** Over doubles *)
Section Run.
Variables (k B : Z).
Hypothesis Hk : 0 <= k <= 13.
Hypothesis HB : B < 2 ^ 50.

Definition RW (z : Z) (f : spec_float) : Prop := R k f z /\ Z.abs z < 2 ^ 50.

Lemma okw_lt z : within B z = true -> Z.abs z < 2 ^ 50.
Proof using HB. unfold within. intros H. apply Z.leb_le in H. lia. Qed.

Lemma half_range z : Z.abs z < 2 ^ 50 -> Z.abs z < 2 ^ 53.
Proof. clear. change (2 ^ 53) with (8 * 2 ^ 50). lia. Qed.

Theorem run_solver_wd64 fuel n mus oms musf omsf :
  musR RW mus musf -> Forall2 (omR RW) oms omsf ->
  sim (optR RW) (@run_solver_chk Z (exact_ops (2 ^ k)) (within B) fuel n mus oms) (@run_solver spec_float wd64_ops fuel n musf omsf).
Proof.
  assert (Hk' : 0 <= k <= 52) by lia. intros HM HO.
  apply (@run_solver_sim Z spec_float (exact_ops (2 ^ k)) wd64_ops (within B) RW); auto; unfold RW;
    cbn [dzero done dadd dsub dopp dmuli dhalf dlt dle deq exact_ops wd64_ops wd_ops].
  - split; [apply R_zero; exact Hk'|reflexivity].
  - intros H. apply okw_lt in H. split; [|exact H]. assert (X := R_of_Z k Hk' 1). rewrite Z.mul_1_l in X. apply X, half_range, H.
  - intros a b a' b' [H1 _] [H2 _] H. apply okw_lt in H. split; [|exact H]. apply R_add; auto. apply half_range; exact H.
  - intros a b a' b' [H1 _] [H2 _] H. apply okw_lt in H. split; [|exact H]. apply R_sub; auto. apply half_range; exact H.
  - intros a b [H H']. split; [apply R_opp; auto|lia].
  - intros a b w [H _] Hw Ho. apply okw_lt in Ho. split; [|exact Ho]. apply R_mul; auto; [apply of_int_is; exact Hw|apply half_range; exact Ho].
  - intros a b [H H'] He. apply Z.eqb_eq in He. split; [|lia]. apply R_half; auto.
    replace (2 * Z.quot a 2) with a by lia. exact H.
  - intros a b a' b' [H1 L1] [H2 L2]. unfold wd_lt. symmetry. apply (W_lt k Hk b b' a a' H1 H2 L1).
  - intros a b a' b' [H1 L1] [H2 L2]. unfold wd_le. symmetry. apply (W_le k Hk b b' a a' H1 H2 L1).
  - intros a b a' b' [H1 L1] [H2 L2]. unfold wd_eq. symmetry. apply (W_eq k Hk b b' a a' H1 H2 L1 L2).
Qed.
End Run.

Lemma RW_related k n musf omsf mus oms A :
  problem_is k musf omsf mus oms -> well_formed n mus oms -> costs_within n mus oms A -> A < 2 ^ 50 ->
  musR (RW k) mus musf /\ Forall2 (omR (RW k)) oms omsf.
Proof.
  intros (P1 & P2 & P3) HW HA HB. destruct (costs_le n mus oms A HW HA) as (_ & C1 & C2). destruct HW as (Hlen & _ & _). split.
  - split; [auto|]. intros i m Hi Em.
    assert (Hin : (i < length mus)%nat) by (apply nth_error_Some; congruence).
    destruct (nth_error musf i) as [mf|] eqn:Ef; [|apply nth_error_None in Ef; lia].
    exists mf. split; [reflexivity|]. assert (HM := P2 i mf m Hi Ef Em). assert (HC := C1 i m).
    destruct mf as [lf uf ff], m as [l u fz]. destruct HM as (M1 & M2 & M3). cbn [m_l m_u m_fn] in *. subst lf uf.
    constructor. intros x Hx z Ez. destruct (M3 x Hx) as (f & z' & Ef' & Ez' & Hf). rewrite Ez in Ez'. injection Ez' as <-.
    assert (X := HC x ltac:(lia) Em Hx). rewrite (cost_of _ _ _ Ez) in X.
    exists f. split; [exact Ef'|]. split; [split; [exact Hf|apply half_range; lia]|lia].
  - clear P1 P2 Hlen C1 HA. induction P3 as [|of_ o omsf oms HO _ IH]; constructor.
    + assert (HC := C2 o). destruct of_ as [lf uf ff i_ j_], o as [l u fz i j]. destruct HO as (M1 & M2 & M3 & M4 & M5). cbn [o_l o_u o_fn o_i o_j] in *. subst lf uf i_ j_.
      constructor. intros x Hx z Ez. destruct (M5 x Hx) as (f & z' & Ef' & Ez' & Hf). rewrite Ez in Ez'. injection Ez' as <-.
      assert (X := HC x ltac:(simpl; auto) Hx). rewrite (cost_of _ _ _ Ez) in X.
      exists f. split; [exact Ef'|]. split; [split; [exact Hf|apply half_range; lia]|lia].
    + apply IH. intros; apply C2; simpl; auto.
Qed.

Theorem wrapped_exact k n musf omsf mus oms K A fuel :
  0 <= k <= 13 -> problem_is k musf omsf mus oms -> admissible n mus oms K -> costs_within n mus oms A ->
  run_bound n (length oms) K (2 ^ k) A < 2 ^ 50 -> solver_fuel n (length oms) K <= Z.of_nat fuel ->
  (exists f v, @run_solver spec_float wd64_ops fuel (Z.of_nat n) musf omsf = Ok (Some f) /\ f64_is k f v /\ optimum n mus oms v) \/
  (@run_solver spec_float wd64_ops fuel (Z.of_nat n) musf omsf = Ok None /\ infeasible n mus oms).
Proof.
  intros Hk HP (HW & HBd & HK & HI) HA HB Hf.
  assert (H1 : 0 < 2 ^ k) by (apply Z.pow_pos_nonneg; lia).
  destruct (costs_le n mus oms A HW HA) as (HA0 & _).
  assert (HAB := run_bound_ge n (length oms) K (2 ^ k) A HK H1 HA0).
  destruct (RW_related k n musf omsf mus oms A HP HW HA ltac:(lia)) as [HR1 HR2].
  destruct (run_solver_chk_ok (2 ^ k) n mus oms K A fuel H1 HW HBd HK HI HA Hf) as (r & Er).
  destruct (run_solver_ok (2 ^ k) n mus oms K fuel H1 HW HBd HK HI Hf) as (r' & Er' & Hs).
  rewrite (run_solver_chk_eq _ _ _ _ _ _ _ Er) in Er'. injection Er' as <-.
  destruct (run_solver_wd64 k _ Hk HB fuel (Z.of_nat n) mus oms musf omsf HR1 HR2 _ Er) as (rf & Ef & HRf).
  destruct r as [v|], rf as [f|]; cbn [optR] in HRf; try contradiction.
  - left. exists f, v. split; [exact Ef|]. split; [apply HRf|exact Hs].
  - right. split; [exact Ef|exact Hs].
Qed.

(** the five comparisons on values that are multiples of 2^-k *)
Theorem wd64_grid k f g x y : 0 <= k <= 13 -> f64_is k f x -> f64_is k g y -> Z.abs x < 2 ^ 50 -> Z.abs y < 2 ^ 50 ->
  @wd_lt _ f64_ops eps64 f g = (x <? y) /\ @wd_le _ f64_ops eps64 f g = (x <=? y) /\
  @wd_gt _ f64_ops eps64 f g = (y <? x) /\ @wd_ge _ f64_ops eps64 f g = (y <=? x) /\
  @wd_eq _ f64_ops SFabs eps64 f g = (x =? y).
Proof.
  intros Hk Hf Hg Hx Hy.
  assert (Rf : R k f x) by (split; [exact Hf|apply half_range; exact Hx]).
  assert (Rg : R k g y) by (split; [exact Hg|apply half_range; exact Hy]).
  split; [|split; [|split; [|split]]].
  - apply (W_lt k Hk f g x y Rf Rg Hx).
  - apply (W_le k Hk f g x y Rf Rg Hx).
  - apply (W_gt k Hk f g x y Rf Rg Hx).
  - apply (W_ge k Hk f g x y Rf Rg Hx).
  - apply (W_eq k Hk f g x y Rf Rg Hx Hy).
Qed.

(** ** Over exact numbers, with any tolerance below the grid *)
Lemma max_abs (f : Z -> Z) l u : exists b, 0 <= b /\ forall x, l <= x <= u -> Z.abs (f x) <= b.
Proof.
  assert (H : forall m, exists b, 0 <= b /\ forall x, l <= x < l + Z.of_nat m -> Z.abs (f x) <= b).
  { induction m as [|m (b & Hb & IH)].
    - exists 0. split; [lia|]. intros; lia.
    - exists (Z.max b (Z.abs (f (l + Z.of_nat m)))). split; [lia|]. intros x Hx.
      destruct (Z.eq_dec x (l + Z.of_nat m)) as [->|N]; [lia|]. assert (X := IH x ltac:(lia)). lia. }
  destruct (H (Z.to_nat (u - l + 1))) as (b & Hb & IH). exists b. split; [exact Hb|]. intros x Hx. apply IH. lia.
Qed.

Lemma family_bound {A} (l : list A) (P : A -> Z -> Prop) : (forall a, exists b, P a b) ->
  exists w : nat -> Z, forall i a, nth_error l i = Some a -> P a (w i).
Proof.
  intros H. induction l as [|a l (w & IH)].
  - exists (fun _ => 0). intros [|i] a E; discriminate.
  - destruct (H a) as (b & Hb). exists (fun i => match i with O => b | S i => w i end).
    intros [|i] c E; cbn [nth_error] in E; [injection E as <-; exact Hb|apply IH; exact E].
Qed.

(** every problem has a bound for its costs *)
Lemma costs_bounded n mus oms : exists A, costs_within n mus oms A.
Proof.
  destruct (family_bound mus (fun m b => forall x, m_l m <= x <= m_u m -> Z.abs (cost (m_fn m) x) <= b)) as (wm & Hm).
  { intros m. destruct (max_abs (cost (m_fn m)) (m_l m) (m_u m)) as (b & _ & Hb). eauto. }
  destruct (family_bound oms (fun o b => forall x, o_l o <= x <= o_u o -> Z.abs (cost (o_fn o) x) <= b)) as (wo & Ho).
  { intros o. destruct (max_abs (cost (o_fn o)) (o_l o) (o_u o)) as (b & _ & Hb). eauto. }
  eexists _, wm, wo. split; [|split; [|apply Z.le_refl]].
  - intros i m x _ E Hx. exact (Hm i m E x Hx).
  - intros i o x E Hx. exact (Ho i o E x Hx).
Qed.

Section Tolerance.
Variables (g one eps B : Z).
Hypothesis Hg : 0 <= eps < g.

Definition RT (a b : Z) : Prop := b = g * a.

Theorem run_solver_tol fuel n mus oms mus' oms' :
  musR RT mus mus' -> Forall2 (omR RT) oms oms' ->
  sim (optR RT) (@run_solver_chk Z (exact_ops one) (within B) fuel n mus oms) (@run_solver Z (wd_exact_ops (g * one) eps) fuel n mus' oms').
Proof.
  intros HM HO.
  apply (@run_solver_sim Z Z (exact_ops one) (wd_exact_ops (g * one) eps) (within B) RT); auto; unfold RT;
    cbn [dzero done dadd dsub dopp dmuli dhalf dlt dle deq exact_ops wd_exact_ops wd_ops].
  - lia.
  - reflexivity.
  - intros a b a' b' -> -> _. ring.
  - intros a b a' b' -> -> _. ring.
  - intros a b ->. ring.
  - intros a b w -> _ _. ring.
  - intros a b -> He. apply Z.eqb_eq in He. set (h := Z.quot a 2) in *. clearbody h. subst a.
    replace (g * (h + h)) with (g * h * 2) by ring. apply Z.quot_mul. lia.
  - intros a b a' b' -> ->. unfold wd_lt. cbn [dlt dadd exact_ops]. clear - Hg.
    destruct (Z.ltb_spec a a'), (Z.ltb_spec (g * a + eps) (g * a')); try reflexivity; exfalso; nia.
  - intros a b a' b' -> ->. unfold wd_le. cbn [dle dsub exact_ops]. clear - Hg.
    destruct (Z.leb_spec a a'), (Z.leb_spec (g * a - eps) (g * a')); try reflexivity; exfalso; nia.
  - intros a b a' b' -> ->. unfold wd_eq. cbn [dlt dsub exact_ops]. clear - Hg. rewrite <- Z.mul_sub_distr_l.
    destruct (Z.eqb_spec a a') as [->|N].
    + rewrite Z.sub_diag, Z.mul_0_r. cbn [Z.abs]. destruct (Z.ltb_spec eps 0); [lia|reflexivity].
    + destruct (Z.ltb_spec eps (Z.abs (g * (a - a')))); [reflexivity|]. exfalso. nia.
Qed.
End Tolerance.

(** the problem with every cost multiplied by [g], whatever happens outside the
    ranges *)
Theorem tolerance_exact g one eps n mus' oms' mus oms K fuel :
  0 <= eps < g -> 0 < one -> problem_times g mus' oms' mus oms -> admissible n mus oms K ->
  solver_fuel n (length oms) K <= Z.of_nat fuel ->
  (exists v, @run_solver Z (wd_exact_ops (g * one) eps) fuel (Z.of_nat n) mus' oms' = Ok (Some (g * v)) /\ optimum n mus oms v) \/
  (@run_solver Z (wd_exact_ops (g * one) eps) fuel (Z.of_nat n) mus' oms' = Ok None /\ infeasible n mus oms).
Proof.
  intros Hg H1 (P1 & P2 & P3) (HW & HBd & HK & HI) Hf. destruct (costs_bounded n mus oms) as (A & HA).
  destruct (run_solver_chk_ok one n mus oms K A fuel H1 HW HBd HK HI HA Hf) as (r & Er).
  destruct (run_solver_ok one n mus oms K fuel H1 HW HBd HK HI Hf) as (r' & Er' & Hs).
  rewrite (run_solver_chk_eq _ _ _ _ _ _ _ Er) in Er'. injection Er' as <-.
  assert (HR1 : musR (RT g) mus mus').
  { split; [auto|]. intros i m Hi Em.
    assert (Hin : (i < length mus)%nat) by (apply nth_error_Some; congruence).
    destruct (nth_error mus' i) as [mf|] eqn:Ef; [|apply nth_error_None in Ef; lia].
    exists mf. split; [reflexivity|]. destruct (P2 i mf m Hi Ef Em) as (M1 & M2 & M3).
    destruct mf as [lf uf ff], m as [l u fz]. cbn [m_l m_u m_fn] in *. subst lf uf.
    constructor. intros x Hx z Ez. exists (g * z). split; [apply (M3 x z Hx Ez)|reflexivity]. }
  assert (HR2 : Forall2 (omR (RT g)) oms oms').
  { clear - P3. induction P3 as [|of_ o omsf oms (M1 & M2 & M3 & M4 & M5) _ IH]; constructor; auto.
    destruct of_ as [lf uf ff i_ j_], o as [l u fz i j]. cbn [o_l o_u o_fn o_i o_j] in *. subst lf uf i_ j_.
    constructor. intros x Hx z Ez. exists (g * z). split; [apply (M5 x z Hx Ez)|reflexivity]. }
  destruct (run_solver_tol g one eps _ Hg fuel (Z.of_nat n) mus oms mus' oms' HR1 HR2 _ Er) as (rf & Ef & HRf).
  destruct r as [v|], rf as [f|]; cbn [optR] in HRf; try contradiction.
  - left. exists v. split; [|exact Hs]. unfold RT in HRf. subst f. exact Ef.
  - right. split; [exact Ef|exact Hs].
Qed.
