(** * The library on doubles computes what it computes on exact numbers, as long
      as no number gets too large *)
From Coq Require Import Floats.SpecFloat.
From Verif Require Import Base BaseLemmas Data ProblemDefine ProblemSolver Sums Spec FlowOpt FlowSpec FloatSpec FloatExact.
From Verif Require Import Sim SolverChecked SolverSim SolverProof SolverSize.
Local Open Scope Z_scope.

Lemma R_lt k (Hk : 0 <= k <= 52) f g x y : R k f x -> R k g y -> SFltb f g = (x <? y).
Proof. intros H1 H2. unfold SFltb. rewrite (R_compare k Hk f g x y H1 H2). unfold Z.ltb. reflexivity. Qed.
Lemma R_le k (Hk : 0 <= k <= 52) f g x y : R k f x -> R k g y -> SFleb f g = (x <=? y).
Proof. intros H1 H2. unfold SFleb. rewrite (R_compare k Hk f g x y H1 H2). unfold Z.leb. reflexivity. Qed.
Lemma R_eq k (Hk : 0 <= k <= 52) f g x y : R k f x -> R k g y -> SFeqb f g = (x =? y).
Proof.
  intros H1 H2. unfold SFeqb. rewrite (R_compare k Hk f g x y H1 H2). rewrite Z.eqb_compare. reflexivity.
Qed.

Lemma of_int_is w : INT_MIN <= w <= INT_MAX -> f64_is 0 (f64_of_Z w) w.
Proof.
  intros Hw. destruct (R_of_Z 0 ltac:(lia) w) as [H _].
  - change (2 ^ 0) with 1. change (2 ^ 53) with 9007199254740992. unfold INT_MIN, INT_MAX in Hw. lia.
  - change (2 ^ 0) with 1 in H. rewrite Z.mul_1_r in H. exact H.
Qed.

Section Run.
Variables (k B : Z).
Hypothesis Hk : 0 <= k <= 52.
Hypothesis HB : B < 2 ^ 53.

Definition RF (z : Z) (f : spec_float) : Prop := R k f z.

Lemma ok_lt z : within B z = true -> Z.abs z < 2 ^ 53.
Proof using HB. unfold within. intros H. apply Z.leb_le in H. lia. Qed.

Theorem run_solver_f64 fuel n mus oms musf omsf :
  musR RF mus musf -> Forall2 (omR RF) oms omsf ->
  sim (optR RF) (@run_solver_chk Z (exact_ops (2 ^ k)) (within B) fuel n mus oms) (@run_solver spec_float f64_ops fuel n musf omsf).
Proof.
  intros HM HO. apply (@run_solver_sim Z spec_float (exact_ops (2 ^ k)) f64_ops (within B) RF); auto; unfold RF; cbn [dzero done dadd dsub dopp dmuli dhalf dlt dle deq exact_ops f64_ops].
  - apply R_zero; exact Hk.
  - intros H. apply ok_lt in H. assert (X := R_of_Z k Hk 1). rewrite Z.mul_1_l in X. apply X, H.
  - intros a b a' b' H1 H2 H. apply R_add; auto. apply ok_lt; exact H.
  - intros a b a' b' H1 H2 H. apply R_sub; auto. apply ok_lt; exact H.
  - intros a b H. apply R_opp; auto.
  - intros a b w H Hw Ho. apply R_mul; auto; [apply of_int_is; exact Hw|apply ok_lt; exact Ho].
  - intros a b H He. apply Z.eqb_eq in He. apply R_half; auto.
    replace (2 * Z.quot a 2) with a by lia. exact H.
  - intros a b a' b' H1 H2. symmetry. apply (R_lt k); auto.
  - intros a b a' b' H1 H2. symmetry. apply (R_le k); auto.
  - intros a b a' b' H1 H2. symmetry. apply (R_eq k); auto.
Qed.

End Run.

Lemma zsum_part (l : list nat) (w : nat -> Z) i : In i l -> (forall j, In j l -> 0 <= w j) -> w i <= zsum l w.
Proof.
  intros Hi Hw. apply in_split in Hi. destruct Hi as (l1 & l2 & ->). rewrite zsum_insert.
  assert (N : 0 <= zsum (l1 ++ l2) w); [|lia]. apply zsum_nonneg. intros j Hj. apply Hw. apply in_app_or in Hj. apply in_or_app. simpl. tauto.
Qed.

(** every cost of the problem is at most [A] *)
Lemma costs_le n mus oms A : well_formed n mus oms -> costs_within n mus oms A ->
  0 <= A /\
  (forall i m x, (1 <= i <= n)%nat -> nth_error mus i = Some m -> m_l m <= x <= m_u m -> Z.abs (cost (m_fn m) x) <= A) /\
  (forall o x, In o oms -> o_l o <= x <= o_u o -> Z.abs (cost (o_fn o) x) <= A).
Proof.
  intros (Hlen & Hmu & Hom) (wm & wo & Wm & Wo & WA). rewrite !sumZ_zsum in WA.
  assert (N1 : forall i, In i (seq 1 n) -> 0 <= wm i).
  { intros i Hi. apply in_seq in Hi. destruct (nth_error mus i) as [m|] eqn:Em; [|apply nth_error_None in Em; lia].
    destruct (Hmu i m ltac:(lia) Em) as (L & _). assert (X := Wm i m (m_l m) ltac:(lia) Em ltac:(lia)). lia. }
  assert (N2 : forall k, In k (seq 0 (length oms)) -> 0 <= wo k).
  { intros k Hk. apply in_seq in Hk. destruct (nth_error oms k) as [o|] eqn:Eo; [|apply nth_error_None in Eo; lia].
    destruct (Hom o (nth_error_In _ _ Eo)) as (L & _). assert (X := Wo k o (o_l o) Eo ltac:(lia)). lia. }
  assert (Z1 := zsum_nonneg _ _ N1). assert (Z2 := zsum_nonneg _ _ N2).
  split; [lia|]. split.
  - intros i m x Hi Em Hx. assert (X := Wm i m x Hi Em Hx). assert (Y := zsum_part (seq 1 n) wm i ltac:(apply in_seq; lia) N1). lia.
  - intros o x Ho Hx. apply In_nth_error in Ho. destruct Ho as [k Ek]. assert (X := Wo k o x Ek Hx).
    assert (Hk : (k < length oms)%nat) by (apply nth_error_Some; congruence).
    assert (Y := zsum_part (seq 0 (length oms)) wo k ltac:(apply in_seq; lia) N2). lia.
Qed.

Lemma run_bound_ge n k K unit A : 1 <= K -> 0 < unit -> 0 <= A -> A <= run_bound n k K unit A.
Proof.
  intros HK Hu HA. unfold run_bound. set (b := Z.of_nat (n + k) + 1). assert (1 <= b) by (unfold b; lia). clearbody b.
  assert (1 <= b * (K + 20)) by nia. nia.
Qed.

Lemma cost_of (fn : Fn Z) x z : fn x = Ok z -> cost fn x = z.
Proof. intros E. unfold cost. rewrite E. reflexivity. Qed.

(** related problems in the sense of SolverSim.v *)
Lemma problem_related k n musf omsf mus oms A :
  problem_is k musf omsf mus oms -> well_formed n mus oms -> costs_within n mus oms A -> A < 2 ^ 53 ->
  musR (RF k) mus musf /\ Forall2 (omR (RF k)) oms omsf.
Proof.
  intros (P1 & P2 & P3) HW HA HB. destruct (costs_le n mus oms A HW HA) as (_ & C1 & C2). destruct HW as (Hlen & _ & _). split.
  - split; [auto|]. intros i m Hi Em.
    assert (Hin : (i < length mus)%nat) by (apply nth_error_Some; congruence).
    destruct (nth_error musf i) as [mf|] eqn:Ef; [|apply nth_error_None in Ef; lia].
    exists mf. split; [reflexivity|]. assert (HM := P2 i mf m Hi Ef Em). assert (HC := C1 i m).
    destruct mf as [lf uf ff], m as [l u fz]. destruct HM as (M1 & M2 & M3). cbn [m_l m_u m_fn] in *. subst lf uf.
    constructor. intros x Hx z Ez. destruct (M3 x Hx) as (f & z' & Ef' & Ez' & Hf). rewrite Ez in Ez'. injection Ez' as <-.
    exists f. split; [exact Ef'|]. split; [exact Hf|].
    assert (X := HC x ltac:(lia) Em Hx). rewrite (cost_of _ _ _ Ez) in X. lia.
  - clear P1 P2 Hlen C1 HA. induction P3 as [|of_ o omsf oms HO _ IH]; constructor.
    + assert (HC := C2 o). destruct of_ as [lf uf ff i_ j_], o as [l u fz i j]. destruct HO as (M1 & M2 & M3 & M4 & M5). cbn [o_l o_u o_fn o_i o_j] in *. subst lf uf i_ j_.
      constructor. intros x Hx z Ez. destruct (M5 x Hx) as (f & z' & Ef' & Ez' & Hf). rewrite Ez in Ez'. injection Ez' as <-.
      exists f. split; [exact Ef'|]. split; [exact Hf|].
      assert (X := HC x ltac:(simpl; auto) Hx). rewrite (cost_of _ _ _ Ez) in X. lia.
    + apply IH. intros; apply C2; simpl; auto.
Qed.

Theorem doubles_exact k n musf omsf mus oms K A fuel :
  0 <= k <= 52 -> problem_is k musf omsf mus oms -> admissible n mus oms K -> costs_within n mus oms A ->
  run_bound n (length oms) K (2 ^ k) A < 2 ^ 53 -> solver_fuel n (length oms) K <= Z.of_nat fuel ->
  (exists f v, @run_solver spec_float f64_ops fuel (Z.of_nat n) musf omsf = Ok (Some f) /\ f64_is k f v /\ optimum n mus oms v) \/
  (@run_solver spec_float f64_ops fuel (Z.of_nat n) musf omsf = Ok None /\ infeasible n mus oms).
Proof.
  intros Hk HP (HW & HBd & HK & HI) HA HB Hf.
  assert (H1 : 0 < 2 ^ k) by (apply Z.pow_pos_nonneg; lia).
  destruct (costs_le n mus oms A HW HA) as (HA0 & _).
  assert (HAB := run_bound_ge n (length oms) K (2 ^ k) A HK H1 HA0).
  destruct (problem_related k n musf omsf mus oms A HP HW HA ltac:(lia)) as [HR1 HR2].
  destruct (run_solver_chk_ok (2 ^ k) n mus oms K A fuel H1 HW HBd HK HI HA Hf) as (r & Er).
  destruct (run_solver_ok (2 ^ k) n mus oms K fuel H1 HW HBd HK HI Hf) as (r' & Er' & Hs).
  rewrite (run_solver_chk_eq _ _ _ _ _ _ _ Er) in Er'. injection Er' as <-.
  destruct (run_solver_f64 k _ Hk HB fuel (Z.of_nat n) mus oms musf omsf HR1 HR2 _ Er) as (rf & Ef & HRf).
  destruct r as [v|], rf as [f|]; cbn [optR] in HRf; try contradiction.
  - left. exists f, v. split; [exact Ef|]. split; [apply HRf|exact Hs].
  - right. split; [exact Ef|exact Hs].
Qed.

(** the numbers of the exact run *)
Theorem run_sizes one n mus oms K A fuel :
  0 < one -> admissible n mus oms K -> costs_within n mus oms A -> solver_fuel n (length oms) K <= Z.of_nat fuel ->
  exists r, @run_solver_chk Z (exact_ops one) (within (run_bound n (length oms) K one A)) fuel (Z.of_nat n) mus oms = Ok r /\
            @run_solver Z (exact_ops one) fuel (Z.of_nat n) mus oms = Ok r.
Proof.
  intros H1 (HW & HBd & HK & HI) HA Hf.
  destruct (run_solver_chk_ok one n mus oms K A fuel H1 HW HBd HK HI HA Hf) as (r & Er).
  exists r. split; [exact Er|]. eapply run_solver_chk_eq; exact Er.
Qed.
