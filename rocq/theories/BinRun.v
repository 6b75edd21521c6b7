(** * Runs on any binary floating-point format *)
From Coq Require Import Floats.SpecFloat.
From Verif Require Import Base BaseLemmas Data ProblemDefine ProblemSolver Sums Spec FlowOpt FlowSpec BinSpec FloatExact FloatRound BinFormat.
From Verif Require Import Sim SolverChecked SolverSim SolverProof SolverSize FloatRun.
Local Open Scope Z_scope.

Section Format.
Variables (prec emax k : Z).
Hypothesis Hprec : 1 < prec.
Hypothesis Hemax : prec + 3 <= emax.
Hypothesis Hint : 33 <= emax.
Hypothesis Hk : 0 <= k <= emax - 3.

Local Notation R := (BinFormat.R prec emax k).

(** an int becomes a finite number of the format, if perhaps not exactly *)
Definition finite_sf (f : spec_float) : Prop := match f with S754_zero _ | S754_finite _ _ _ => True | _ => False end.

Lemma shr_fexp_bound m e : 0 <= m -> m <= 2 ^ prec -> emin prec emax <= e ->
  0 <= shr_m (fst (shr_fexp prec emax m e loc_Exact)) /\ snd (shr_fexp prec emax m e loc_Exact) <= e + 1.
Proof.
  intros Hm Hu He. assert (D : Zdigits2 m <= prec + 1).
  { destruct m as [|p|p]; [cbn; lia| |lia]. cbn [Zdigits2]. apply digits_lt; [lia|]. replace (prec + 1) with (Z.succ prec) by lia.
    rewrite Z.pow_succ_r by lia. assert (0 < 2 ^ prec) by (apply Z.pow_pos_nonneg; lia). lia. }
  unfold shr_fexp, fexp. unfold shr_record_of_loc. remember (Z.max (Zdigits2 m + e - prec) (emin prec emax) - e) as s eqn:Es.
  assert (s <= 1) by lia. destruct s as [|p|p]; cbn [shr fst snd shr_m]; [split; lia| |split; lia].
  split; [|lia]. rewrite iter_pos_nat. apply shr_iter. exact Hm.
Qed.

Lemma aux_finite s m e : 0 < m -> emin prec emax <= e -> prec <= Zdigits2 m -> Zdigits2 m + e < emax ->
  finite_sf (binary_round_aux prec emax s m e loc_Exact).
Proof.
  intros Hm He Hd Hs. unfold binary_round_aux. destruct m as [|p|p]; try lia. cbn [Zdigits2] in *. assert (Dp := digits_bounds p).
  assert (E1 : exists a, shr_fexp prec emax (Zpos p) e loc_Exact = (a, Zpos (digits2_pos p) + e - prec) /\
    shifted (Zpos p) (Z.to_nat (Zpos (digits2_pos p) - prec)) a /\ 0 <= shr_m a).
  { unfold shr_fexp, fexp. cbn [Zdigits2 shr_record_of_loc]. rewrite Z.max_l by lia.
    replace (Zpos (digits2_pos p) + e - prec - e) with (Zpos (digits2_pos p) - prec) by lia.
    destruct (Zpos (digits2_pos p) - prec) as [|q|q] eqn:Eq; [| |lia].
    - exists (Build_shr_record (Zpos p) false false). cbn [shr]. split; [f_equal; lia|]. apply (shr_iter (Zpos p) 0). lia.
    - eexists. cbn [shr]. split; [f_equal; lia|]. rewrite iter_pos_nat. replace (Z.to_nat (Zpos q)) with (Pos.to_nat q) by lia. apply shr_iter. lia. }
  destruct E1 as (a & -> & Ha & Pa). destruct (round_near _ _ _ Ha) as [_ Q]. set (q := round_nearest_even _ _) in *. clearbody q.
  destruct (shr_fexp_bound q (Zpos (digits2_pos p) + e - prec)) as [B1 B2].
  - lia.
  - destruct Ha as (t & Et & Ht & _). set (u := 2 ^ Z.of_nat _) in *. assert (U : 2 ^ Zpos (digits2_pos p) = 2 ^ prec * u).
    { unfold u. rewrite <- Z.pow_add_r by lia. f_equal. lia. }
    assert (0 < u) by (apply Z.pow_pos_nonneg; lia). assert (shr_m a * u < 2 ^ prec * u) by (destruct (shr_r a); nia). nia.
  - lia.
  - destruct (shr_fexp prec emax q (Zpos (digits2_pos p) + e - prec) loc_Exact) as [b e2]. cbn [fst snd] in *.
    destruct (shr_m b) as [|m'|m']; [exact I| |lia]. unfold Zle_bool. destruct (Z.compare_spec e2 (emax - prec)); try exact I. lia.
Qed.

Lemma int_finite w : INT_MIN <= w <= INT_MAX -> finite_sf (bin_of_Z prec emax w).
Proof.
  intros Hw. unfold INT_MIN, INT_MAX in Hw. destruct (Z.lt_ge_cases (Z.abs w) (2 ^ prec)) as [L|L].
  - destruct (R_of_Z prec emax Hprec Hemax 0 ltac:(lia) w) as [H _]; [rewrite Z.pow_0_r, Z.mul_1_r; exact L|].
    destruct (bin_of_Z prec emax w); cbn in *; auto.
  - assert (0 < 2 ^ prec) by (apply Z.pow_pos_nonneg; lia).
    assert (P : forall s p, Zpos p = Z.abs w -> finite_sf (binary_round prec emax s p 0)).
    { intros s p Ep. rewrite <- Ep in L. assert (D := digits_bounds p).
      assert (D1 : prec < Zpos (digits2_pos p)). { apply (Z.pow_lt_mono_r_iff 2); lia. }
      assert (D2 : Zpos (digits2_pos p) <= 32). { apply digits_lt; [lia|]. change (2 ^ 32) with 4294967296. lia. }
      unfold binary_round, shl_align. rewrite !Z.add_0_r. unfold fexp, emin. rewrite Z.max_l by lia.
      destruct (Zpos (digits2_pos p) - prec - 0) as [|q|q] eqn:Eq; try lia. apply aux_finite; unfold emin; cbn [Zdigits2]; lia. }
    unfold bin_of_Z, binary_normalize. destruct w as [|p|p]; [lia| |]; apply P; reflexivity.
Qed.

Lemma R_muli f x w : R f x -> INT_MIN <= w <= INT_MAX -> Z.abs (x * w) < 2 ^ prec -> R (SFmul prec emax f (bin_of_Z prec emax w)) (x * w).
Proof.
  intros Hf Hw B. destruct (Z.eq_dec x 0) as [->|Nx].
  - assert (F := int_finite w Hw). destruct f as [s|s| |s m e]; try (destruct Hf; contradiction).
    + destruct (bin_of_Z prec emax w); try contradiction; cbn [SFmul]; apply R_zero; auto.
    + destruct (mant_big prec emax Hprec k Hk _ _ _ _ Hf) as (_ & _ & _ & P & _). lia.
  - apply R_mul; auto. destruct (R_of_Z prec emax Hprec Hemax 0 ltac:(lia) w) as [H _]; [|rewrite Z.pow_0_r, Z.mul_1_r in H; exact H].
    rewrite Z.pow_0_r, Z.mul_1_r. rewrite Z.abs_mul in B. nia.
Qed.

Lemma B_lt f g x y : R f x -> R g y -> SFltb f g = (x <? y).
Proof. intros H1 H2. unfold SFltb. rewrite (R_compare prec emax Hprec k Hk f g x y H1 H2). unfold Z.ltb. reflexivity. Qed.
Lemma B_le f g x y : R f x -> R g y -> SFleb f g = (x <=? y).
Proof. intros H1 H2. unfold SFleb. rewrite (R_compare prec emax Hprec k Hk f g x y H1 H2). unfold Z.leb. reflexivity. Qed.
Lemma B_eq f g x y : R f x -> R g y -> SFeqb f g = (x =? y).
Proof. intros H1 H2. unfold SFeqb. rewrite (R_compare prec emax Hprec k Hk f g x y H1 H2). rewrite Z.eqb_compare. reflexivity. Qed.

Definition RB (z : Z) (f : spec_float) : Prop := R f z.

Theorem run_solver_bin B fuel n mus oms musf omsf : B < 2 ^ prec ->
  musR RB mus musf -> Forall2 (omR RB) oms omsf ->
  sim (optR RB) (@run_solver_chk Z (exact_ops (2 ^ k)) (within B) fuel n mus oms) (@run_solver spec_float (bin_ops prec emax) fuel n musf omsf).
Proof.
  intros HB HM HO. assert (OK : forall z, within B z = true -> Z.abs z < 2 ^ prec) by (unfold within; intros z H; apply Z.leb_le in H; lia).
  apply (@run_solver_sim Z spec_float (exact_ops (2 ^ k)) (bin_ops prec emax) (within B) RB); auto; unfold RB; cbn [dzero done dadd dsub dopp dmuli dhalf dlt dle deq exact_ops bin_ops].
  - apply R_zero; auto.
  - intros H. apply OK in H. assert (X := R_of_Z prec emax Hprec Hemax k Hk 1). rewrite Z.mul_1_l in X. apply X, H.
  - intros a b a' b' H1 H2 H. apply R_add; auto.
  - intros a b a' b' H1 H2 H. apply R_sub; auto.
  - intros a b H. apply R_opp; auto.
  - intros a b w H Hw Ho. apply R_muli; auto.
  - intros a b H He. apply Z.eqb_eq in He. apply R_half; auto. replace (2 * Z.quot a 2) with a by lia. exact H.
  - intros a b a' b' H1 H2. symmetry. apply B_lt; auto.
  - intros a b a' b' H1 H2. symmetry. apply B_le; auto.
  - intros a b a' b' H1 H2. symmetry. apply B_eq; auto.
Qed.

Lemma bin_related n musf omsf mus oms A :
  bin_problem prec emax k musf omsf mus oms -> well_formed n mus oms -> costs_within n mus oms A -> A < 2 ^ prec ->
  musR RB mus musf /\ Forall2 (omR RB) oms omsf.
Proof.
  intros (P1 & P2 & P3) HW HA HB. destruct (costs_le n mus oms A HW HA) as (_ & C1 & C2). destruct HW as (Hlen & _ & _). split.
  - split; [auto|]. intros i m Hi Em.
    assert (Hin : (i < length mus)%nat) by (apply nth_error_Some; congruence).
    destruct (nth_error musf i) as [mf|] eqn:Ef; [|apply nth_error_None in Ef; lia].
    exists mf. split; [reflexivity|]. assert (HM := P2 i mf m Hi Ef Em). assert (HC := C1 i m).
    destruct mf as [lf uf ff], m as [l u fz]. destruct HM as (M1 & M2 & M3). cbn [m_l m_u m_fn] in *. subst lf uf.
    constructor. intros x Hx z Ez. destruct (M3 x Hx) as (f & z' & Ef' & Ez' & Hf). rewrite Ez in Ez'. injection Ez' as <-.
    exists f. split; [exact Ef'|]. split; [exact Hf|].
    assert (X := HC x ltac:(lia) Em Hx). rewrite (cost_of _ _ _ Ez) in X. lia.
  - clear P1 P2 Hlen C1 HA. induction P3 as [|of_ o omsf oms HO _ IH]; constructor.
    + assert (HC := C2 o). destruct of_ as [lf uf ff i_ j_], o as [l u fz i j]. destruct HO as (M1 & M2 & M3 & M4 & M5). cbn [o_l o_u o_fn o_i o_j] in *. subst lf uf i_ j_.
      constructor. intros x Hx z Ez. destruct (M5 x Hx) as (f & z' & Ef' & Ez' & Hf). rewrite Ez in Ez'. injection Ez' as <-.
      exists f. split; [exact Ef'|]. split; [exact Hf|].
      assert (X := HC x ltac:(simpl; auto) Hx). rewrite (cost_of _ _ _ Ez) in X. lia.
    + apply IH. intros; apply C2; simpl; auto.
Qed.

Theorem bin_exact n musf omsf mus oms K A fuel :
  bin_problem prec emax k musf omsf mus oms -> admissible n mus oms K -> costs_within n mus oms A ->
  run_bound n (length oms) K (2 ^ k) A < 2 ^ prec -> solver_fuel n (length oms) K <= Z.of_nat fuel ->
  bin_solution prec emax k n mus oms (@run_solver spec_float (bin_ops prec emax) fuel (Z.of_nat n) musf omsf).
Proof.
  intros HP (HW & HBd & HK & HI) HA HB Hf.
  assert (H1 : 0 < 2 ^ k) by (apply Z.pow_pos_nonneg; lia).
  destruct (costs_le n mus oms A HW HA) as (HA0 & _).
  assert (HAB := run_bound_ge n (length oms) K (2 ^ k) A HK H1 HA0).
  destruct (bin_related n musf omsf mus oms A HP HW HA ltac:(lia)) as [HR1 HR2].
  destruct (run_solver_chk_ok (2 ^ k) n mus oms K A fuel H1 HW HBd HK HI HA Hf) as (r & Er).
  destruct (run_solver_ok (2 ^ k) n mus oms K fuel H1 HW HBd HK HI Hf) as (r' & Er' & Hs).
  rewrite (run_solver_chk_eq _ _ _ _ _ _ _ Er) in Er'. injection Er' as <-.
  destruct (run_solver_bin _ fuel (Z.of_nat n) mus oms musf omsf HB HR1 HR2 _ Er) as (rf & Ef & HRf).
  destruct r as [v|], rf as [f|]; cbn [optR] in HRf; try contradiction.
  - left. exists f, v. split; [exact Ef|]. split; [apply HRf|exact Hs].
  - right. split; [exact Ef|exact Hs].
Qed.

End Format.
