(** * The numbers drawn with [std::pow] *)
From Coq Require Import Floats.SpecFloat.
From Verif Require Import Base BaseLemmas Data ProblemDefine CostScaling Generator GenMore GenFar Spec GenSpec GenMoreSpec FloatSpec GenFarSpec FloatExact FloatRound WrappedLaws GenRng.
Local Open Scope Z_scope.

(** ** The bits of next() *)
Lemma first_zero s : 0 <= s < 2 ^ 22 -> (s * rng_multiplier + rng_addend) mod 2 ^ 48 < 2 ^ 21 -> s = 0.
Proof.
  intros Hs Ht. unfold rng_multiplier, rng_addend in *. assert (B := Z.mod_pos_bound (s * 25214903917 + 11) (2 ^ 48) ltac:(lia)).
  assert (E := Z.div_mod (s * 25214903917 + 11) (2 ^ 48) ltac:(lia)). remember ((s * 25214903917 + 11) / 2 ^ 48) as k eqn:Ek.
  remember ((s * 25214903917 + 11) mod 2 ^ 48) as t eqn:Et. clear Ek Et.
  change (2 ^ 48) with 281474976710656 in *. change (2 ^ 22) with 4194304 in *. change (2 ^ 21) with 2097152 in *.
  assert (U : 1632 * s - 18218081 * k = 0) by lia. assert (V : 703 * s - 7847617 * k = 0) by lia. lia.
Qed.

Lemma unit_bits_eq s : exists z, unit_bits s = (z, rng_step (rng_step s)) /\ 0 <= z < 2 ^ 53 /\ (z = 0 -> rng_step s = 0).
Proof.
  unfold unit_bits, next_bits. change (48 - 26) with 22. change (48 - 27) with 21. eexists. split; [reflexivity|].
  assert (H1 := step_ok s). assert (H2 := step_ok (rng_step s)). set (t := rng_step s) in *. rewrite step_eq in *.
  set (u := (t * rng_multiplier + rng_addend) mod 2 ^ 48) in *. unfold rng_ok in *.
  rewrite Z.shiftl_mul_pow2, !Z.shiftr_div_pow2 by lia.
  assert (A := Z.div_mod t (2 ^ 22) ltac:(lia)). assert (A' := Z.mod_pos_bound t (2 ^ 22) ltac:(lia)).
  assert (B := Z.div_mod u (2 ^ 21) ltac:(lia)). assert (B' := Z.mod_pos_bound u (2 ^ 21) ltac:(lia)).
  remember (t / 2 ^ 22) as x. remember (u / 2 ^ 21) as y. remember (t mod 2 ^ 22) as x'. remember (u mod 2 ^ 21) as y'.
  split; [lia|]. intros Hz. apply first_zero; [lia|]. fold u. lia.
Qed.

(** ** Doubles *)
Lemma nearest_exact V W : nearest V W -> (ulp V | V) -> W = V.
Proof.
  intros HN [t Ht]. assert (A := nearest_ge V W t HN ltac:(lia)). assert (B := nearest_le V W t HN ltac:(lia)). lia.
Qed.

Lemma is53_fin p P : f64_is 53 p P -> fin p /\ fv p = P * 2 ^ 1021.
Proof.
  destruct p as [s|s| |s m e]; cbn [f64_is fin fv]; try contradiction; [intros ->; split; [exact I|lia]|]. intros [Hv H]. split; [exact Hv|].
  cbn [valid_binary] in Hv. apply bounded_range in Hv. destruct (Z.le_gt_cases 0 (e + 53)) as [C|C].
  - rewrite Z.max_r, Z.max_l in H by lia. rewrite Z.pow_0_r, Z.mul_1_r in H. rewrite <- H, <- Z.mul_assoc, <- Z.pow_add_r by lia. do 2 f_equal. lia.
  - rewrite Z.max_l, Z.max_r in H by lia. rewrite Z.pow_0_r, Z.mul_1_r in H. rewrite H, <- Z.mul_assoc, <- Z.pow_add_r by lia. do 2 f_equal. lia.
Qed.

Lemma of_Z_fin n : Z.abs n < 2 ^ 53 -> fin (f64_of_Z n) /\ fv (f64_of_Z n) = n * 2 ^ 1074.
Proof.
  intros Hn. assert (H := R_of_Z 0 ltac:(lia) n ltac:(rewrite Z.pow_0_r; lia)). apply R_fin in H; [|lia]. rewrite Z.pow_0_r, Z.mul_1_r in H. exact H.
Qed.


(** a positive number with 53 binary digits *)
Definition plain (f : spec_float) (m : positive) (e : Z) : Prop :=
  f = S754_finite false m e /\ Zpos (digits2_pos m) = 53 /\ -105 <= e <= 0.

Lemma plain_of n : 0 < n < 2 ^ 53 -> exists m e, plain (f64_of_Z n) m e.
Proof.
  intros Hn. unfold f64_of_Z. rewrite (norm_exact 0 ltac:(lia) n 0 n); [|lia|unfold vl; reflexivity].
  unfold canon. rewrite (proj2 (Z.eqb_neq n 0)), (proj2 (Z.ltb_ge n 0)), Z.abs_eq by lia.
  destruct (cm_pos n Hn) as (q & Eq & Dq). destruct (zd_bounds n Hn) as [_ D].
  exists (Z.to_pos (cm n)), (ce 0 n). split; [reflexivity|]. rewrite Eq. cbn [Z.to_pos]. split; [exact Dq|]. unfold ce. lia.
Qed.

Lemma plain_53 p P : f64_is 53 p P -> 0 < P <= 2 ^ 53 -> exists m e, plain p m e.
Proof.
  intros H HP. destruct (is53_fin p P H) as [Hf Hv]. destruct p as [s|s| |s m e]; cbn [f64_is fin fv] in *; try contradiction; try lia.
  cbn [valid_binary] in Hf. apply bounded_range in Hf. assert (X := Z.pow_pos_nonneg 2 (e + 1074) ltac:(lia) ltac:(lia)). assert (Y := Z.pow_pos_nonneg 2 1021 ltac:(lia) ltac:(lia)).
  assert (Q : 0 < P * 2 ^ 1021) by (apply Z.mul_pos_pos; lia). assert (s = false) as -> by (destruct s; [rewrite cond_mul in Hv; cbn [cond_Zopp] in Hv; lia|reflexivity]).
  cbn [cond_Zopp] in Hv. assert (D := digits_bounds m). clear X Q.
  assert (A0 : -1074 < e).
  { destruct (Z.eq_dec e (-1074)) as [->|N]; [exfalso|lia]. change (-1074 + 1074) with 0 in Hv. rewrite Z.pow_0_r in Hv.
    assert (2 ^ Zpos (digits2_pos m) <= 2 ^ 53) by (apply Z.pow_le_mono_r; lia). assert (2 ^ 53 < 2 ^ 1021) by (apply Z.pow_lt_mono_r; lia). lia. }
  destruct Hf as (_ & _ & D53). specialize (D53 A0). rewrite D53 in D. change (2 ^ (53 - 1)) with (2 ^ 52) in D.
  exists m, e. split; [reflexivity|]. split; [exact D53|]. split.
  - destruct (Z.le_gt_cases (-105) e) as [C|C]; [exact C|exfalso].
    assert (A1 : 2 ^ (e + 1074) <= 2 ^ 968) by (apply Z.pow_le_mono_r; lia).
    assert (A2 : Zpos m * 2 ^ (e + 1074) <= Zpos m * 2 ^ 968) by (apply Z.mul_le_mono_nonneg_l; lia).
    assert (A3 : 2 ^ 1021 = 2 ^ 53 * 2 ^ 968) by (rewrite <- Z.pow_add_r by lia; reflexivity). assert (P968 := Z.pow_pos_nonneg 2 968 ltac:(lia) ltac:(lia)).
    rewrite A3 in Hv. remember (2 ^ 968) as w. clear - A2 Hv HP D P968. assert (Zpos m * w < 2 ^ 53 * w) by (apply Z.mul_lt_mono_pos_r; lia). nia.
  - destruct (Z.le_gt_cases e 0) as [C|C]; [exact C|exfalso].
    assert (A1 : 2 ^ 1075 <= 2 ^ (e + 1074)) by (apply Z.pow_le_mono_r; lia).
    assert (A2 : Zpos m * 2 ^ 1075 <= Zpos m * 2 ^ (e + 1074)) by (apply Z.mul_le_mono_nonneg_l; lia).
    assert (A3 : 2 ^ 1075 = 2 ^ 54 * 2 ^ 1021) by (rewrite <- Z.pow_add_r by lia; reflexivity). rewrite A3 in A2.
    remember (2 ^ 1021) as w. clear - A2 Hv HP D Y. nia.
Qed.

Lemma plain_fv f m e : plain f m e -> fv f = Zpos m * 2 ^ (e + 1074).
Proof. intros (-> & _). reflexivity. Qed.

(** the product of two such numbers is rounded to nearest *)
Lemma mul_nearest f g m e m' e' : plain f m e -> plain g m' e' ->
  fin (SFmul f64_prec f64_emax f g) /\ nearest (Zpos m * Zpos m' * 2 ^ (e + e' + 1074)) (fv (SFmul f64_prec f64_emax f g)).
Proof.
  intros (-> & D1 & E1) (-> & D2 & E2). cbn [SFmul xorb].
  assert (B1 := digits_bounds m). assert (B2 := digits_bounds m'). rewrite D1 in B1. rewrite D2 in B2.
  assert (B := digits_bounds (m * m')). assert (DD : 105 <= Zpos (digits2_pos (m * m')) <= 106).
  { rewrite Pos2Z.inj_mul in B. set (d := Zpos (digits2_pos (m * m'))) in *. assert (0 < d) by (unfold d; lia).
    assert (L : 2 ^ 52 * 2 ^ 52 <= Zpos m * Zpos m') by (apply Z.mul_le_mono_nonneg; lia). assert (U : Zpos m * Zpos m' < 2 ^ 53 * 2 ^ 53) by (apply Z.mul_lt_mono_nonneg; lia).
    rewrite <- Z.pow_add_r in L, U by lia. split.
    - destruct (Z.le_gt_cases 105 d) as [C|C]; [exact C|exfalso]. assert (2 ^ d <= 2 ^ (52 + 52)) by (apply Z.pow_le_mono_r; lia). lia.
    - destruct (Z.le_gt_cases d 106) as [C|C]; [exact C|exfalso]. assert (2 ^ (53 + 53) <= 2 ^ (d - 1)) by (apply Z.pow_le_mono_r; lia). lia. }
  assert (RR : binary_round_aux f64_prec f64_emax false (Zpos (m * m')) (e + e') loc_Exact = binary_round 53 1024 false (m * m') (e + e')).
  { unfold binary_round. rewrite fexp_eq. unfold shl_align. set (d := Zpos (digits2_pos (m * m'))) in *.
    destruct (Z.max (d + (e + e') - 53) (-1074) - (e + e')) eqn:Ez; try reflexivity. lia. }
  rewrite RR. assert (X := round_nearest false (m * m') (e + e') ltac:(lia) ltac:(lia)). cbn [cond_Zopp] in X. rewrite Pos2Z.inj_mul in X. exact X.
Qed.

Lemma to_int_ok f : fin f -> 0 <= fv f -> fv f <= INT_MAX * 2 ^ 1074 -> f64_to_int f = Ok (fv f / 2 ^ 1074).
Proof.
  assert (P0 := Z.pow_pos_nonneg 2 1074 ltac:(lia) ltac:(lia)).
  destruct f as [s|s| |s m e]; cbn [fin fv f64_to_int]; try contradiction; [intros _ _ _; rewrite Z.div_0_l by lia; reflexivity|].
  intros Hf H0 HU. cbn [valid_binary] in Hf. apply bounded_range in Hf. assert (X := Z.pow_pos_nonneg 2 (e + 1074) ltac:(lia) ltac:(lia)).
  assert (s = false) as -> by (destruct s; [rewrite cond_mul in H0; cbn [cond_Zopp] in H0; lia|reflexivity]). cbn [cond_Zopp] in *.
  assert (E : (if 0 <=? e then Zpos m * 2 ^ e else Zpos m / 2 ^ (- e)) = Zpos m * 2 ^ (e + 1074) / 2 ^ 1074).
  { destruct (Z.leb_spec 0 e) as [C|C].
    - rewrite Z.pow_add_r, Z.mul_assoc, Z.div_mul by lia. reflexivity.
    - replace (2 ^ 1074) with (2 ^ (- e) * 2 ^ (e + 1074)) by (rewrite <- Z.pow_add_r by lia; f_equal; lia).
      rewrite Z.div_mul_cancel_r; [reflexivity|apply Z.pow_nonzero; lia|lia]. }
  rewrite E. apply ck_ok.
  assert (L : 0 <= Zpos m * 2 ^ (e + 1074) / 2 ^ 1074) by (apply Z.div_pos; lia).
  assert (U : Zpos m * 2 ^ (e + 1074) / 2 ^ 1074 <= INT_MAX) by (apply Z.div_le_upper_bound; lia).
  unfold INT_MIN. lia.
Qed.

(** n times a number of the form P / 2^53 as an int *)
Lemma mul_int n p P : 0 < n <= INT_MAX -> f64_is 53 p P -> 0 <= P <= 2 ^ 53 ->
  exists t, f64_to_int (SFmul f64_prec f64_emax (f64_of_Z n) p) = Ok t /\ 0 <= t <= n /\
    (P = 0 -> t = 0) /\ ((n - 1) * 2 ^ 53 <= n * P -> n - 1 <= t) /\ (n * P < 2 ^ 53 -> t = 0).
Proof.
  intros Hn HF HP. assert (Hn53 : 0 < n < 2 ^ 53) by (unfold INT_MAX in Hn; lia). destruct (plain_of n Hn53) as (m & e & H1). destruct (Z.eq_dec P 0) as [->|NP].
  - exists 0. destruct (is53_fin p 0 HF) as [Hf Hv]. assert (exists s, p = S754_zero s) as [s ->].
    { destruct p as [s|s| |s m' e']; cbn [fin fv] in *; try contradiction; [eexists; reflexivity|exfalso]. cbn [valid_binary] in Hf. apply bounded_range in Hf.
      assert (X := fv_sign s m' e' ltac:(lia)). cbn [fv] in X. destruct s; lia. }
    destruct H1 as (-> & _). cbn [SFmul f64_to_int]. repeat split; lia.
  - destruct (plain_53 p P HF ltac:(lia)) as (m' & e' & H2). destruct (mul_nearest _ _ _ _ _ _ H1 H2) as [Hfin HN].
    destruct (of_Z_fin n ltac:(lia)) as [Fn Vn]. destruct (is53_fin p P HF) as [Fp Vp].
    assert (A1 := plain_fv _ _ _ H1). assert (A2 := plain_fv _ _ _ H2). rewrite Vn in A1. rewrite Vp in A2.
    assert (EV : Zpos m * Zpos m' * 2 ^ (e + e' + 1074) = n * P * 2 ^ 1021).
    { apply (Z.mul_cancel_r _ _ (2 ^ 1074)); [apply Z.pow_nonzero; lia|].
      replace (Zpos m * Zpos m' * 2 ^ (e + e' + 1074) * 2 ^ 1074) with ((Zpos m * 2 ^ (e + 1074)) * (Zpos m' * 2 ^ (e' + 1074))).
      - rewrite <- A1, <- A2. ring.
      - destruct H1 as (_ & _ & He). destruct H2 as (_ & _ & He'). rewrite <- !Z.mul_assoc, <- Z.pow_add_r by lia. rewrite (Z.mul_comm (2 ^ (e + 1074))), <- !Z.mul_assoc, <- Z.pow_add_r by lia. do 3 f_equal. lia. }
    rewrite EV in HN. set (W := fv (SFmul f64_prec f64_emax (f64_of_Z n) p)) in *.
    assert (S53 : 2 ^ 1074 = 2 ^ 53 * 2 ^ 1021) by (rewrite <- Z.pow_add_r by lia; reflexivity).
    assert (P21 := Z.pow_pos_nonneg 2 1021 ltac:(lia) ltac:(lia)). remember (2 ^ 1021) as w eqn:Ew.
    assert (W0 : 0 <= W) by (apply (round_ge (S754_zero false) (n * P * w)); [exact I|cbn [fv]; apply Z.mul_nonneg_nonneg; nia|exact HN]).
    assert (Wn : W <= n * 2 ^ 1074) by (rewrite <- Vn; apply (round_le (f64_of_Z n) (n * P * w)); [exact Fn|rewrite Vn, S53; nia|exact HN]).
    assert (P74 : 0 < 2 ^ 1074) by (apply Z.pow_pos_nonneg; lia).
    exists (W / 2 ^ 1074). split; [apply to_int_ok; [exact Hfin|exact W0|]; fold W; unfold INT_MAX in *; nia|].
    split; [split; [apply Z.div_pos; lia|apply Z.div_le_upper_bound; lia]|]. split; [lia|]. split.
    + intros HL. destruct (of_Z_fin (n - 1) ltac:(lia)) as [Fn1 Vn1]. apply Z.div_le_lower_bound; [lia|]. rewrite Z.mul_comm, <- Vn1.
      apply (round_ge (f64_of_Z (n - 1)) (n * P * w)); [exact Fn1|rewrite Vn1, S53; nia|exact HN].
    + intros HL. apply Z.div_small. split; [exact W0|]. apply Z.le_lt_trans with ((2 ^ 53 - 1) * w); [|rewrite S53; nia].
      assert (Q : fin (S754_finite false (2 ^ 53 - 1) (-53)) /\ fv (S754_finite false (2 ^ 53 - 1) (-53)) = (2 ^ 53 - 1) * w) by (rewrite Ew; split; reflexivity).
      destruct Q as [Q1 Q2]. rewrite <- Q2. apply (round_le _ (n * P * w)); [exact Q1|rewrite Q2; nia|exact HN].
Qed.

(** 1 - P / 2^53 is exact for P at least one half *)
Lemma one_minus p P : f64_is 53 p P -> 2 ^ 52 <= P <= 2 ^ 53 -> f64_is 53 (SFsub f64_prec f64_emax (f64_of_Z 1) p) (2 ^ 53 - P).
Proof.
  intros HF HP. destruct (of_Z_fin 1 ltac:(lia)) as [F1 V1]. destruct (is53_fin p P HF) as [Fp Vp].
  assert (S53 : 2 ^ 1074 = 2 ^ 53 * 2 ^ 1021) by (rewrite <- Z.pow_add_r by lia; reflexivity).
  assert (EV : fv (f64_of_Z 1) - fv p = (2 ^ 53 - P) * 2 ^ 1021) by (rewrite V1, Vp, S53; ring).
  assert (P21 := Z.pow_pos_nonneg 2 1021 ltac:(lia) ltac:(lia)).
  destruct (sub_nearest (f64_of_Z 1) p F1 Fp) as [Hf HN].
  { rewrite EV. unfold big. assert (2 ^ 2097 = 2 ^ 1076 * 2 ^ 1021) by (rewrite <- Z.pow_add_r by lia; reflexivity).
    assert (2 ^ 53 < 2 ^ 1076) by (apply Z.pow_lt_mono_r; lia). rewrite Z.abs_eq by (apply Z.mul_nonneg_nonneg; lia). rewrite H. apply Z.mul_lt_mono_pos_r; lia. }
  rewrite EV in HN. set (D := 2 ^ 53 - P) in *. assert (HD : 0 <= D <= 2 ^ 52) by (unfold D; lia). clearbody D.
  apply nearest_exact in HN.
  - set (f := SFsub f64_prec f64_emax (f64_of_Z 1) p) in *. clearbody f. destruct f as [s|s| |s m e]; cbn [fin fv f64_is] in *; try contradiction.
    + nia.
    + split; [exact Hf|]. cbn [valid_binary] in Hf. apply bounded_range in Hf. destruct (Z.le_gt_cases 0 (e + 53)) as [C|C].
      * rewrite Z.max_r, Z.max_l by lia. rewrite Z.pow_0_r, Z.mul_1_r. apply (Z.mul_cancel_r _ _ (2 ^ 1021)); [lia|]. rewrite <- HN, <- Z.mul_assoc, <- Z.pow_add_r by lia. do 2 f_equal. lia.
      * rewrite Z.max_l, Z.max_r by lia. rewrite Z.pow_0_r, Z.mul_1_r. apply (Z.mul_cancel_r _ _ (2 ^ (e + 1074))); [apply Z.pow_nonzero; lia|].
        rewrite HN, <- Z.mul_assoc, <- Z.pow_add_r by lia. do 2 f_equal. lia.
  - destruct (Z.eq_dec D 0) as [->|ND]; [exists 0; reflexivity|]. unfold ulp. destruct D as [|d|d]; try lia.
    rewrite digits_scale by lia. assert (DB := digits_bounds d).
    assert (Zpos (digits2_pos d) <= 53). { destruct (Z.le_gt_cases (Zpos (digits2_pos d)) 53) as [C|C]; [exact C|exfalso]. assert (2 ^ 53 <= 2 ^ (Zpos (digits2_pos d) - 1)) by (apply Z.pow_le_mono_r; lia). lia. }
    exists (Zpos d * 2 ^ (1021 - Z.max 0 (Zpos (digits2_pos d) + 1021 - 53))). rewrite <- Z.mul_assoc, <- Z.pow_add_r by lia. do 2 f_equal. lia.
Qed.

(** ** next() *)
Lemma div_unit m e : Zpos (digits2_pos m) = 53 -> -105 <= e <= 0 ->
  SFdiv f64_prec f64_emax (S754_finite false m e) (f64_of_Z (2 ^ 53)) = S754_finite false m (e - 53).
Proof.
  intros Dm He. change (f64_of_Z (2 ^ 53)) with (S754_finite false 4503599627370496 1). cbn [SFdiv xorb]. unfold SFdiv_core_binary. cbn [Zdigits2]. rewrite Dm.
  change (Zpos (digits2_pos 4503599627370496)) with 53. change f64_prec with 53. change f64_emax with 1024. rewrite fexp_eq.
  replace (Z.min (Z.max (53 + e - (53 + 1) - 53) (-1074)) (e - 1)) with (e - 54) by lia. replace (e - 1 - (e - 54)) with 53 by lia. cbv iota. rewrite Z.shiftl_mul_pow2 by lia.
  assert (Eq : Z.div_eucl (Zpos m * 2 ^ 53) 4503599627370496 = (2 * Zpos m, 0)).
  { assert (X := Z_div_mod (Zpos m * 2 ^ 53) 4503599627370496 ltac:(lia)).
    destruct (Z.div_eucl (Zpos m * 2 ^ 53) 4503599627370496) as [q r]. destruct X as [X Y]. assert (q = 2 * Zpos m) by lia. f_equal; lia. }
  rewrite Eq. change (new_location 4503599627370496 0) with loc_Exact. change (2 * Zpos m) with (Zpos (xO m)). unfold binary_round_aux.
  assert (E1 : shr_fexp 53 1024 (Zpos (xO m)) (e - 54) loc_Exact = (Build_shr_record (Zpos m) false false, e - 53)).
  { unfold shr_fexp. cbn [Zdigits2 shr_record_of_loc]. cbn [digits2_pos]. rewrite Pos2Z.inj_succ, Dm, fexp_eq.
    replace (Z.max (Z.succ 53 + (e - 54) - 53) (-1074) - (e - 54)) with 1 by lia. cbn [shr SpecFloat.iter_pos shr_1]. f_equal. lia. }
  rewrite E1. cbn [shr_m loc_of_shr_record round_nearest_even].
  assert (E2 : shr_fexp 53 1024 (Zpos m) (e - 53) loc_Exact = (Build_shr_record (Zpos m) false false, e - 53)).
  { unfold shr_fexp. cbn [Zdigits2 shr_record_of_loc]. rewrite Dm, fexp_eq. replace (Z.max (53 + (e - 53) - 53) (-1074) - (e - 53)) with 0 by lia. reflexivity. }
  rewrite E2. cbn [shr_m]. replace (Zle_bool (e - 53) (1024 - 53)) with true by (symmetry; apply Zle_is_le_bool; lia). reflexivity.
Qed.

Lemma unit_of_is z : 0 < z < 2 ^ 53 -> f64_is 53 (unit_of z) z.
Proof.
  intros Hz. destruct (plain_of z Hz) as (m & e & Hp). assert (Hv := plain_fv _ _ _ Hp). destruct (of_Z_fin z ltac:(lia)) as [_ Vz]. rewrite Vz in Hv.
  destruct Hp as (Ez & Dm & He). unfold unit_of. rewrite Ez, div_unit by assumption.
  set (f := S754_finite false m (e - 53)). assert (Ff : fin f).
  { unfold f. cbn [fin valid_binary]. apply bounded_iff. rewrite Dm, fexp_eq. lia. }
  assert (P21 := Z.pow_pos_nonneg 2 1021 ltac:(lia) ltac:(lia)).
  assert (Vf : fv f = z * 2 ^ 1021).
  { unfold f. cbn [fv cond_Zopp]. apply (Z.mul_cancel_r _ _ (2 ^ 53)); [lia|]. rewrite <- !Z.mul_assoc, <- !Z.pow_add_r by lia.
    replace (e - 53 + 1074 + 53) with (e + 1074) by lia. rewrite <- Hv. reflexivity. }
  destruct (of_Z_fin 0 ltac:(lia)) as [F0 V0]. destruct (of_Z_fin 1 ltac:(lia)) as [F1 V1].
  assert (S53 : 2 ^ 1074 = 2 ^ 53 * 2 ^ 1021) by (rewrite <- Z.pow_add_r by lia; reflexivity). rewrite S53 in V1.
  unfold crop_unit. rewrite (fv_lt (f64_of_Z 0) f F0 Ff), V0, Vf, Z.mul_0_l, (proj2 (Z.ltb_lt _ _)) by (apply Z.mul_pos_pos; lia). cbv iota zeta.
  assert (LT : z * 2 ^ 1021 < 1 * (2 ^ 53 * 2 ^ 1021)) by nia.
  rewrite (fv_lt f (f64_of_Z 1) Ff F1), V1, Vf, (proj2 (Z.ltb_lt _ _)) by exact LT. cbv iota.
  rewrite (fv_le (f64_of_Z 1) f F1 Ff), V1, Vf, (proj2 (Z.leb_gt _ _)) by exact LT.
  unfold f. cbn [f64_is]. split; [exact Ff|]. cbn [cond_Zopp]. replace (e - 53 + 53) with e by lia. rewrite Z.max_l, Z.max_r by lia.
  rewrite Z.pow_0_r, Z.mul_1_r. apply (Z.mul_cancel_r _ _ (2 ^ (e + 1074))); [apply Z.pow_nonzero; lia|]. rewrite <- Hv, <- Z.mul_assoc, <- Z.pow_add_r by lia. do 2 f_equal. lia.
Qed.

Lemma unit_of_0 : SFeqb (unit_of 0) (f64_of_Z 0) = true.
Proof. reflexivity. Qed.

(** ** The 100001st root *)
(** a lower bound on (b / a) ^ k in units of 1 / s *)
Fixpoint low_pow (a b s : Z) (k : positive) : Z :=
  match k with
  | xH => b * s / a
  | xO k' => let c := low_pow a b s k' in c * c / s
  | xI k' => let c := low_pow a b s k' in (c * c / s) * b / a
  end.

Lemma low_pow_ok a b s k : 0 < a -> 0 < b -> 0 < s -> 0 <= low_pow a b s k /\ low_pow a b s k * a ^ Zpos k <= s * b ^ Zpos k.
Proof.
  intros Ha Hb Hs. induction k as [k [H0 IH]|k [H0 IH]|]; cbn [low_pow]; cbv zeta.
  - set (c := low_pow a b s k) in *. assert (Pa := Z.pow_pos_nonneg a (Zpos k) Ha ltac:(lia)). assert (Pb := Z.pow_pos_nonneg b (Zpos k) Hb ltac:(lia)).
    assert (D0 : 0 <= c * c / s) by (apply Z.div_pos; nia). assert (D1 := Z.mul_div_le (c * c) s Hs). set (d := c * c / s) in *.
    assert (E0 : 0 <= d * b / a) by (apply Z.div_pos; nia). assert (E1 := Z.mul_div_le (d * b) a Ha). set (e := d * b / a) in *. split; [exact E0|].
    replace (Zpos k~1) with (Zpos k + Zpos k + 1) by lia. rewrite !Z.pow_add_r, !Z.pow_1_r by lia. set (x := a ^ Zpos k) in *. set (y := b ^ Zpos k) in *.
    assert (A1 : (c * x) * (c * x) <= (s * y) * (s * y)) by (apply Z.mul_le_mono_nonneg; nia).
    assert (A2 : s * d * (x * x) <= c * c * (x * x)) by (apply Z.mul_le_mono_nonneg_r; nia).
    assert (A3 : s * (d * (x * x)) <= s * (s * (y * y))) by lia. apply Z.mul_le_mono_pos_l in A3; [|exact Hs].
    assert (A4 : a * e * (x * x) <= d * b * (x * x)) by (apply Z.mul_le_mono_nonneg_r; nia).
    assert (A5 : b * (d * (x * x)) <= b * (s * (y * y))) by (apply Z.mul_le_mono_nonneg_l; lia). lia.
  - set (c := low_pow a b s k) in *. assert (Pa := Z.pow_pos_nonneg a (Zpos k) Ha ltac:(lia)). assert (Pb := Z.pow_pos_nonneg b (Zpos k) Hb ltac:(lia)).
    assert (D0 : 0 <= c * c / s) by (apply Z.div_pos; nia). assert (D1 := Z.mul_div_le (c * c) s Hs). set (d := c * c / s) in *. split; [exact D0|].
    replace (Zpos k~0) with (Zpos k + Zpos k) by lia. rewrite !Z.pow_add_r by lia. set (x := a ^ Zpos k) in *. set (y := b ^ Zpos k) in *.
    assert (A1 : (c * x) * (c * x) <= (s * y) * (s * y)) by (apply Z.mul_le_mono_nonneg; nia).
    assert (A2 : s * d * (x * x) <= c * c * (x * x)) by (apply Z.mul_le_mono_nonneg_r; nia).
    assert (A3 : s * (d * (x * x)) <= s * (s * (y * y))) by lia. apply Z.mul_le_mono_pos_l in A3; [exact A3|exact Hs].
  - rewrite !Z.pow_1_r. split; [apply Z.div_pos; nia|]. assert (X := Z.mul_div_le (b * s) a Ha). lia.
Qed.

Lemma small_root : 2 * 2700 ^ 1873 < 2701 ^ 1873.
Proof.
  destruct (low_pow_ok 2700 2701 (2 ^ 40) 1873 eq_refl eq_refl eq_refl) as [_ H].
  assert (L : 2 ^ 41 + 1 <= low_pow 2700 2701 (2 ^ 40) 1873) by (apply Z.leb_le; reflexivity). assert (P := Z.pow_pos_nonneg 2700 1873 eq_refl ltac:(discriminate)).
  generalize dependent (2700 ^ 1873). generalize dependent (2701 ^ 1873). generalize dependent (low_pow 2700 2701 (2 ^ 40) 1873). intros c L x a H P.
  assert ((2 ^ 41 + 1) * a <= c * a) by (apply Z.mul_le_mono_nonneg_r; lia). lia.
Qed.


Lemma many_roots a b k j r : 0 < a -> a <= b -> 0 <= k -> 0 <= j -> 0 <= r -> 0 < j -> 2 * a ^ k < b ^ k -> 2 ^ j * a ^ (k * j + r) < b ^ (k * j + r).
Proof.
  intros Ha Hb Hk Hj Hr Hj0 H. assert (Ha0 : 0 <= a) by lia. assert (Hb0 : 0 <= b) by lia. assert (P := Z.pow_nonneg a k Ha0).
  assert (A : (2 * a ^ k) ^ j < (b ^ k) ^ j) by (apply Z.pow_lt_mono_l; [assumption|split; [apply Z.mul_nonneg_nonneg; [discriminate|exact P]|exact H]]).
  rewrite Z.pow_mul_l, <- !Z.pow_mul_r in A by assumption.
  assert (B : a ^ r <= b ^ r) by (apply Z.pow_le_mono_l; split; assumption). assert (C : 0 < a ^ r) by (apply Z.pow_pos_nonneg; assumption).
  rewrite !Z.pow_add_r by (try apply Z.mul_nonneg_nonneg; assumption). rewrite Z.mul_assoc.
  assert (Q : 0 <= b ^ (k * j)) by (apply Z.pow_nonneg; assumption).
  apply Z.lt_le_trans with (b ^ (k * j) * a ^ r); [apply Z.mul_lt_mono_pos_r; assumption|apply Z.mul_le_mono_nonneg_l; assumption].
Qed.

Lemma small_root_all : 2 ^ 53 * 2700 ^ root_degree < 2701 ^ root_degree.
Proof. exact (many_roots 2700 2701 1873 53 732 eq_refl ltac:(discriminate) ltac:(discriminate) ltac:(discriminate) ltac:(discriminate) eq_refl small_root). Qed.

Lemma root_near N z P : 1 <= N -> 2 ^ 53 * 2700 ^ N < 2701 ^ N -> 0 < z -> P <= 2 ^ 53 -> 0 <= P ->
  z * 2 ^ (53 * (N - 1)) <= (P + 2 ^ 13) ^ N -> 2700 * (2 ^ 53 - P) < 2 ^ 53.
Proof.
  intros HN S Hz HP H0 H. destruct (Z.lt_ge_cases (2700 * (2 ^ 53 - P)) (2 ^ 53)) as [C|C]; [exact C|exfalso].
  assert (A : 2701 * (P + 2 ^ 13) <= 2700 * 2 ^ 53) by lia.
  assert (B : (2701 * (P + 2 ^ 13)) ^ N <= (2700 * 2 ^ 53) ^ N) by (apply Z.pow_le_mono_l; lia).
  rewrite !Z.pow_mul_l in B.
  assert (E : (2 ^ 53) ^ N = 2 ^ 53 * 2 ^ (53 * (N - 1))) by (rewrite <- Z.pow_mul_r, <- Z.pow_add_r by lia; f_equal; lia).
  rewrite E in B. clear E A C. assert (T : 0 < 2 ^ (53 * (N - 1))) by (apply Z.pow_pos_nonneg; lia).
  assert (Pa : 0 <= 2700 ^ N) by (apply Z.pow_nonneg; lia). assert (Pb : 0 <= 2701 ^ N) by (apply Z.pow_nonneg; lia).
  remember (2 ^ (53 * (N - 1))) as u. remember (2700 ^ N) as a. remember (2701 ^ N) as b. remember ((P + 2 ^ 13) ^ N) as w.
  clear Hequ Heqa Heqb Heqw. assert (X : b * u <= b * w) by (apply Z.mul_le_mono_nonneg_l; [lia|nia]).
  assert (Y : 2 ^ 53 * a * u < b * u) by (apply Z.mul_lt_mono_pos_r; lia). lia.
Qed.

Lemma root_near_1 z P : 0 < z -> P <= 2 ^ 53 -> 0 <= P -> z * 2 ^ (53 * (root_degree - 1)) <= (P + 2 ^ 13) ^ root_degree -> 2700 * (2 ^ 53 - P) < 2 ^ 53.
Proof. apply root_near; [unfold root_degree; discriminate|exact small_root_all]. Qed.
