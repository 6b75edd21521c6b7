(** * Sums and differences of all finite doubles: rounded, or an infinity *)
From Coq Require Import Floats.SpecFloat.
From Verif Require Import Base Data BaseLemmas WrappedDouble FloatSpec FloatExact FloatRound WrappedSpec.
Local Open Scope Z_scope.

(** a sum of at least this size rounds to an infinity: half a unit in the last
    place above the largest double, (2^53 - 1) * 2^971 *)
Definition half_above : Z := (2 ^ 54 - 1) * 2 ^ 2044.

Lemma at_top V : 2 * Z.abs (V - 2 ^ 53 * 2 ^ 2045) <= 2 ^ 2045 -> half_above <= V.
Proof.
  assert (E : 2 ^ 2045 = 2 * 2 ^ 2044) by reflexivity. rewrite E. assert (E2 : half_above = 2 ^ 53 * (2 * 2 ^ 2044) - 2 ^ 2044) by reflexivity. rewrite E2. clear.
  generalize (2 ^ 53 * (2 * 2 ^ 2044)) (2 ^ 2044). intros A B H. lia.
Qed.

Lemma round_any s m e : -1074 <= e ->
  (fin (binary_round 53 1024 s m e) /\
   nearest (cond_Zopp s (Zpos m * 2 ^ (e + 1074))) (fv (binary_round 53 1024 s m e))) \/
  (binary_round 53 1024 s m e = S754_infinity s /\ half_above <= Zpos m * 2 ^ (e + 1074)).
Proof.
  intros He. destruct (Z.le_gt_cases (Zpos (digits2_pos m) + e) 1023) as [Hd|Hd]; [left; apply round_nearest; assumption|]. assert (Dm := digits_bounds m). set (d := Zpos (digits2_pos m)) in *. assert (Hd1 : 1 <= d) by (unfold d; lia).
  assert (EV : ulp (cond_Zopp s (Zpos m * 2 ^ (e + 1074))) = 2 ^ (Z.max (d + e - 53) (-1074) + 1074)).
  { assert (X : ulp (Zpos m * 2 ^ (e + 1074)) = 2 ^ (Z.max (d + e - 53) (-1074) + 1074)).
    { unfold ulp. rewrite digits_scale by lia. fold d. f_equal. lia. }
    destruct s; cbn [cond_Zopp]; rewrite ?ulp_opp; exact X. }
  set (V := Zpos m * 2 ^ (e + 1074)) in *.
  assert (Fin : forall mm ee, bounded 53 1024 mm ee = true -> Z.max (d + e - 53) (-1074) <= ee ->
    2 * Z.abs (V - Zpos mm * 2 ^ (ee + 1074)) <= 2 ^ (Z.max (d + e - 53) (-1074) + 1074) ->
    fin (S754_finite s mm ee) /\ nearest (cond_Zopp s V) (fv (S754_finite s mm ee))).
  { intros mm ee H1 H2 H3. split; [exact H1|].
    assert (Ee : Zpos mm * 2 ^ (ee + 1074) = Zpos mm * 2 ^ (ee - Z.max (d + e - 53) (-1074)) * 2 ^ (Z.max (d + e - 53) (-1074) + 1074)).
    { rewrite <- Z.mul_assoc, <- Z.pow_add_r by lia. do 2 f_equal. lia. }
    exists (cond_Zopp s (Zpos mm * 2 ^ (ee - Z.max (d + e - 53) (-1074)))). rewrite EV. cbn [fv]. rewrite !cond_mul, <- Ee. split; [reflexivity|].
    destruct s; cbn [cond_Zopp]; lia. }
  assert (Top : 1024 < d + e -> half_above <= V).
  { intro H. apply Z.le_trans with (2 ^ (d + e + 1073)); [unfold half_above; apply Z.le_trans with (2 ^ (54 + 2044)); [rewrite Z.pow_add_r by lia; apply Z.mul_le_mono_nonneg_r; [apply Z.pow_nonneg; lia|vm_compute; discriminate]|apply Z.pow_le_mono_r; lia]|].
    unfold V. replace (d + e + 1073) with (d - 1 + (e + 1074)) by lia. rewrite Z.pow_add_r by lia. apply Z.mul_le_mono_nonneg_r; [apply Z.pow_nonneg; lia|apply Dm]. }
  unfold binary_round. rewrite fexp_eq. fold d. unfold shl_align.
  destruct (Z_lt_ge_dec (Z.max (d + e - 53) (-1074)) e) as [C|C].
  - (* shift to the left, nothing lost *)
    destruct (Z.max (d + e - 53) (-1074) - e) as [|p|p] eqn:Ep; try lia.
    set (fe := Z.max (d + e - 53) (-1074)) in *.
    assert (Dz : Zpos (digits2_pos (shift_pos p m)) = d + Zpos p).
    { assert (X := digits_scale m (Zpos p) ltac:(lia)). rewrite <- shift_pos_eq in X. exact X. }
    assert (Es : forall e0, e0 = fe -> shr_fexp 53 1024 (Zpos (shift_pos p m)) e0 loc_Exact = (Build_shr_record (Zpos (shift_pos p m)) false false, fe)).
    { intros e0 ->. unfold shr_fexp. cbn [Zdigits2 shr_record_of_loc]. rewrite Dz, fexp_eq.
      replace (Z.max (d + Zpos p + fe - 53) (-1074) - fe) with 0 by lia. reflexivity. }
    unfold binary_round_aux. rewrite Es by reflexivity. cbn [shr_m loc_of_shr_record round_nearest_even]. rewrite Es by reflexivity. cbn [shr_m].
    destruct (Zle_bool fe (1024 - 53)) eqn:Hz; [apply Zle_is_le_bool in Hz; left|right; split; [reflexivity|]; apply Z.leb_gt in Hz; apply Top; lia].
    apply Fin; [|lia|].
    + apply bounded_iff. rewrite Dz, fexp_eq. lia.
    + rewrite shift_pos_eq, <- Z.mul_assoc, <- Z.pow_add_r by lia. replace (Zpos p + (fe + 1074)) with (e + 1074) by lia.
      fold V. rewrite Z.sub_diag. assert (X := Z.pow_pos_nonneg 2 (fe + 1074) ltac:(lia) ltac:(lia)). cbn [Z.abs]. lia.
  - assert (Ef : match Z.max (d + e - 53) (-1074) - e with Zneg d0 => (shift_pos d0 m, Z.max (d + e - 53) (-1074)) | _ => (m, e) end = (m, e)).
    { destruct (Z.max (d + e - 53) (-1074) - e) eqn:Ep; try reflexivity. lia. }
    rewrite Ef. clear Ef. unfold binary_round_aux.
    destruct (Z.eq_dec (Z.max (d + e - 53) (-1074)) e) as [C2|C2].
    + (* nothing to do *)
      assert (Es : shr_fexp 53 1024 (Zpos m) e loc_Exact = (Build_shr_record (Zpos m) false false, e)).
      { unfold shr_fexp. cbn [Zdigits2 shr_record_of_loc]. rewrite fexp_eq. fold d. rewrite C2, Z.sub_diag. reflexivity. }
      rewrite Es. cbn [shr_m loc_of_shr_record round_nearest_even]. rewrite Es. cbn [shr_m].
      destruct (Zle_bool e (1024 - 53)) eqn:Hz; [apply Zle_is_le_bool in Hz; left|right; split; [reflexivity|]; apply Z.leb_gt in Hz; apply Top; lia].
      apply Fin; [|lia|].
      * apply bounded_iff. rewrite fexp_eq. fold d. lia.
      * fold V. rewrite Z.sub_diag. assert (X := Z.pow_pos_nonneg 2 (Z.max (d + e - 53) (-1074) + 1074) ltac:(lia) ltac:(lia)). cbn [Z.abs]. lia.
    + (* bits are lost *)
      assert (Emx : Z.max (d + e - 53) (-1074) = d + e - 53) by lia.
      assert (Hn : exists n, d - 53 = Zpos n) by (destruct (d - 53) eqn:E0; try lia; eauto). destruct Hn as (n & Hn).
      assert (Es : shr_fexp 53 1024 (Zpos m) e loc_Exact = (Nat.iter (Pos.to_nat n) shr_1 (Build_shr_record (Zpos m) false false), d + e - 53)).
      { unfold shr_fexp. cbn [Zdigits2 shr_record_of_loc]. rewrite fexp_eq. fold d. rewrite Emx.
        replace (d + e - 53 - e) with (Zpos n) by lia. cbn [shr]. rewrite iter_pos_nat. f_equal. lia. }
      rewrite Es. clear Es. destruct (shr_iter (Zpos m) (Pos.to_nat n) ltac:(lia)) as [Hs _].
      set (a := Nat.iter (Pos.to_nat n) shr_1 (Build_shr_record (Zpos m) false false)) in *. clearbody a.
      destruct (round_near _ _ _ Hs) as [Hq1 Hq2]. set (q := round_nearest_even (shr_m a) (loc_of_shr_record a)) in *. clearbody q.
      replace (Z.of_nat (Pos.to_nat n)) with (d - 53) in * by lia.
      assert (Hm53 : 2 ^ 52 <= shr_m a < 2 ^ 53).
      { destruct Hs as (t & E & Ht & _). replace (Z.of_nat (Pos.to_nat n)) with (d - 53) in * by lia.
        replace (d - 1) with (52 + (d - 53)) in Dm by lia. replace d with (53 + (d - 53)) in Dm at 2 by lia. rewrite !Z.pow_add_r in Dm by lia.
        set (u := 2 ^ (d - 53)) in *. clearbody u. destruct (shr_r a); split; nia. }
      clear Hs. rewrite Emx in *.
      assert (Ev : forall z, 2 * Z.abs (Zpos m - z * 2 ^ (d - 53)) <= 2 ^ (d - 53) -> 2 * Z.abs (V - z * 2 ^ (d + e - 53 + 1074)) <= 2 ^ (d + e - 53 + 1074)).
      { intros z Hz. unfold V. replace (d + e - 53 + 1074) with ((d - 53) + (e + 1074)) by lia. rewrite (Z.pow_add_r 2 (d - 53) (e + 1074)) by lia.
        replace (Zpos m * 2 ^ (e + 1074) - z * (2 ^ (d - 53) * 2 ^ (e + 1074))) with ((Zpos m - z * 2 ^ (d - 53)) * 2 ^ (e + 1074)) by ring.
        assert (X := Z.pow_pos_nonneg 2 (e + 1074) ltac:(lia) ltac:(lia)). rewrite Z.abs_mul, (Z.abs_eq (2 ^ (e + 1074))) by lia.
        rewrite Z.mul_assoc. apply Z.mul_le_mono_nonneg_r; lia. }
      destruct (Z.eq_dec q (2 ^ 53)) as [Eq|Nq].
      * subst q. change (2 ^ 53) with (Zpos (2 ^ 53)).
        assert (Es : shr_fexp 53 1024 (Zpos (2 ^ 53)) (d + e - 53) loc_Exact = (Build_shr_record (Zpos (2 ^ 52)) false false, d + e - 53 + 1)).
        { unfold shr_fexp. change (Zdigits2 (Zpos (2 ^ 53))) with 54. cbn [shr_record_of_loc]. rewrite fexp_eq.
          replace (Z.max (54 + (d + e - 53) - 53) (-1074) - (d + e - 53)) with 1 by lia. reflexivity. }
        rewrite Es. cbn [shr_m].
        destruct (Zle_bool (d + e - 53 + 1) (1024 - 53)) eqn:Hz; [apply Zle_is_le_bool in Hz; left|right; split; [reflexivity|]; apply Z.leb_gt in Hz; destruct (Z.eq_dec (d + e) 1024) as [Ed|Ed]; [apply Ev in Hq1; apply at_top; replace (d + e - 53 + 1074) with 2045 in Hq1 by lia; exact Hq1|apply Top; lia]].
        apply Fin; [|lia|].
        -- apply bounded_iff. change (Zpos (digits2_pos (2 ^ 52))) with 53. rewrite fexp_eq. lia.
        -- replace (Zpos (2 ^ 52) * 2 ^ (d + e - 53 + 1 + 1074)) with (2 ^ 53 * 2 ^ (d + e - 53 + 1074)).
           ++ apply Ev. exact Hq1.
           ++ change (Zpos (2 ^ 52)) with (2 ^ 52). rewrite <- !Z.pow_add_r by lia. f_equal. lia.
      * assert (Pq : exists p, q = Zpos p /\ Zpos (digits2_pos p) = 53).
        { change (2 ^ 52) with 4503599627370496 in *. change (2 ^ 53) with 9007199254740992 in *. clear Hq1 Ev.
          destruct q as [|p|p]; try lia. exists p. split; [reflexivity|]. apply digits_unique; [lia|].
          change (2 ^ (53 - 1)) with 4503599627370496. change (2 ^ 53) with 9007199254740992. lia. }
        destruct Pq as (p & -> & Dp).
        assert (Es : shr_fexp 53 1024 (Zpos p) (d + e - 53) loc_Exact = (Build_shr_record (Zpos p) false false, d + e - 53)).
        { unfold shr_fexp. cbn [Zdigits2 shr_record_of_loc]. rewrite Dp, fexp_eq.
          replace (Z.max (53 + (d + e - 53) - 53) (-1074) - (d + e - 53)) with 0 by lia. reflexivity. }
        rewrite Es. cbn [shr_m].
        destruct (Zle_bool (d + e - 53) (1024 - 53)) eqn:Hz; [apply Zle_is_le_bool in Hz; left|right; split; [reflexivity|]; apply Z.leb_gt in Hz; apply Top; lia].
        apply Fin; [|lia|apply Ev; exact Hq1]. apply bounded_iff. rewrite Dp, fexp_eq. lia.
Qed.

Definition overflowed (V : Z) (f : spec_float) : Prop :=
  (f = S754_infinity false /\ half_above <= V) \/ (f = S754_infinity true /\ half_above <= - V).

Lemma normalize_any M e : -1074 <= e ->
  (fin (binary_normalize 53 1024 M e false) /\ nearest (M * 2 ^ (e + 1074)) (fv (binary_normalize 53 1024 M e false))) \/
  overflowed (M * 2 ^ (e + 1074)) (binary_normalize 53 1024 M e false).
Proof.
  intros He. destruct M as [|m|m]; cbn [binary_normalize].
  - left. split; [exact I|]. exists 0. change (0 * 2 ^ (e + 1074)) with 0. cbn [fv]. split; [reflexivity|]. assert (X := ulp_pos 0). rewrite Z.sub_diag. lia.
  - destruct (round_any false m e He) as [X|X]; [left; exact X|right; left; exact X].
  - change (Zneg m) with (- Zpos m) in *. rewrite Z.mul_opp_l in *. destruct (round_any true m e He) as [X|X]; [left; exact X|right; right; rewrite Z.opp_involutive; exact X].
Qed.

Theorem add_any f g : fin f -> fin g ->
  (fin (SFadd f64_prec f64_emax f g) /\ nearest (fv f + fv g) (fv (SFadd f64_prec f64_emax f g))) \/ overflowed (fv f + fv g) (SFadd f64_prec f64_emax f g).
Proof.
  intros Hf Hg. destruct f as [s|s| |s m e]; try contradiction; destruct g as [s'|s'| |s' m' e']; try contradiction.
  - left. apply add_nearest; auto. reflexivity.
  - left. cbn [SFadd]. split; [exact Hg|]. change (fv (S754_zero s)) with 0. rewrite Z.add_0_l. apply fv_nearest; exact Hg.
  - left. cbn [SFadd]. split; [exact Hf|]. change (fv (S754_zero s')) with 0. rewrite Z.add_0_r. apply fv_nearest; exact Hf.
  - cbn [SFadd]. assert (Hf' := Hf). assert (Hg' := Hg). cbn [fin valid_binary] in Hf', Hg'. apply bounded_range in Hf', Hg'.
    set (ez := Z.min e e'). assert (Hz : -1074 <= ez <= e /\ ez <= e') by (unfold ez; lia). clearbody ez.
    assert (E : fv (S754_finite s m e) + fv (S754_finite s' m' e') =
      (cond_Zopp s (Zpos (fst (shl_align m e ez))) + cond_Zopp s' (Zpos (fst (shl_align m' e' ez)))) * 2 ^ (ez + 1074)).
    { rewrite Z.mul_add_distr_r, !align_fv by lia. reflexivity. }
    rewrite E in *. apply normalize_any. lia.
Qed.

Theorem sub_any f g : fin f -> fin g ->
  (fin (SFsub f64_prec f64_emax f g) /\ nearest (fv f - fv g) (fv (SFsub f64_prec f64_emax f g))) \/ overflowed (fv f - fv g) (SFsub f64_prec f64_emax f g).
Proof.
  intros Hf Hg. destruct f as [s|s| |s m e]; try contradiction; destruct g as [s'|s'| |s' m' e']; try contradiction.
  - left. apply sub_nearest; auto. reflexivity.
  - left. cbn [SFsub]. destruct (fin_opp _ Hg) as [X1 X2]. cbn [SFopp] in X1, X2. split; [exact X1|]. change (fv (S754_zero s)) with 0. rewrite Z.sub_0_l, <- X2. apply fv_nearest; exact X1.
  - left. cbn [SFsub]. split; [exact Hf|]. change (fv (S754_zero s')) with 0. rewrite Z.sub_0_r. apply fv_nearest; exact Hf.
  - cbn [SFsub]. assert (Hf' := Hf). assert (Hg' := Hg). cbn [fin valid_binary] in Hf', Hg'. apply bounded_range in Hf', Hg'.
    set (ez := Z.min e e'). assert (Hz : -1074 <= ez <= e /\ ez <= e') by (unfold ez; lia). clearbody ez.
    assert (E : fv (S754_finite s m e) - fv (S754_finite s' m' e') =
      (cond_Zopp s (Zpos (fst (shl_align m e ez))) - cond_Zopp s' (Zpos (fst (shl_align m' e' ez)))) * 2 ^ (ez + 1074)).
    { rewrite Z.mul_sub_distr_r, !align_fv by lia. reflexivity. }
    rewrite E in *. apply normalize_any. lia.
Qed.

(** the largest finite double *)
Lemma fin_top f : fin f -> Z.abs (fv f) <= (2 ^ 53 - 1) * 2 ^ 2045.
Proof.
  destruct f as [s|s| |s m e]; try contradiction; intro H; cbn [fv]; [vm_compute; discriminate|].
  rewrite cond_mul. assert (X : Z.abs (cond_Zopp s (Zpos m * 2 ^ (e + 1074))) = Zpos m * 2 ^ (e + 1074)).
  { assert (P : 0 <= Zpos m * 2 ^ (e + 1074)) by (apply Z.mul_nonneg_nonneg; [lia|apply Z.pow_nonneg; lia]). destruct s; cbn [cond_Zopp]; lia. }
  rewrite X. clear X. cbn [fin valid_binary] in H. apply bounded_range in H. destruct H as (He & Hm & _).
  assert (Dm := digits_bounds m). assert (L : 2 ^ Zpos (digits2_pos m) <= 2 ^ 53) by (apply Z.pow_le_mono_r; lia).
  apply Z.mul_le_mono_nonneg; [lia|lia|apply Z.pow_nonneg; lia|apply Z.pow_le_mono_r; lia].
Qed.

(** no sum with the tolerance overflows *)
Lemma tol_top : (2 ^ 53 - 1) * 2 ^ 2045 + tol < half_above.
Proof. reflexivity. Qed.
