(** * Operations on doubles that are exact

    Numbers z * 2^-k with |z| < 2^53 and 0 <= k <= 52 are doubles; on them the
    operations of [f64_ops] are exact as long as the result is again such a
    number. *)
From Coq Require Import Floats.SpecFloat.
From Verif Require Import Base Data FloatSpec.
Local Open Scope Z_scope.

(** ** Binary digits *)
Lemma digits_bounds p : 2 ^ (Zpos (digits2_pos p) - 1) <= Zpos p < 2 ^ Zpos (digits2_pos p).
Proof.
  induction p as [p IH|p IH|]; cbn [digits2_pos]; [| |cbn; lia].
  - rewrite Pos2Z.inj_succ. replace (Z.succ (Zpos (digits2_pos p)) - 1) with (Z.succ (Zpos (digits2_pos p) - 1)) by lia.
    rewrite !Z.pow_succ_r by lia. lia.
  - rewrite Pos2Z.inj_succ. replace (Z.succ (Zpos (digits2_pos p)) - 1) with (Z.succ (Zpos (digits2_pos p) - 1)) by lia.
    rewrite !Z.pow_succ_r by lia. lia.
Qed.

Lemma digits_unique p d : 0 < d -> 2 ^ (d - 1) <= Zpos p < 2 ^ d -> Zpos (digits2_pos p) = d.
Proof.
  intros Hd H. assert (B := digits_bounds p). set (c := Zpos (digits2_pos p)) in *. assert (0 < c) by (unfold c; lia).
  destruct (Z.lt_trichotomy c d) as [L|[L|L]]; auto; exfalso.
  - assert (2 ^ c <= 2 ^ (d - 1)) by (apply Z.pow_le_mono_r; lia). lia.
  - assert (2 ^ d <= 2 ^ (c - 1)) by (apply Z.pow_le_mono_r; lia). lia.
Qed.

Lemma pow_band a b p r m w : 0 < a -> 0 < b -> 0 <= p -> 0 <= r ->
  2 ^ (a - 1) <= m < 2 ^ a -> 2 ^ (b - 1) <= w < 2 ^ b -> m * 2 ^ p = w * 2 ^ r -> a + p = b + r.
Proof.
  intros Ha Hb Hp Hr Hm Hw E.
  assert (Pp : 0 < 2 ^ p) by (apply Z.pow_pos_nonneg; lia). assert (Pr : 0 < 2 ^ r) by (apply Z.pow_pos_nonneg; lia).
  assert (X1 : 2 ^ (a - 1 + p) <= m * 2 ^ p) by (rewrite Z.pow_add_r by lia; apply Z.mul_le_mono_nonneg_r; lia).
  assert (X2 : m * 2 ^ p < 2 ^ (a + p)) by (rewrite Z.pow_add_r by lia; apply Z.mul_lt_mono_pos_r; lia).
  assert (Y1 : 2 ^ (b - 1 + r) <= w * 2 ^ r) by (rewrite Z.pow_add_r by lia; apply Z.mul_le_mono_nonneg_r; lia).
  assert (Y2 : w * 2 ^ r < 2 ^ (b + r)) by (rewrite Z.pow_add_r by lia; apply Z.mul_lt_mono_pos_r; lia).
  assert (L1 : a - 1 + p < b + r) by (apply (Z.pow_lt_mono_r_iff 2); [lia|lia|rewrite E in X1; eapply Z.le_lt_trans; eassumption]).
  assert (L2 : b - 1 + r < a + p) by (apply (Z.pow_lt_mono_r_iff 2); [lia|lia|rewrite <- E in Y1; eapply Z.le_lt_trans; eassumption]).
  lia.
Qed.

Lemma shift_pos_eq d m : Zpos (shift_pos d m) = Zpos m * 2 ^ Zpos d.
Proof. rewrite shift_pos_correct. rewrite Zpower_pos_nat, Zpower_nat_Z, positive_nat_Z. lia. Qed.

Lemma iter_pos_nat {A} (f : A -> A) p x : SpecFloat.iter_pos f p x = Nat.iter (Pos.to_nat p) f x.
Proof.
  assert (NI : forall n m y, Nat.iter (n + m) f y = Nat.iter n f (Nat.iter m f y)).
  { induction n as [|n IHn]; intros; [reflexivity|]. apply (f_equal f), IHn. }
  assert (NS : forall n y, Nat.iter n f (f y) = f (Nat.iter n f y)).
  { induction n as [|n IHn]; intros; [reflexivity|]. apply (f_equal f), IHn. }
  revert x. induction p as [p IH|p IH|]; intros x; cbn [SpecFloat.iter_pos].
  - rewrite !IH, Pos2Nat.inj_xI. replace (S (2 * Pos.to_nat p)) with (Pos.to_nat p + (Pos.to_nat p + 1))%nat by lia.
    rewrite !NI. cbn. reflexivity.
  - rewrite !IH, Pos2Nat.inj_xO. replace (2 * Pos.to_nat p)%nat with (Pos.to_nat p + Pos.to_nat p)%nat by lia.
    rewrite NI. reflexivity.
  - reflexivity.
Qed.

(** shifting out zeros is exact *)
Lemma shr_exact n : forall m, 0 < m ->
  Nat.iter n shr_1 (Build_shr_record (m * 2 ^ Z.of_nat n) false false) = Build_shr_record m false false.
Proof.
  induction n as [|n IH]; intros m Hm; [cbn; f_equal; lia|].
  replace (m * 2 ^ Z.of_nat (S n)) with ((2 * m) * 2 ^ Z.of_nat n).
  2:{ rewrite Nat2Z.inj_succ, Z.pow_succ_r by lia. lia. }
  change (shr_1 (Nat.iter n shr_1 (Build_shr_record (2 * m * 2 ^ Z.of_nat n) false false)) = Build_shr_record m false false).
  rewrite IH by lia. destruct m as [|p|p]; try lia. reflexivity.
Qed.

Notation prec := 53.
Notation emax := 1024.

(** ** Rounding a representable number *)
Section Round.
Variables (k z : Z).
Hypothesis Hk : 0 <= k <= 52.
Hypothesis Hz : 0 < z < 2 ^ 53.

Definition zd : Z := Zdigits2 z.

Lemma zd_bounds : 2 ^ (zd - 1) <= z < 2 ^ zd /\ 1 <= zd <= 53.
Proof.
  unfold zd. destruct z as [|p|p] eqn:E; try lia. cbn [Zdigits2]. assert (B := digits_bounds p). split; [exact B|].
  split; [lia|]. destruct (Z_le_gt_dec (Zpos (digits2_pos p)) 53); auto. exfalso.
  assert (2 ^ 53 <= 2 ^ (Zpos (digits2_pos p) - 1)) by (apply Z.pow_le_mono_r; lia). lia.
Qed.

Definition cm : Z := z * 2 ^ (53 - zd).
Definition ce : Z := zd - 53 - k.

Lemma cm_bounds : 2 ^ 52 <= cm < 2 ^ 53.
Proof.
  destruct zd_bounds as [B D]. unfold cm. split.
  - replace 52 with ((zd - 1) + (53 - zd)) at 1 by lia. rewrite Z.pow_add_r by lia.
    apply Z.mul_le_mono_nonneg_r; lia.
  - replace 53 with (zd + (53 - zd)) at 2 by lia. rewrite Z.pow_add_r by lia. apply Z.mul_lt_mono_pos_r; lia.
Qed.

Lemma cm_pos : exists p, cm = Zpos p /\ Zpos (digits2_pos p) = 53.
Proof.
  assert (B := cm_bounds). destruct cm as [|p|p] eqn:E; try lia. exists p. split; auto. apply digits_unique; [lia|].
  change (53 - 1) with 52. lia.
Qed.

(** the mantissa [mx] with exponent [ex] denotes z * 2^-k *)
Definition denotes (mx ex : Z) : Prop := mx * 2 ^ Z.max 0 (ex + k) = z * 2 ^ Z.max 0 (- (ex + k)).

Lemma round_aux_exact s mx ex : denotes mx ex -> 2 ^ 52 <= mx ->
  binary_round_aux prec emax s mx ex loc_Exact = S754_finite s (Z.to_pos cm) ce.
Proof.
  intros HD Hmx. destruct zd_bounds as [B D]. destruct cm_pos as (pc & Epc & Dpc). assert (Bc := cm_bounds).
  (* mx = cm * 2^sh *)
  assert (Hsh : exists sh, 0 <= sh /\ mx = cm * 2 ^ sh /\ ex = ce - sh).
  { unfold denotes in HD. exists (ce - ex). destruct (Z_le_gt_dec 0 (ex + k)) as [L|L].
    - rewrite Z.max_r in HD by lia. rewrite Z.max_l in HD by lia. rewrite Z.pow_0_r, Z.mul_1_r in HD.
      assert (zd - 53 - (ex + k) <= 0) by lia.
      (* mx * 2^(ex+k) = z < 2^zd and mx >= 2^52 *)
      assert (2 ^ (52 + (ex + k)) <= z). { rewrite Z.pow_add_r by lia. rewrite <- HD. apply Z.mul_le_mono_nonneg_r; lia. }
      assert (52 + (ex + k) < zd). { apply (Z.pow_lt_mono_r_iff 2); lia. }
      assert (ex + k = 0 /\ zd = 53) as [E1 E2] by lia. assert (ex = - k) by lia. subst ex.
      replace (- k + k) with 0 in HD by lia. rewrite Z.pow_0_r, Z.mul_1_r in HD.
      unfold ce, cm. rewrite E2. split; [lia|]. split; [|lia]. replace (53 - 53 - k - - k) with 0 by lia. cbn. lia.
    - rewrite Z.max_l in HD by lia. rewrite Z.max_r in HD by lia. rewrite Z.pow_0_r, Z.mul_1_r in HD.
      assert (Hge : 0 <= ce - ex).
      { unfold ce. assert (2 ^ 52 < 2 ^ (zd + - (ex + k))).
        { rewrite Z.pow_add_r by lia. apply Z.le_lt_trans with mx; auto. rewrite HD. apply Z.mul_lt_mono_pos_r; lia. }
        assert (52 < zd + - (ex + k)) by (apply (Z.pow_lt_mono_r_iff 2); lia). lia. }
      split; [exact Hge|]. split; [|lia]. unfold cm, ce in *. rewrite <- Z.mul_assoc, <- Z.pow_add_r by lia. rewrite HD.
      do 2 f_equal. lia. }
  destruct Hsh as (sh & Hsh & Emx & Eex). clear HD.
  assert (Pmx : exists p, mx = Zpos p /\ Zpos (digits2_pos p) = 53 + sh).
  { destruct mx as [|p|p]; try lia. exists p. split; auto. apply digits_unique; [lia|]. rewrite Emx.
    replace (53 + sh - 1) with (52 + sh) by lia. rewrite !Z.pow_add_r by lia. split.
    - apply Z.mul_le_mono_nonneg_r; lia.
    - apply Z.mul_lt_mono_pos_r; lia. }
  destruct Pmx as (pm & Epm & Dpm).
  assert (F : forall d e, d + e = 53 + ce -> fexp prec emax (d + e) = ce).
  { intros d e E. rewrite E. unfold fexp, emin. rewrite Z.max_l; unfold ce; lia. }
  unfold binary_round_aux.
  assert (E1 : shr_fexp prec emax mx ex loc_Exact = (Build_shr_record cm false false, ce)).
  { unfold shr_fexp. rewrite Epm. cbn [Zdigits2 shr_record_of_loc]. rewrite Dpm. rewrite F by lia.
    replace (ce - ex) with sh by lia. rewrite <- Epm, Emx. destruct sh as [|ps|ps]; [|clear Hsh|lia].
    - cbn [shr]. rewrite Z.pow_0_r, Z.mul_1_r. f_equal; lia.
    - cbn [shr]. f_equal; [|lia]. rewrite iter_pos_nat.
      replace (Zpos ps) with (Z.of_nat (Pos.to_nat ps)) by lia. apply shr_exact. lia. }
  rewrite E1. cbn [shr_m loc_of_shr_record round_nearest_even].
  assert (E2 : shr_fexp prec emax cm ce loc_Exact = (Build_shr_record cm false false, ce)).
  { unfold shr_fexp. rewrite Epc. cbn [Zdigits2 shr_record_of_loc]. rewrite Dpc. rewrite F by lia.
    rewrite Z.sub_diag. cbn [shr]. rewrite <- Epc. reflexivity. }
  rewrite E2. cbn [shr_m]. rewrite Epc. destruct (Z.leb_spec ce (emax - prec)) as [L|L].
  - unfold Zle_bool. destruct (Z.leb_spec ce (emax - prec)); [reflexivity|lia].
  - unfold ce in L. lia.
Qed.

Lemma round_exact s mx ex : denotes (Zpos mx) ex ->
  binary_round prec emax s mx ex = S754_finite s (Z.to_pos cm) ce.
Proof.
  intros HD. unfold binary_round. destruct zd_bounds as [B D]. assert (Bm := digits_bounds mx).
  set (d := Zpos (digits2_pos mx)) in *. assert (Hd : 0 < d) by (unfold d; lia).
  assert (Hde : d + ex = zd - k).
  { unfold denotes in HD. destruct (Z_le_gt_dec 0 (ex + k)) as [L|L].
    - rewrite Z.max_r, (Z.max_l 0) in HD by lia. rewrite Z.pow_0_r, Z.mul_1_r in HD.
      enough (zd = d + (ex + k)) by lia. unfold zd. rewrite <- HD.
      assert (exists p, Zpos mx * 2 ^ (ex + k) = Zpos p) as (p & Ep).
      { assert (0 < Zpos mx * 2 ^ (ex + k)) by (apply Z.mul_pos_pos; lia). destruct (Zpos mx * 2 ^ (ex + k)); try lia. eauto. }
      rewrite Ep. cbn [Zdigits2]. apply digits_unique; [lia|]. rewrite <- Ep.
      replace (d + (ex + k) - 1) with ((d - 1) + (ex + k)) by lia.
      rewrite (Z.pow_add_r 2 (d - 1)), (Z.pow_add_r 2 d) by lia. split.
      + apply Z.mul_le_mono_nonneg_r; lia.
      + apply Z.mul_lt_mono_pos_r; lia.
    - rewrite (Z.max_l 0), (Z.max_r 0) in HD by lia. rewrite Z.pow_0_r, Z.mul_1_r in HD.
      enough (d = zd + - (ex + k)) by lia. apply digits_unique; [lia|]. rewrite HD.
      replace (zd + - (ex + k) - 1) with ((zd - 1) + - (ex + k)) by lia.
      rewrite (Z.pow_add_r 2 (zd - 1)), (Z.pow_add_r 2 zd) by lia. split.
      + apply Z.mul_le_mono_nonneg_r; lia.
      + apply Z.mul_lt_mono_pos_r; lia. }
  assert (Fe : fexp prec emax (d + ex) = d + ex - 53) by (unfold fexp, emin; rewrite Z.max_l; lia).
  rewrite Fe. unfold shl_align. replace (d + ex - 53 - ex) with (d - 53) by lia.
  destruct (d - 53) as [|pd|pd] eqn:Ed.
  - apply round_aux_exact; auto. replace 52 with (d - 1) by lia. lia.
  - apply round_aux_exact; auto. apply Z.le_trans with (2 ^ (d - 1)); [apply Z.pow_le_mono_r; lia|lia].
  - apply round_aux_exact.
    + rewrite shift_pos_eq. unfold denotes in *. clear Bm.
      replace (d + ex - 53) with (ex - Zpos pd) by lia. destruct (Z_le_gt_dec 0 (ex + k)) as [L|L].
      * rewrite (Z.max_r 0 (ex + k)), (Z.max_l 0 (- (ex + k))) in HD by lia. rewrite Z.pow_0_r, Z.mul_1_r in HD.
        destruct (Z_le_gt_dec 0 (ex - Zpos pd + k)) as [L2|L2].
        -- rewrite (Z.max_r 0 (ex - Zpos pd + k)), (Z.max_l 0 (- _)) by lia. rewrite Z.pow_0_r, Z.mul_1_r, <- HD.
           rewrite <- Z.mul_assoc, <- Z.pow_add_r by lia. do 2 f_equal. lia.
        -- rewrite (Z.max_l 0 (ex - Zpos pd + k)), (Z.max_r 0 (- _)) by lia. rewrite Z.pow_0_r, Z.mul_1_r, <- HD.
           rewrite <- Z.mul_assoc, <- Z.pow_add_r by lia. do 2 f_equal. lia.
      * rewrite (Z.max_l 0 (ex + k)), (Z.max_r 0 (- (ex + k))) in HD by lia. rewrite Z.pow_0_r, Z.mul_1_r in HD.
        rewrite (Z.max_l 0 (ex - Zpos pd + k)), (Z.max_r 0 (- _)) by lia. rewrite Z.pow_0_r, Z.mul_1_r, HD.
        rewrite <- Z.mul_assoc, <- Z.pow_add_r by lia. do 2 f_equal. lia.
    + rewrite shift_pos_eq. replace 52 with ((d - 1) + Zpos pd) by lia. rewrite Z.pow_add_r by lia.
      apply Z.mul_le_mono_nonneg_r; lia.
Qed.

End Round.

(** ** Values *)
Section Ops.
Variable k : Z.
Hypothesis Hk : 0 <= k <= 52.

Definition vl (m e z : Z) : Prop := m * 2 ^ Z.max 0 (e + k) = z * 2 ^ Z.max 0 (- (e + k)).

(** an equivalent form with one common scale *)
Lemma vl_scale m e z K : 0 <= e + K -> k <= K -> (vl m e z <-> m * 2 ^ (e + K) = z * 2 ^ (K - k)).
Proof.
  intros HK HkK. unfold vl. destruct (Z_le_gt_dec 0 (e + k)) as [L|L].
  - rewrite Z.max_r, (Z.max_l 0 (- (e + k))) by lia. rewrite Z.pow_0_r, Z.mul_1_r.
    replace (e + K) with ((e + k) + (K - k)) by lia. rewrite (Z.pow_add_r 2 (e + k)), Z.mul_assoc by lia. split; intros E.
    + rewrite E. reflexivity.
    + apply Z.mul_cancel_r in E; auto. apply Z.pow_nonzero; lia.
  - rewrite Z.max_l, (Z.max_r 0 (- (e + k))) by lia. rewrite Z.pow_0_r, Z.mul_1_r.
    replace (K - k) with (- (e + k) + (e + K)) by lia. rewrite (Z.pow_add_r 2 (- (e + k))), Z.mul_assoc by lia. split; intros E.
    + rewrite E. reflexivity.
    + apply Z.mul_cancel_r in E; auto. apply Z.pow_nonzero; lia.
Qed.

Lemma vl_opp m e z : vl m e z -> vl (- m) e (- z).
Proof. unfold vl. lia. Qed.

Lemma vl_shift m e z d : 0 <= d -> vl m e z -> vl (m * 2 ^ d) (e - d) z.
Proof.
  intros Hd H. pose (K := Z.max k (d - e)). assert (HKd : K = Z.max k (d - e)) by reflexivity. clearbody K. apply (vl_scale _ _ _ K) in H; [|lia|lia].
  apply (vl_scale _ _ _ K); [lia|lia|]. rewrite <- H, <- Z.mul_assoc, <- Z.pow_add_r by lia. do 2 f_equal. lia.
Qed.

Lemma vl_add m1 m2 e z1 z2 : vl m1 e z1 -> vl m2 e z2 -> vl (m1 + m2) e (z1 + z2).
Proof. unfold vl. lia. Qed.

Lemma vl_align m e z e' : e' <= e -> forall s, vl (cond_Zopp s (Zpos m)) e z ->
  vl (cond_Zopp s (Zpos (fst (shl_align m e e')))) e' z.
Proof.
  intros He s H. unfold shl_align. destruct (e' - e) as [|p|p] eqn:E; try lia.
  - replace e' with e by lia. exact H.
  - cbn [fst]. rewrite shift_pos_eq. replace e' with (e - Zpos p) by lia.
    replace (cond_Zopp s (Zpos m * 2 ^ Zpos p)) with (cond_Zopp s (Zpos m) * 2 ^ Zpos p) by (destruct s; cbn [cond_Zopp]; lia).
    apply vl_shift; auto. lia.
Qed.

Lemma vl_zero e z : vl 0 e z <-> z = 0.
Proof.
  unfold vl. assert (2 ^ Z.max 0 (- (e + k)) <> 0) by (apply Z.pow_nonzero; lia). split; intros E; [|subst; lia].
  rewrite Z.mul_0_l in E. symmetry in E. apply Z.mul_eq_0 in E. lia.
Qed.

Lemma vl_sign m e z : vl m e z -> Z.sgn m = Z.sgn z.
Proof.
  unfold vl. intros E. apply (f_equal Z.sgn) in E. rewrite !Z.sgn_mul in E.
  rewrite !(Z.sgn_pos (2 ^ _)) in E by (apply Z.pow_pos_nonneg; lia). lia.
Qed.

Definition canon (z : Z) : spec_float :=
  if z =? 0 then S754_zero false else S754_finite (z <? 0) (Z.to_pos (cm (Z.abs z))) (ce k (Z.abs z)).

Lemma cm_vl z : 0 < z < 2 ^ 53 -> vl (cm z) (ce k z) z.
Proof.
  intros Hz. destruct (zd_bounds z Hz) as [B D]. unfold cm, ce. unfold vl.
  replace (zd z - 53 - k + k) with (zd z - 53) by lia. rewrite Z.max_l, Z.max_r by lia.
  rewrite Z.pow_0_r, Z.mul_1_r. do 2 f_equal. lia.
Qed.

Lemma canon_is z : Z.abs z < 2 ^ 53 -> f64_is k (canon z) z.
Proof.
  intros Hz. unfold canon. destruct (Z.eqb_spec z 0) as [->|Nz]; [reflexivity|].
  assert (Ha : 0 < Z.abs z < 2 ^ 53) by lia.
  destruct (cm_pos (Z.abs z) Ha) as (p & Ep & Dp). destruct (zd_bounds _ Ha) as [B D].
  cbn [f64_is]. split.
  - unfold valid_binary, bounded, canonical_mantissa. rewrite Ep. cbn [Z.to_pos]. rewrite Dp.
    assert (E : fexp f64_prec f64_emax (53 + ce k (Z.abs z)) = ce k (Z.abs z)).
    { unfold fexp, emin, f64_prec, f64_emax. rewrite Z.max_l; unfold ce; lia. }
    rewrite E. apply andb_true_iff. split; [unfold Zeq_bool; rewrite Z.compare_refl; reflexivity|].
    apply Z.leb_le. unfold ce, f64_prec, f64_emax. lia.
  - assert (V := cm_vl _ Ha). unfold vl in V. rewrite Ep. cbn [Z.to_pos]. rewrite <- Ep.
    destruct (Z.ltb_spec z 0); cbn [cond_Zopp].
    + rewrite Z.mul_opp_l, V, <- Z.mul_opp_l. f_equal. lia.
    + rewrite V. f_equal. lia.
Qed.

Lemma denotes_vl m e z : denotes k z m e <-> vl m e z.
Proof. reflexivity. Qed.

Lemma norm_exact m e z : Z.abs z < 2 ^ 53 -> vl m e z -> binary_normalize f64_prec f64_emax m e false = canon z.
Proof.
  intros Hz H. assert (Hs := vl_sign _ _ _ H). unfold canon, binary_normalize. destruct m as [|m|m]; cbn [Z.sgn] in Hs.
  - destruct (Z.eqb_spec z 0); [reflexivity|lia].
  - destruct (Z.eqb_spec z 0); [lia|]. destruct (Z.ltb_spec z 0); [lia|]. rewrite Z.abs_eq by lia.
    apply round_exact; auto. lia.
  - destruct (Z.eqb_spec z 0); [lia|]. destruct (Z.ltb_spec z 0); [|lia].
    apply round_exact; auto; [lia|]. apply vl_opp in H. cbn in H. replace (Z.abs z) with (- z) by lia. exact H.
Qed.

(** ** The canonical double is the only one, up to the sign of zero *)
Lemma is_canon f z : Z.abs z < 2 ^ 53 -> f64_is k f z -> (z = 0 /\ exists s, f = S754_zero s) \/ (z <> 0 /\ f = canon z).
Proof.
  intros Hz H. destruct f as [s|s| |s m e]; cbn [f64_is] in H; try contradiction; [left; split; eauto|].
  right. destruct H as [Hv H]. assert (Hs := vl_sign _ _ _ H).
  assert (Nz : z <> 0) by (destruct s; cbn [cond_Zopp] in Hs; lia). split; auto.
  assert (Ha : 0 < Z.abs z < 2 ^ 53) by lia. destruct (zd_bounds _ Ha) as [B D].
  assert (V : vl (Zpos m) e (Z.abs z)).
  { destruct s; cbn [cond_Zopp] in H, Hs.
    - apply vl_opp in H. replace (Z.abs z) with (- z) by lia. exact H.
    - replace (Z.abs z) with z by lia. exact H. }
  assert (Bm := digits_bounds m). set (d := Zpos (digits2_pos m)) in *. assert (Hd : 0 < d) by (unfold d; lia).
  pose (K := Z.max k (- e)). assert (HKd : K = Z.max k (- e)) by reflexivity. clearbody K. assert (V' := proj1 (vl_scale (Zpos m) e (Z.abs z) K ltac:(lia) ltac:(lia)) V).
  assert (Hde : d + e = zd (Z.abs z) - k).
  { assert (Q := pow_band d (zd (Z.abs z)) (e + K) (K - k) (Zpos m) (Z.abs z)).
    specialize (Q Hd (Z.lt_le_trans 0 1 _ Z.lt_0_1 (proj1 D)) ltac:(clear - HKd; lia) ltac:(clear - HKd; lia) Bm B V').
    clear - Q. lia. }
  unfold valid_binary, bounded, canonical_mantissa in Hv. fold d in Hv. apply andb_true_iff in Hv. destruct Hv as [Hv _].
  apply Zeq_bool_eq in Hv. unfold fexp, emin, f64_prec, f64_emax in Hv.
  assert (d = 53 /\ e = ce k (Z.abs z)) as [E1 E2] by (unfold ce; clear - Hv Hde D Hd Hk; lia).
  unfold canon. destruct (Z.eqb_spec z 0); [lia|].
  assert (Es : (z <? 0) = s). { destruct (Z.ltb_spec z 0), s; cbn [cond_Zopp] in Hs; auto; lia. }
  rewrite Es, <- E2. f_equal.
  enough (Zpos m = cm (Z.abs z)) by (apply Pos2Z.inj; rewrite Z2Pos.id; [auto|lia]).
  assert (W := cm_vl _ Ha). rewrite <- E2 in W. unfold vl in V, W. rewrite <- W in V.
  apply Z.mul_cancel_r in V; auto. apply Z.pow_nonzero; lia.
Qed.

(** ** The relation kept by the operations *)
Definition R (f : spec_float) (z : Z) : Prop := f64_is k f z /\ Z.abs z < 2 ^ 53.

Lemma R_canon z : Z.abs z < 2 ^ 53 -> R (canon z) z.
Proof. intros Hz. split; auto. apply canon_is; auto. Qed.

Lemma R_zero s : R (S754_zero s) 0.
Proof. split; cbn; lia. Qed.

Lemma R_of_norm m e z : Z.abs z < 2 ^ 53 -> vl m e z -> R (binary_normalize f64_prec f64_emax m e false) z.
Proof. intros Hz H. rewrite (norm_exact m e z) by auto. apply R_canon; auto. Qed.

Lemma R_of_Z z : Z.abs (z * 2 ^ k) < 2 ^ 53 -> R (f64_of_Z z) (z * 2 ^ k).
Proof.
  intros Hz. unfold f64_of_Z. apply R_of_norm; auto. unfold vl. rewrite Z.max_r, (Z.max_l 0 (- _)) by lia.
  rewrite Z.pow_0_r, Z.mul_1_r. reflexivity.
Qed.

Lemma R_opp f z : R f z -> R (SFopp f) (- z).
Proof.
  intros [H Hz]. split; [|lia]. destruct f as [s|s| |s m e]; cbn [SFopp f64_is] in *; try lia.
  destruct H as [Hv H]. split; [exact Hv|]. apply vl_opp in H. destruct s; exact H.
Qed.

Lemma R_add f g x y : R f x -> R g y -> Z.abs (x + y) < 2 ^ 53 -> R (SFadd f64_prec f64_emax f g) (x + y).
Proof.
  intros [Hf Hx] [Hg Hy] B. destruct f as [s|s| |s m e]; try contradiction; cbn [f64_is] in Hf.
  - subst x. destruct g as [s'|s'| |s' m' e']; try contradiction; cbn [f64_is] in Hg.
    + subst y. cbn. destruct (Bool.eqb s s'); apply R_zero.
    + cbn [SFadd]. split; auto.
  - destruct g as [s'|s'| |s' m' e']; try contradiction; cbn [f64_is] in Hg.
    + subst y. cbn [SFadd]. rewrite Z.add_0_r. split; auto.
    + cbn [SFadd]. apply R_of_norm; auto. destruct Hf as [_ Hf], Hg as [_ Hg]. apply vl_add; apply vl_align; auto; lia.
Qed.

Lemma R_sub f g x y : R f x -> R g y -> Z.abs (x - y) < 2 ^ 53 -> R (SFsub f64_prec f64_emax f g) (x - y).
Proof.
  intros [Hf Hx] [Hg Hy] B. destruct f as [s|s| |s m e]; try contradiction; cbn [f64_is] in Hf.
  - subst x. destruct g as [s'|s'| |s' m' e']; try contradiction; cbn [f64_is] in Hg.
    + subst y. cbn. destruct (Bool.eqb s (negb s')); apply R_zero.
    + cbn [SFsub]. apply (R_opp (S754_finite s' m' e') y). split; auto.
  - destruct g as [s'|s'| |s' m' e']; try contradiction; cbn [f64_is] in Hg.
    + subst y. cbn [SFsub]. rewrite Z.sub_0_r. split; auto.
    + cbn [SFsub]. apply R_of_norm; auto. destruct Hf as [_ Hf], Hg as [_ Hg].
      rewrite <- Z.add_opp_r. rewrite <- (Z.add_opp_r x y). apply vl_add; [|apply vl_opp]; apply vl_align; auto; lia.
Qed.

Lemma mant_big s m e z : R (S754_finite s m e) z -> 2 ^ 52 <= Zpos m /\ Zpos (digits2_pos m) = 53 /\ e = ce k (Z.abs z) /\
  0 < Z.abs z /\ s = (z <? 0) /\ Zpos m = cm (Z.abs z).
Proof.
  intros [H Hz]. destruct (is_canon _ _ Hz H) as [[_ (s' & E)]|[Nz E]]; [discriminate|].
  unfold canon in E. destruct (Z.eqb_spec z 0); [lia|]. inversion E; subst.
  assert (Ha : 0 < Z.abs z < 2 ^ 53) by lia. destruct (cm_pos _ Ha) as (p & Ep & Dp). assert (Bc := cm_bounds _ Ha).
  rewrite Ep. cbn [Z.to_pos]. rewrite <- Ep. repeat split; auto; lia.
Qed.

Lemma R_mul f g x w : R f x -> f64_is 0 g w -> Z.abs (x * w) < 2 ^ 53 ->
  R (SFmul f64_prec f64_emax f g) (x * w).
Proof.
  intros Hf Hg B. assert (HF := Hf). destruct f as [s|s| |s m e]; try (destruct Hf; contradiction).
  - destruct Hf as [Hf _]. cbn in Hf. subst x. destruct g as [s'|s'| |s' m' e']; try contradiction; cbn; apply R_zero.
  - destruct g as [s'|s'| |s' m' e']; try contradiction.
    + cbn in Hg. subst w. cbn. rewrite Z.mul_0_r. apply R_zero.
    + destruct (mant_big _ _ _ _ Hf) as (M1 & _). destruct Hf as [[_ Hf] Hx]. destruct Hg as [_ Hg]. cbn [SFmul].
      assert (V : vl (cond_Zopp (xorb s s') (Zpos (m * m'))) (e + e') (x * w)).
      { replace (cond_Zopp (xorb s s') (Zpos (m * m'))) with (cond_Zopp s (Zpos m) * cond_Zopp s' (Zpos m')).
        2:{ destruct s, s'; cbn [xorb cond_Zopp]; lia. }
        change (vl (cond_Zopp s (Zpos m)) e x) in Hf. rewrite Z.add_0_r in Hg.
        pose (K := Z.max k (- e)). assert (HKd : K = Z.max k (- e)) by reflexivity. clearbody K. pose (L := Z.max 0 (- e')). assert (HLd : L = Z.max 0 (- e')) by reflexivity. clearbody L.
        apply (vl_scale _ _ _ K) in Hf; [|lia|lia].
        apply (vl_scale _ _ _ (K + L)); [lia|lia|].
        assert (Hg' : cond_Zopp s' (Zpos m') * 2 ^ (e' + L) = w * 2 ^ L).
        { rewrite HLd. destruct (Z_le_gt_dec 0 e').
          - rewrite (Z.max_r 0 e'), (Z.max_l 0 (- e')) in Hg by lia. rewrite (Z.max_l 0 (- e')) by lia. rewrite Z.add_0_r. exact Hg.
          - rewrite (Z.max_l 0 e'), (Z.max_r 0 (- e')) in Hg by lia. rewrite (Z.max_r 0 (- e')) by lia.
            rewrite Z.add_opp_diag_r. exact Hg. }
        replace (e + e' + (K + L)) with ((e + K) + (e' + L)) by lia. replace (K + L - k) with ((K - k) + L) by lia.
        rewrite (Z.pow_add_r 2 (e + K) (e' + L)) by lia.
        rewrite (Z.pow_add_r 2 (K - k) L) by lia.
        replace (x * w * (2 ^ (K - k) * 2 ^ L)) with ((x * 2 ^ (K - k)) * (w * 2 ^ L)) by ring. rewrite <- Hf, <- Hg'. ring. }
      assert (Hs := vl_sign _ _ _ V).
      assert (Nz : x * w <> 0) by (destruct (xorb s s'); cbn [cond_Zopp] in Hs; lia).
      assert (V' : vl (Zpos (m * m')) (e + e') (Z.abs (x * w))).
      { destruct (xorb s s'); cbn [cond_Zopp] in V, Hs.
        - apply vl_opp in V. replace (Z.abs (x * w)) with (- (x * w)) by lia. exact V.
        - replace (Z.abs (x * w)) with (x * w) by lia. exact V. }
      rewrite (round_aux_exact k (Z.abs (x * w))); auto; [|lia|nia].
      assert (C := R_canon (x * w) B). unfold canon in C. destruct (Z.eqb_spec (x * w) 0); [lia|].
      replace (xorb s s') with (x * w <? 0); [exact C|].
      destruct (Z.ltb_spec (x * w) 0), (xorb s s'); auto; cbn [cond_Zopp] in Hs; lia.
Qed.

Lemma R_half f x : R f (2 * x) -> R (SFdiv f64_prec f64_emax f (f64_of_Z 2)) x.
Proof.
  intros HF. assert (Hf := HF). change (f64_of_Z 2) with (S754_finite false 4503599627370496 (-51)).
  destruct f as [s|s| |s m e]; try (destruct Hf; contradiction).
  - destruct Hf as [Hf _]. cbn [f64_is] in Hf. replace x with 0 by lia. apply R_zero.
  - destruct (mant_big _ _ _ _ HF) as (M1 & M2 & M3 & M4 & M5 & M6). destruct Hf as [[_ Hf] Hx].
    assert (Ha : 0 < Z.abs (2 * x) < 2 ^ 53) by lia. destruct (zd_bounds _ Ha) as [B D].
    cbn [SFdiv]. unfold SFdiv_core_binary. cbn [Zdigits2]. rewrite M2.
    change (Zpos (digits2_pos 4503599627370496)) with 53.
    replace (53 + e - (53 + -51)) with (e + 51) by lia.
    replace (fexp f64_prec f64_emax (e + 51)) with (e - 2).
    2:{ unfold fexp, emin, f64_prec, f64_emax. rewrite Z.max_l; [lia|]. unfold ce in M3. lia. }
    rewrite Z.min_l by lia. replace (e - -51 - (e - 2)) with 53 by lia. cbn [Z.sub].
    rewrite Z.shiftl_mul_pow2 by lia.
    assert (Eq : Z.div_eucl (Zpos m * 2 ^ 53) 4503599627370496 = (2 * Zpos m, 0)).
    { assert (X := Z_div_mod (Zpos m * 2 ^ 53) 4503599627370496 ltac:(lia)).
      destruct (Z.div_eucl (Zpos m * 2 ^ 53) 4503599627370496) as [q r]. destruct X as [X Y].
      assert (q = 2 * Zpos m) by lia. f_equal; lia. }
    rewrite Eq. change (new_location 4503599627370496 0) with loc_Exact.
    assert (V : vl (Zpos m) e (Z.abs (2 * x))).
    { assert (Hs := vl_sign _ _ _ Hf). destruct s; cbn [cond_Zopp] in Hs, Hf.
      - apply vl_opp in Hf. replace (Z.abs (2 * x)) with (- (2 * x)) by lia. exact Hf.
      - replace (Z.abs (2 * x)) with (2 * x) by lia. exact Hf. }
    assert (V2 : vl (2 * Zpos m) (e - 2) (Z.abs x)).
    { pose (K := Z.max k (2 - e)). assert (HKd : K = Z.max k (2 - e)) by reflexivity. clearbody K. apply (vl_scale _ _ _ K) in V; [|lia|lia]. apply (vl_scale _ _ _ K); [lia|lia|].
      replace (e + K) with (2 + (e - 2 + K)) in V by lia. rewrite Z.pow_add_r in V by lia. change (2 ^ 2) with 4 in V.
      rewrite Z.abs_mul in V. change (Z.abs 2) with 2 in V. clear - V. lia. }
    rewrite (round_aux_exact k (Z.abs x)); auto; [|lia|lia].
    assert (C := R_canon x ltac:(lia)). unfold canon in C. destruct (Z.eqb_spec x 0); [lia|].
    replace (xorb s false) with (x <? 0); [exact C|]. rewrite M5. destruct (Z.ltb_spec x 0), (Z.ltb_spec (2 * x) 0); auto; lia.
Qed.

Lemma zd_mono a b : 0 < a < 2 ^ 53 -> 0 < b < 2 ^ 53 -> zd a < zd b -> a < b.
Proof.
  intros Ha Hb L. destruct (zd_bounds a Ha) as [A _], (zd_bounds b Hb) as [C _].
  assert (2 ^ zd a <= 2 ^ (zd b - 1)) by (apply Z.pow_le_mono_r; [lia|]; destruct (zd_bounds b Hb); lia). lia.
Qed.

Lemma pos_compare a b ma mb : 0 < a < 2 ^ 53 -> 0 < b < 2 ^ 53 -> Zpos ma = cm a -> Zpos mb = cm b ->
  match ce k a ?= ce k b with Eq => Pos.compare_cont Eq ma mb | Lt => Lt | Gt => Gt end = (a ?= b).
Proof.
  intros Ha Hb Ma Mb. destruct (Z.compare_spec (ce k a) (ce k b)) as [E|E|E]; unfold ce in E.
  - change (Pos.compare_cont Eq ma mb) with (Zpos ma ?= Zpos mb). rewrite Ma, Mb. unfold cm.
    assert (Ez : zd a = zd b) by lia. rewrite Ez. destruct (zd_bounds b Hb) as [_ Db].
    rewrite !(Z.mul_comm _ (2 ^ _)). apply Zmult_compare_compat_l || (symmetry; apply Zmult_compare_compat_l).
    assert (0 < 2 ^ (53 - zd b)) by (apply Z.pow_pos_nonneg; lia). lia.
  - symmetry. apply Z.compare_lt_iff. apply zd_mono; auto. lia.
  - symmetry. apply Z.compare_gt_iff. apply zd_mono; auto. lia.
Qed.

Lemma R_compare f g x y : R f x -> R g y -> SFcompare f g = Some (x ?= y).
Proof.
  intros Hf Hg. assert (HF := Hf). assert (HG := Hg).
  destruct f as [s|s| |s m e]; try (destruct Hf; contradiction); destruct g as [s'|s'| |s' m' e']; try (destruct Hg; contradiction).
  - destruct Hf as [Hf _], Hg as [Hg _]. cbn in Hf, Hg. subst. reflexivity.
  - destruct Hf as [Hf _]. cbn in Hf. subst x. destruct (mant_big _ _ _ _ HG) as (_ & _ & _ & P & -> & _).
    cbn [SFcompare]. f_equal. destruct (Z.ltb_spec y 0); destruct y; cbn; lia || reflexivity.
  - destruct Hg as [Hg _]. cbn in Hg. subst y. destruct (mant_big _ _ _ _ HF) as (_ & _ & _ & P & -> & _).
    cbn [SFcompare]. f_equal. destruct (Z.ltb_spec x 0); destruct x; cbn; lia || reflexivity.
  - destruct (mant_big _ _ _ _ HF) as (_ & _ & Ee & P & Es & Em).
    destruct (mant_big _ _ _ _ HG) as (_ & _ & Ee' & P' & Es' & Em'). destruct Hf as [_ Bx], Hg as [_ By].
    cbn [SFcompare]. f_equal. assert (PC := pos_compare (Z.abs x) (Z.abs y) m m' ltac:(lia) ltac:(lia) Em Em').
    rewrite <- Ee, <- Ee' in PC. rewrite Es, Es'. destruct (Z.ltb_spec x 0), (Z.ltb_spec y 0).
    + assert (X : (x ?= y) = CompOpp (Z.abs x ?= Z.abs y)).
      { rewrite !Z.abs_neq by lia. rewrite <- Z.compare_opp. apply Z.compare_antisym. }
      rewrite X, <- PC. destruct (e ?= e'); reflexivity.
    + symmetry. apply Z.compare_lt_iff. lia.
    + symmetry. apply Z.compare_gt_iff. lia.
    + rewrite !Z.abs_eq in PC by lia. exact PC.
Qed.

End Ops.

(** the same double in a finer unit *)
Lemma is_finer j k f z : 0 <= j <= k -> f64_is j f z -> f64_is k f (z * 2 ^ (k - j)).
Proof.
  intros Hjk H. destruct f as [s|s| |s m e]; cbn [f64_is] in *; try lia.
  destruct H as [Hv H]. split; [exact Hv|].
  change (vl j (cond_Zopp s (Zpos m)) e z) in H. change (vl k (cond_Zopp s (Zpos m)) e (z * 2 ^ (k - j))).
  pose (K := Z.max k (- e)). assert (HKd : K = Z.max k (- e)) by reflexivity. clearbody K.
  apply (vl_scale j _ _ _ K) in H; [|lia|lia]. apply (vl_scale k _ _ _ K); [lia|lia|].
  rewrite H, <- Z.mul_assoc, <- Z.pow_add_r by lia. do 2 f_equal. lia.
Qed.
