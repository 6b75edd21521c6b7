(** * Addition and subtraction of doubles round to nearest

    Values of finite doubles are written as integers, in units of 2^-1074. *)
From Coq Require Import Floats.SpecFloat.
From Verif Require Import Base Data WrappedDouble FloatSpec FloatExact.
Local Open Scope Z_scope.

Definition fv (f : spec_float) : Z :=
  match f with S754_finite s m e => cond_Zopp s (Zpos m) * 2 ^ (e + 1074) | _ => 0 end.

Definition fin (f : spec_float) : Prop :=
  match f with
  | S754_zero _ => True
  | S754_finite _ m e => valid_binary f64_prec f64_emax f = true
  | _ => False
  end.

Lemma fexp_eq e : fexp 53 1024 e = Z.max (e - 53) (-1074).
Proof. reflexivity. Qed.

Lemma bounded_iff m e : bounded 53 1024 m e = true <-> fexp 53 1024 (Zpos (digits2_pos m) + e) = e /\ e <= 971.
Proof.
  unfold bounded, canonical_mantissa. rewrite andb_true_iff. rewrite <- Zeq_is_eq_bool. rewrite Zle_is_le_bool. reflexivity.
Qed.

Lemma bounded_range m e : bounded 53 1024 m e = true ->
  -1074 <= e <= 971 /\ Zpos (digits2_pos m) <= 53 /\ (-1074 < e -> Zpos (digits2_pos m) = 53).
Proof. rewrite bounded_iff, fexp_eq. lia. Qed.

Lemma cond_mul s a b : cond_Zopp s a * b = cond_Zopp s (a * b).
Proof. destruct s; cbn [cond_Zopp]; lia. Qed.

(** ** Comparison *)
Lemma pos_cmp m e m' e' : bounded 53 1024 m e = true -> bounded 53 1024 m' e' = true ->
  (Zpos m * 2 ^ (e + 1074) ?= Zpos m' * 2 ^ (e' + 1074)) =
  match e ?= e' with Lt => Lt | Gt => Gt | Eq => Pos.compare_cont Eq m m' end.
Proof.
  intros H H'. apply bounded_range in H, H'. destruct H as (A1 & A2 & A3), H' as (B1 & B2 & B3).
  assert (Dm := digits_bounds m). assert (Dm' := digits_bounds m').
  assert (P : forall m1 e1 m2 e2, -1074 <= e1 -> e1 < e2 -> Zpos (digits2_pos m1) <= 53 -> Zpos (digits2_pos m2) = 53 ->
    Zpos m1 * 2 ^ (e1 + 1074) < Zpos m2 * 2 ^ (e2 + 1074)).
  { intros m1 e1 m2 e2 H1 H2 H3 H4. assert (D1 := digits_bounds m1). assert (D2 := digits_bounds m2). rewrite H4 in D2.
    apply Z.lt_le_trans with (2 ^ 53 * 2 ^ (e1 + 1074)).
    - apply Z.mul_lt_mono_pos_r; [apply Z.pow_pos_nonneg; lia|].
      apply Z.lt_le_trans with (2 ^ Zpos (digits2_pos m1)); [lia|apply Z.pow_le_mono_r; lia].
    - apply Z.le_trans with (2 ^ 52 * 2 ^ (e2 + 1074)).
      + rewrite <- !Z.pow_add_r by lia. apply Z.pow_le_mono_r; lia.
      + apply Z.mul_le_mono_nonneg_r; [apply Z.pow_nonneg; lia|]. change 52 with (53 - 1). lia. }
  destruct (Z.compare_spec e e') as [->|L|L].
  - change (Pos.compare_cont Eq m m') with (m ?= m')%positive.
    rewrite <- Zmult_compare_compat_r by (apply Z.lt_gt, Z.pow_pos_nonneg; lia). reflexivity.
  - apply Z.compare_lt_iff. apply P; lia.
  - apply Z.compare_gt_iff. apply P; lia.
Qed.

Lemma fv_sign (s : bool) m e : -1074 <= e -> if s then fv (S754_finite s m e) < 0 else 0 < fv (S754_finite s m e).
Proof.
  intros He. assert (P : 0 < Zpos m * 2 ^ (e + 1074)) by (apply Z.mul_pos_pos; [lia|apply Z.pow_pos_nonneg; lia]).
  destruct s; cbn [fv]; rewrite cond_mul; cbn [cond_Zopp]; lia.
Qed.

Theorem compare_fv f g : fin f -> fin g -> SFcompare f g = Some (fv f ?= fv g).
Proof.
  destruct f as [s|s| |s m e]; try contradiction; destruct g as [s'|s'| |s' m' e']; try contradiction; intros Hf Hg.
  - reflexivity.
  - cbn [fin valid_binary] in Hg. apply bounded_range in Hg. assert (X := fv_sign s' m' e' ltac:(lia)).
    cbn [SFcompare]. change (fv (S754_zero s)) with 0. f_equal. destruct s'; symmetry.
    + apply Z.compare_gt_iff. lia.
    + apply Z.compare_lt_iff. lia.
  - cbn [fin valid_binary] in Hf. apply bounded_range in Hf. assert (X := fv_sign s m e ltac:(lia)).
    cbn [SFcompare]. change (fv (S754_zero s')) with 0. f_equal. destruct s; symmetry.
    + apply Z.compare_lt_iff. lia.
    + apply Z.compare_gt_iff. lia.
  - cbn [fin valid_binary] in Hf, Hg. assert (X := pos_cmp m e m' e' Hf Hg). apply bounded_range in Hf, Hg.
    assert (S1 := fv_sign s m e ltac:(lia)). assert (S2 := fv_sign s' m' e' ltac:(lia)).
    cbn [SFcompare]. f_equal. destruct s, s'.
    + cbn [fv cond_Zopp]. 
      change (Z.neg m) with (- Zpos m). change (Z.neg m') with (- Zpos m').
      rewrite !Z.mul_opp_l, Z.compare_opp, (Z.compare_antisym (Zpos m * 2 ^ (e + 1074))), X. destruct (e ?= e'); reflexivity.
    + symmetry. apply Z.compare_lt_iff. lia.
    + symmetry. apply Z.compare_gt_iff. lia.
    + cbn [fv cond_Zopp]. rewrite X. reflexivity.
Qed.

Lemma fv_lt f g : fin f -> fin g -> SFltb f g = (fv f <? fv g).
Proof. intros Hf Hg. unfold SFltb. rewrite compare_fv by auto. reflexivity. Qed.
Lemma fv_le f g : fin f -> fin g -> SFleb f g = (fv f <=? fv g).
Proof. intros Hf Hg. unfold SFleb. rewrite compare_fv by auto. reflexivity. Qed.

(** ** Rounding *)
Definition ulp (V : Z) : Z := 2 ^ Z.max 0 (Zdigits2 V - 53).

(** [W] is a multiple of the unit in the last place of [V] and nearest to [V] *)
Definition nearest (V W : Z) : Prop := exists q, W = q * ulp V /\ 2 * Z.abs (V - W) <= ulp V.

Lemma ulp_pos V : 0 < ulp V.
Proof. apply Z.pow_pos_nonneg; lia. Qed.
Lemma ulp_opp V : ulp (- V) = ulp V.
Proof. unfold ulp. destruct V; reflexivity. Qed.
Lemma nearest_opp V W : nearest V W -> nearest (- V) (- W).
Proof. intros (q & E & H). exists (- q). rewrite ulp_opp. split; lia. Qed.

(** rounding does not cross a multiple of the unit *)
Lemma nearest_ge V W t : nearest V W -> t * ulp V <= V -> t * ulp V <= W.
Proof. intros (q & -> & H) Ht. assert (P := ulp_pos V). apply Z.mul_le_mono_nonneg_r; [lia|]. nia. Qed.
Lemma nearest_le V W t : nearest V W -> V <= t * ulp V -> W <= t * ulp V.
Proof. intros (q & -> & H) Ht. assert (P := ulp_pos V). apply Z.mul_le_mono_nonneg_r; [lia|]. nia. Qed.

(** 2M = (2m + r) 2^n + t *)
Definition shifted (M : Z) (n : nat) (a : shr_record) : Prop :=
  exists t, 2 * M = (2 * shr_m a + (if shr_r a then 1 else 0)) * 2 ^ Z.of_nat n + t /\ 0 <= t < 2 ^ Z.of_nat n /\
            (shr_s a = false -> t = 0) /\ (shr_s a = true -> 0 < t).

Lemma shr_iter M n : 0 <= M -> shifted M n (Nat.iter n shr_1 (Build_shr_record M false false)) /\
  0 <= shr_m (Nat.iter n shr_1 (Build_shr_record M false false)).
Proof.
  intros HM. induction n as [|n [IH IP]].
  - cbn [Nat.iter nat_rect]. split; [|exact HM]. exists 0. cbn [shr_m shr_r shr_s Z.of_nat]. change (2 ^ 0) with 1. repeat split; lia.
  - change (Nat.iter (S n) shr_1 (Build_shr_record M false false)) with (shr_1 (Nat.iter n shr_1 (Build_shr_record M false false))).
    destruct (Nat.iter n shr_1 (Build_shr_record M false false)) as [m r s]. unfold shifted in *. cbn [shr_m shr_r shr_s] in *.
    destruct IH as (t & E & Ht & F1 & F2). assert (P := Z.pow_pos_nonneg 2 (Z.of_nat n) ltac:(lia) ltac:(lia)).
    rewrite Nat2Z.inj_succ, Z.pow_succ_r by lia.
    assert (Q : exists m' b, shr_1 (Build_shr_record m r s) = Build_shr_record m' b (r || s) /\ m = 2 * m' + (if b then 1 else 0) /\ 0 <= m').
    { destruct m as [|[p|p|]|p]; try lia; cbn [shr_1]; eexists _, _; (split; [reflexivity|]); cbv iota; lia. }
    destruct Q as (m' & b & -> & Em & Pm). cbn [shr_m shr_r shr_s]. split; [|exact Pm].
    exists ((if r then 2 ^ Z.of_nat n else 0) + t). split; [|split; [|split]].
    + rewrite E, Em. destruct r, b; lia.
    + destruct r; lia.
    + intros H. apply orb_false_iff in H. destruct H as [-> H]. rewrite F1 by exact H. lia.
    + intros H. apply orb_true_iff in H. destruct r; [lia|]. destruct H as [H|H]; [discriminate|]. specialize (F2 H). lia.
Qed.

Lemma round_near M n a : shifted M n a -> 
  let q := round_nearest_even (shr_m a) (loc_of_shr_record a) in
  2 * Z.abs (M - q * 2 ^ Z.of_nat n) <= 2 ^ Z.of_nat n /\ shr_m a <= q <= shr_m a + 1.
Proof.
  intros (t & E & Ht & F1 & F2). destruct a as [m r s]. cbn [shr_m shr_r shr_s] in *. set (u := 2 ^ Z.of_nat n) in *. clearbody u.
  destruct r, s; cbn [loc_of_shr_record round_nearest_even].
  - specialize (F2 eq_refl). split; [|lia]. nia.
  - rewrite (F1 eq_refl) in *. destruct (Z.even m); split; try lia; nia.
  - specialize (F2 eq_refl). split; [|lia]. nia.
  - rewrite (F1 eq_refl) in *. split; [|lia]. nia.
Qed.

Lemma digits_scale m k : 0 <= k -> Zdigits2 (Zpos m * 2 ^ k) = Zpos (digits2_pos m) + k.
Proof.
  intros Hk. assert (P : 0 < Zpos m * 2 ^ k) by (apply Z.mul_pos_pos; [lia|apply Z.pow_pos_nonneg; lia]).
  assert (D := digits_bounds m). assert (P2 := Z.pow_pos_nonneg 2 k ltac:(lia) ltac:(lia)).
  destruct (Zpos m * 2 ^ k) as [|p|p] eqn:E; try lia. cbn [Zdigits2]. apply digits_unique; [lia|]. rewrite <- E.
  replace (Zpos (digits2_pos m) + k - 1) with ((Zpos (digits2_pos m) - 1) + k) by lia. rewrite !(Z.pow_add_r 2 _ k) by lia.
  split; [apply Z.mul_le_mono_nonneg_r; lia|apply Z.mul_lt_mono_pos_r; lia].
Qed.

Lemma round_nearest s m e : -1074 <= e -> Zpos (digits2_pos m) + e <= 1023 ->
  fin (binary_round 53 1024 s m e) /\
  nearest (cond_Zopp s (Zpos m * 2 ^ (e + 1074))) (fv (binary_round 53 1024 s m e)).
Proof.
  intros He Hd. assert (Dm := digits_bounds m). set (d := Zpos (digits2_pos m)) in *. assert (Hd1 : 1 <= d) by (unfold d; lia).
  assert (EV : ulp (cond_Zopp s (Zpos m * 2 ^ (e + 1074))) = 2 ^ (Z.max (d + e - 53) (-1074) + 1074)).
  { assert (X : ulp (Zpos m * 2 ^ (e + 1074)) = 2 ^ (Z.max (d + e - 53) (-1074) + 1074)).
    { unfold ulp. rewrite digits_scale by lia. fold d. f_equal. lia. }
    destruct s; cbn [cond_Zopp]; rewrite ?ulp_opp; exact X. }
  set (V := Zpos m * 2 ^ (e + 1074)) in *.
  assert (Fin : forall mm ee, bounded 53 1024 mm ee = true -> Z.max (d + e - 53) (-1074) <= ee ->
    2 * Z.abs (V - Zpos mm * 2 ^ (ee + 1074)) <= 2 ^ (Z.max (d + e - 53) (-1074) + 1074) ->
    fin (S754_finite s mm ee) /\ nearest (cond_Zopp s V) (fv (S754_finite s mm ee))).
  { intros mm ee H1 H2 H3. split; [exact H1|].
    assert (Ee : Zpos mm * 2 ^ (ee + 1074) = Zpos mm * 2 ^ (ee - Z.max (d + e - 53) (-1074)) * 2 ^ (Z.max (d + e - 53) (-1074) + 1074)).
    { rewrite <- Z.mul_assoc, <- Z.pow_add_r by lia. do 2 f_equal. lia. }
    exists (cond_Zopp s (Zpos mm * 2 ^ (ee - Z.max (d + e - 53) (-1074)))). rewrite EV. cbn [fv]. rewrite !cond_mul, <- Ee. split; [reflexivity|].
    destruct s; cbn [cond_Zopp]; lia. }
  unfold binary_round. rewrite fexp_eq. fold d. unfold shl_align.
  destruct (Z_lt_ge_dec (Z.max (d + e - 53) (-1074)) e) as [C|C].
  - (* shift to the left, nothing lost *)
    destruct (Z.max (d + e - 53) (-1074) - e) as [|p|p] eqn:Ep; try lia.
    set (fe := Z.max (d + e - 53) (-1074)) in *.
    assert (Dz : Zpos (digits2_pos (shift_pos p m)) = d + Zpos p).
    { assert (X := digits_scale m (Zpos p) ltac:(lia)). rewrite <- shift_pos_eq in X. exact X. }
    assert (Es : forall e0, e0 = fe -> shr_fexp 53 1024 (Zpos (shift_pos p m)) e0 loc_Exact = (Build_shr_record (Zpos (shift_pos p m)) false false, fe)).
    { intros e0 ->. unfold shr_fexp. cbn [Zdigits2 shr_record_of_loc]. rewrite Dz, fexp_eq.
      replace (Z.max (d + Zpos p + fe - 53) (-1074) - fe) with 0 by lia. reflexivity. }
    unfold binary_round_aux. rewrite Es by reflexivity. cbn [shr_m loc_of_shr_record round_nearest_even]. rewrite Es by reflexivity. cbn [shr_m].
    replace (Zle_bool fe (1024 - 53)) with true by (symmetry; apply Zle_is_le_bool; lia).
    apply Fin; [|lia|].
    + apply bounded_iff. rewrite Dz, fexp_eq. lia.
    + rewrite shift_pos_eq, <- Z.mul_assoc, <- Z.pow_add_r by lia. replace (Zpos p + (fe + 1074)) with (e + 1074) by lia.
      fold V. rewrite Z.sub_diag. assert (X := Z.pow_pos_nonneg 2 (fe + 1074) ltac:(lia) ltac:(lia)). cbn [Z.abs]. lia.
  - assert (Ef : match Z.max (d + e - 53) (-1074) - e with Zneg d0 => (shift_pos d0 m, Z.max (d + e - 53) (-1074)) | _ => (m, e) end = (m, e)).
    { destruct (Z.max (d + e - 53) (-1074) - e) eqn:Ep; try reflexivity. lia. }
    rewrite Ef. clear Ef. unfold binary_round_aux.
    destruct (Z.eq_dec (Z.max (d + e - 53) (-1074)) e) as [C2|C2].
    + (* nothing to do *)
      assert (Es : shr_fexp 53 1024 (Zpos m) e loc_Exact = (Build_shr_record (Zpos m) false false, e)).
      { unfold shr_fexp. cbn [Zdigits2 shr_record_of_loc]. rewrite fexp_eq. fold d. rewrite C2, Z.sub_diag. reflexivity. }
      rewrite Es. cbn [shr_m loc_of_shr_record round_nearest_even]. rewrite Es. cbn [shr_m].
      replace (Zle_bool e (1024 - 53)) with true by (symmetry; apply Zle_is_le_bool; lia).
      apply Fin; [|lia|].
      * apply bounded_iff. rewrite fexp_eq. fold d. lia.
      * fold V. rewrite Z.sub_diag. assert (X := Z.pow_pos_nonneg 2 (Z.max (d + e - 53) (-1074) + 1074) ltac:(lia) ltac:(lia)). cbn [Z.abs]. lia.
    + (* bits are lost *)
      assert (Emx : Z.max (d + e - 53) (-1074) = d + e - 53) by lia.
      assert (Hn : exists n, d - 53 = Zpos n) by (destruct (d - 53) eqn:E0; try lia; eauto). destruct Hn as (n & Hn).
      assert (Es : shr_fexp 53 1024 (Zpos m) e loc_Exact = (Nat.iter (Pos.to_nat n) shr_1 (Build_shr_record (Zpos m) false false), d + e - 53)).
      { unfold shr_fexp. cbn [Zdigits2 shr_record_of_loc]. rewrite fexp_eq. fold d. rewrite Emx.
        replace (d + e - 53 - e) with (Zpos n) by lia. cbn [shr]. rewrite iter_pos_nat. f_equal. lia. }
      rewrite Es. clear Es. destruct (shr_iter (Zpos m) (Pos.to_nat n) ltac:(lia)) as [Hs _].
      set (a := Nat.iter (Pos.to_nat n) shr_1 (Build_shr_record (Zpos m) false false)) in *. clearbody a.
      destruct (round_near _ _ _ Hs) as [Hq1 Hq2]. set (q := round_nearest_even (shr_m a) (loc_of_shr_record a)) in *. clearbody q.
      replace (Z.of_nat (Pos.to_nat n)) with (d - 53) in * by lia.
      assert (Hm53 : 2 ^ 52 <= shr_m a < 2 ^ 53).
      { destruct Hs as (t & E & Ht & _). replace (Z.of_nat (Pos.to_nat n)) with (d - 53) in * by lia.
        replace (d - 1) with (52 + (d - 53)) in Dm by lia. replace d with (53 + (d - 53)) in Dm at 2 by lia. rewrite !Z.pow_add_r in Dm by lia.
        set (u := 2 ^ (d - 53)) in *. clearbody u. destruct (shr_r a); split; nia. }
      clear Hs. rewrite Emx in *.
      assert (Ev : forall z, 2 * Z.abs (Zpos m - z * 2 ^ (d - 53)) <= 2 ^ (d - 53) -> 2 * Z.abs (V - z * 2 ^ (d + e - 53 + 1074)) <= 2 ^ (d + e - 53 + 1074)).
      { intros z Hz. unfold V. replace (d + e - 53 + 1074) with ((d - 53) + (e + 1074)) by lia. rewrite (Z.pow_add_r 2 (d - 53) (e + 1074)) by lia.
        replace (Zpos m * 2 ^ (e + 1074) - z * (2 ^ (d - 53) * 2 ^ (e + 1074))) with ((Zpos m - z * 2 ^ (d - 53)) * 2 ^ (e + 1074)) by ring.
        assert (X := Z.pow_pos_nonneg 2 (e + 1074) ltac:(lia) ltac:(lia)). rewrite Z.abs_mul, (Z.abs_eq (2 ^ (e + 1074))) by lia.
        rewrite Z.mul_assoc. apply Z.mul_le_mono_nonneg_r; lia. }
      destruct (Z.eq_dec q (2 ^ 53)) as [Eq|Nq].
      * subst q. change (2 ^ 53) with (Zpos (2 ^ 53)).
        assert (Es : shr_fexp 53 1024 (Zpos (2 ^ 53)) (d + e - 53) loc_Exact = (Build_shr_record (Zpos (2 ^ 52)) false false, d + e - 53 + 1)).
        { unfold shr_fexp. change (Zdigits2 (Zpos (2 ^ 53))) with 54. cbn [shr_record_of_loc]. rewrite fexp_eq.
          replace (Z.max (54 + (d + e - 53) - 53) (-1074) - (d + e - 53)) with 1 by lia. reflexivity. }
        rewrite Es. cbn [shr_m].
        replace (Zle_bool (d + e - 53 + 1) (1024 - 53)) with true by (symmetry; apply Zle_is_le_bool; lia).
        apply Fin; [|lia|].
        -- apply bounded_iff. change (Zpos (digits2_pos (2 ^ 52))) with 53. rewrite fexp_eq. lia.
        -- replace (Zpos (2 ^ 52) * 2 ^ (d + e - 53 + 1 + 1074)) with (2 ^ 53 * 2 ^ (d + e - 53 + 1074)).
           ++ apply Ev. exact Hq1.
           ++ change (Zpos (2 ^ 52)) with (2 ^ 52). rewrite <- !Z.pow_add_r by lia. f_equal. lia.
      * assert (Pq : exists p, q = Zpos p /\ Zpos (digits2_pos p) = 53).
        { change (2 ^ 52) with 4503599627370496 in *. change (2 ^ 53) with 9007199254740992 in *. clear Hq1 Ev.
          destruct q as [|p|p]; try lia. exists p. split; [reflexivity|]. apply digits_unique; [lia|].
          change (2 ^ (53 - 1)) with 4503599627370496. change (2 ^ 53) with 9007199254740992. lia. }
        destruct Pq as (p & -> & Dp).
        assert (Es : shr_fexp 53 1024 (Zpos p) (d + e - 53) loc_Exact = (Build_shr_record (Zpos p) false false, d + e - 53)).
        { unfold shr_fexp. cbn [Zdigits2 shr_record_of_loc]. rewrite Dp, fexp_eq.
          replace (Z.max (53 + (d + e - 53) - 53) (-1074) - (d + e - 53)) with 0 by lia. reflexivity. }
        rewrite Es. cbn [shr_m].
        replace (Zle_bool (d + e - 53) (1024 - 53)) with true by (symmetry; apply Zle_is_le_bool; lia).
        apply Fin; [|lia|apply Ev; exact Hq1]. apply bounded_iff. rewrite Dp, fexp_eq. lia.
Qed.

Lemma digits_lt m d : 0 <= d -> Zpos m < 2 ^ d -> Zpos (digits2_pos m) <= d.
Proof.
  intros Hd H. assert (D := digits_bounds m). destruct (Z_lt_ge_dec d (Zpos (digits2_pos m))); [|lia].
  assert (2 ^ d <= 2 ^ (Zpos (digits2_pos m) - 1)) by (apply Z.pow_le_mono_r; lia). lia.
Qed.

(** the largest magnitude considered, 2^1023 *)
Definition big : Z := 2 ^ 2097.

Lemma normalize_nearest M e : -1074 <= e -> Z.abs (M * 2 ^ (e + 1074)) < big ->
  fin (binary_normalize 53 1024 M e false) /\ nearest (M * 2 ^ (e + 1074)) (fv (binary_normalize 53 1024 M e false)).
Proof.
  intros He HB. assert (P := Z.pow_pos_nonneg 2 (e + 1074) ltac:(lia) ltac:(lia)).
  assert (G : forall m, Zpos m * 2 ^ (e + 1074) < big -> Zpos (digits2_pos m) + e <= 1023).
  { intros m Hm. destruct (Z_le_gt_dec e 1023) as [L|L].
    - assert (X := digits_lt m (1023 - e) ltac:(lia)). cut (Zpos (digits2_pos m) <= 1023 - e); [lia|]. apply X.
      apply Z.mul_lt_mono_pos_r with (2 ^ (e + 1074)); [exact P|]. rewrite <- Z.pow_add_r by lia. replace (1023 - e + (e + 1074)) with 2097 by lia. exact Hm.
    - exfalso. assert (big <= 2 ^ (e + 1074)) by (apply Z.pow_le_mono_r; lia). nia. }
  destruct M as [|m|m]; cbn [binary_normalize].
  - split; [exact I|]. exists 0. change (0 * 2 ^ (e + 1074)) with 0. cbn [fv]. split; [reflexivity|]. assert (X := ulp_pos 0). rewrite Z.sub_diag. lia.
  - rewrite Z.abs_eq in HB by lia. apply (round_nearest false m e He (G m HB)).
  - change (Zneg m) with (- Zpos m) in *. rewrite Z.mul_opp_l in *. rewrite Z.abs_opp, Z.abs_eq in HB by lia. apply (round_nearest true m e He (G m HB)).
Qed.

(** a double is nearest to itself *)
Lemma fv_nearest f : fin f -> nearest (fv f) (fv f).
Proof.
  destruct f as [s|s| |s m e]; try contradiction; intros Hf.
  - exists 0. cbn [fv]. assert (X := ulp_pos 0). split; [reflexivity|]. rewrite Z.sub_diag. lia.
  - cbn [fin valid_binary] in Hf. apply bounded_iff in Hf. rewrite fexp_eq in Hf. destruct Hf as [Hf _].
    assert (X : nearest (Zpos m * 2 ^ (e + 1074)) (Zpos m * 2 ^ (e + 1074))).
    { exists (Zpos m). assert (Eu : ulp (Zpos m * 2 ^ (e + 1074)) = 2 ^ (e + 1074)).
      { unfold ulp. rewrite digits_scale by lia. f_equal. lia. }
      rewrite Eu. split; [reflexivity|]. rewrite Z.sub_diag. assert (P := Z.pow_pos_nonneg 2 (e + 1074) ltac:(lia) ltac:(lia)). cbn [Z.abs]. lia. }
    cbn [fv]. rewrite cond_mul. destruct s; cbn [cond_Zopp]; [apply nearest_opp|]; exact X.
Qed.

Lemma fin_opp f : fin f -> fin (SFopp f) /\ fv (SFopp f) = - fv f.
Proof.
  destruct f as [s|s| |s m e]; try contradiction; intros Hf; cbn [SFopp fv]; split; auto.
  rewrite !cond_mul. destruct s; cbn [negb cond_Zopp]; lia.
Qed.

Lemma align_fv m e ez s : -1074 <= ez <= e -> cond_Zopp s (Zpos (fst (shl_align m e ez))) * 2 ^ (ez + 1074) = cond_Zopp s (Zpos m) * 2 ^ (e + 1074).
Proof.
  intros H. rewrite !cond_mul. f_equal. unfold shl_align. destruct (ez - e) as [|p|p] eqn:E; try lia.
  - cbn [fst]. do 2 f_equal. lia.
  - cbn [fst]. rewrite shift_pos_eq, <- Z.mul_assoc, <- Z.pow_add_r by lia. do 2 f_equal. lia.
Qed.

Theorem add_nearest f g : fin f -> fin g -> Z.abs (fv f + fv g) < big ->
  fin (SFadd f64_prec f64_emax f g) /\ nearest (fv f + fv g) (fv (SFadd f64_prec f64_emax f g)).
Proof.
  intros Hf Hg HB. destruct f as [s|s| |s m e]; try contradiction; destruct g as [s'|s'| |s' m' e']; try contradiction.
  - assert (X := fv_nearest (S754_zero false) I). cbn [fv SFadd] in *. destruct (Bool.eqb s s'); cbn [fin fv]; split; auto; exact I.
  - cbn [SFadd]. split; [exact Hg|]. change (fv (S754_zero s)) with 0. rewrite Z.add_0_l. apply fv_nearest; exact Hg.
  - cbn [SFadd]. split; [exact Hf|]. change (fv (S754_zero s')) with 0. rewrite Z.add_0_r. apply fv_nearest; exact Hf.
  - cbn [SFadd]. assert (Hf' := Hf). assert (Hg' := Hg). cbn [fin valid_binary] in Hf', Hg'. apply bounded_range in Hf', Hg'.
    set (ez := Z.min e e'). assert (Hz : -1074 <= ez <= e /\ ez <= e') by (unfold ez; lia). clearbody ez.
    assert (E : fv (S754_finite s m e) + fv (S754_finite s' m' e') =
      (cond_Zopp s (Zpos (fst (shl_align m e ez))) + cond_Zopp s' (Zpos (fst (shl_align m' e' ez)))) * 2 ^ (ez + 1074)).
    { rewrite Z.mul_add_distr_r, !align_fv by lia. reflexivity. }
    rewrite E in *. apply normalize_nearest; [lia|exact HB].
Qed.

Theorem sub_nearest f g : fin f -> fin g -> Z.abs (fv f - fv g) < big ->
  fin (SFsub f64_prec f64_emax f g) /\ nearest (fv f - fv g) (fv (SFsub f64_prec f64_emax f g)).
Proof.
  intros Hf Hg HB. destruct f as [s|s| |s m e]; try contradiction; destruct g as [s'|s'| |s' m' e']; try contradiction.
  - assert (X := fv_nearest (S754_zero false) I). cbn [fv SFsub] in *. destruct (Bool.eqb s (negb s')); cbn [fin fv]; split; auto; exact I.
  - cbn [SFsub]. destruct (fin_opp _ Hg) as [X1 X2]. cbn [SFopp] in X1, X2. split; [exact X1|]. change (fv (S754_zero s)) with 0. rewrite Z.sub_0_l, <- X2. apply fv_nearest; exact X1.
  - cbn [SFsub]. split; [exact Hf|]. change (fv (S754_zero s')) with 0. rewrite Z.sub_0_r. apply fv_nearest; exact Hf.
  - cbn [SFsub]. assert (Hf' := Hf). assert (Hg' := Hg). cbn [fin valid_binary] in Hf', Hg'. apply bounded_range in Hf', Hg'.
    set (ez := Z.min e e'). assert (Hz : -1074 <= ez <= e /\ ez <= e') by (unfold ez; lia). clearbody ez.
    assert (E : fv (S754_finite s m e) - fv (S754_finite s' m' e') =
      (cond_Zopp s (Zpos (fst (shl_align m e ez))) - cond_Zopp s' (Zpos (fst (shl_align m' e' ez)))) * 2 ^ (ez + 1074)).
    { rewrite Z.mul_sub_distr_r, !align_fv by lia. reflexivity. }
    rewrite E in *. apply normalize_nearest; [lia|exact HB].
Qed.

(** values in units of 2^-k *)
Lemma R_fin k f z : 0 <= k <= 52 -> R k f z -> fin f /\ fv f = z * 2 ^ (1074 - k).
Proof.
  intros Hk [H _]. destruct f as [s|s| |s m e]; try contradiction; cbn [f64_is] in H.
  - subst z. split; [exact I|]. reflexivity.
  - destruct H as [H1 H2]. split; [exact H1|]. cbn [valid_binary] in H1. apply bounded_range in H1. cbn [fv].
    apply (vl_scale k (cond_Zopp s (Zpos m)) e z 1074) in H2; [exact H2|lia|lia].
Qed.

(** ** The comparisons of WrappedDouble *)
Section Wrapped.
Variable k : Z.
Hypothesis Hk : 0 <= k <= 13.
Let G := 2 ^ (1071 - k).

Lemma eps_fin : fin eps64 /\ fv eps64 = 7378697629483821 * 2 ^ 1008.
Proof. clear. split; reflexivity. Qed.

Lemma eps_small : 0 < 7378697629483821 * 2 ^ 1008 < 7 * G.
Proof.
  split; [apply Z.mul_pos_pos; [lia|apply Z.pow_pos_nonneg; lia]|].
  apply Z.lt_le_trans with (7 * (2 ^ 50 * 2 ^ 1008)).
  - rewrite Z.mul_assoc. apply Z.mul_lt_mono_pos_r; [apply Z.pow_pos_nonneg; lia|]. reflexivity.
  - rewrite <- Z.pow_add_r by lia. unfold G. apply Z.mul_le_mono_nonneg_l; [lia|]. apply Z.pow_le_mono_r; lia.
Qed.

Lemma unit_eq : 2 ^ (1074 - k) = 8 * G.
Proof. unfold G. replace (1074 - k) with (3 + (1071 - k)) by lia. rewrite Z.pow_add_r by lia. reflexivity. Qed.

(** an eighth of a unit is a multiple of the unit in the last place *)
Lemma ulp_div V : Z.abs V < 2 ^ 53 * G -> exists c, G = c * ulp V.
Proof.
  intros HV. assert (D : Zdigits2 V <= 53 + (1071 - k)).
  { unfold G in HV. rewrite <- Z.pow_add_r in HV by lia. destruct V as [|p|p]; cbn [Zdigits2 Z.abs] in *; [lia| |]; apply digits_lt; lia. }
  exists (2 ^ (1071 - k - Z.max 0 (Zdigits2 V - 53))). unfold ulp, G. rewrite <- Z.pow_add_r by lia. f_equal. lia.
Qed.

Lemma between V W t s : Z.abs V < 2 ^ 53 * G -> nearest V W -> t * G <= V <= s * G -> t * G <= W <= s * G.
Proof.
  intros HV HN Ht. destruct (ulp_div V HV) as (c & Ec). rewrite Ec in *. rewrite !Z.mul_assoc in *. split.
  - apply nearest_ge; [exact HN|lia].
  - apply nearest_le; [exact HN|lia].
Qed.

Variables (f g : spec_float) (x y : Z).
Hypothesis Hf : R k f x.
Hypothesis Hg : R k g y.
Hypothesis Hx : Z.abs x < 2 ^ 50.

Lemma big_G : 2 ^ 53 * G < big.
Proof. unfold G, big. rewrite <- Z.pow_add_r by lia. apply Z.pow_lt_mono_r; lia. Qed.

Lemma x_bound e : Z.abs e < 7 * G -> Z.abs (8 * x * G + e) < 2 ^ 53 * G.
Proof. intros He. change (2 ^ 53) with (8 * 2 ^ 50). set (P := 2 ^ 50) in *. clearbody P. nia. Qed.

Lemma fv_f : fin f /\ fv f = 8 * x * G.
Proof. destruct (R_fin k f x ltac:(lia) Hf) as [H1 H2]. split; [exact H1|]. rewrite H2, unit_eq. ring. Qed.
Lemma fv_g : fin g /\ fv g = 8 * y * G.
Proof. destruct (R_fin k g y ltac:(lia) Hg) as [H1 H2]. split; [exact H1|]. rewrite H2, unit_eq. ring. Qed.

Lemma W_lt : SFltb (SFadd f64_prec f64_emax f eps64) g = (x <? y).
Proof.
  destruct fv_f as [F1 F2], fv_g as [G1 G2], eps_fin as [E1 E2]. assert (S := eps_small). set (E := 7378697629483821 * 2 ^ 1008) in *. clearbody E.
  assert (XB := x_bound E ltac:(lia)). assert (BG := big_G).
  destruct (add_nearest f eps64 F1 E1) as [A1 A2]; [rewrite F2, E2; lia|]. rewrite F2, E2 in A2.
  assert (B := between _ _ (8 * x) (8 * x + 7) XB A2 ltac:(lia)).
  rewrite fv_lt by auto. rewrite G2. set (W := fv (SFadd f64_prec f64_emax f eps64)) in *. clearbody W. clear - B S.
  destruct (Z.ltb_spec x y), (Z.ltb_spec W (8 * y * G)); try reflexivity; exfalso; nia.
Qed.

Lemma W_le : SFleb (SFsub f64_prec f64_emax f eps64) g = (x <=? y).
Proof.
  destruct fv_f as [F1 F2], fv_g as [G1 G2], eps_fin as [E1 E2]. assert (S := eps_small). set (E := 7378697629483821 * 2 ^ 1008) in *. clearbody E.
  assert (XB := x_bound (- E) ltac:(lia)). assert (BG := big_G).
  destruct (sub_nearest f eps64 F1 E1) as [A1 A2]; [rewrite F2, E2; lia|]. rewrite F2, E2 in A2.
  assert (B := between _ _ (8 * x - 7) (8 * x) XB A2 ltac:(lia)).
  rewrite fv_le by auto. rewrite G2. set (W := fv (SFsub f64_prec f64_emax f eps64)) in *. clearbody W. clear - B S.
  destruct (Z.leb_spec x y), (Z.leb_spec W (8 * y * G)); try reflexivity; exfalso; nia.
Qed.

Lemma W_gt : SFltb g (SFsub f64_prec f64_emax f eps64) = (y <? x).
Proof.
  destruct fv_f as [F1 F2], fv_g as [G1 G2], eps_fin as [E1 E2]. assert (S := eps_small). set (E := 7378697629483821 * 2 ^ 1008) in *. clearbody E.
  assert (XB := x_bound (- E) ltac:(lia)). assert (BG := big_G).
  destruct (sub_nearest f eps64 F1 E1) as [A1 A2]; [rewrite F2, E2; lia|]. rewrite F2, E2 in A2.
  assert (B := between _ _ (8 * x - 7) (8 * x) XB A2 ltac:(lia)).
  rewrite fv_lt by auto. rewrite G2. set (W := fv (SFsub f64_prec f64_emax f eps64)) in *. clearbody W. clear - B S.
  destruct (Z.ltb_spec y x), (Z.ltb_spec (8 * y * G) W); try reflexivity; exfalso; nia.
Qed.

Lemma W_ge : SFleb g (SFadd f64_prec f64_emax f eps64) = (y <=? x).
Proof.
  destruct fv_f as [F1 F2], fv_g as [G1 G2], eps_fin as [E1 E2]. assert (S := eps_small). set (E := 7378697629483821 * 2 ^ 1008) in *. clearbody E.
  assert (XB := x_bound E ltac:(lia)). assert (BG := big_G).
  destruct (add_nearest f eps64 F1 E1) as [A1 A2]; [rewrite F2, E2; lia|]. rewrite F2, E2 in A2.
  assert (B := between _ _ (8 * x) (8 * x + 7) XB A2 ltac:(lia)).
  rewrite fv_le by auto. rewrite G2. set (W := fv (SFadd f64_prec f64_emax f eps64)) in *. clearbody W. clear - B S.
  destruct (Z.leb_spec y x), (Z.leb_spec (8 * y * G) W); try reflexivity; exfalso; nia.
Qed.

Hypothesis Hy : Z.abs y < 2 ^ 50.

Lemma fin_abs h : fin h -> fin (SFabs h) /\ fv (SFabs h) = Z.abs (fv h).
Proof.
  clear. destruct h as [s|s| |s m e]; try contradiction; intros Hh; cbn [SFabs fin fv]; split; auto.
  cbn [fin valid_binary] in Hh. apply bounded_range in Hh. assert (P := Z.pow_pos_nonneg 2 (e + 1074) ltac:(lia) ltac:(lia)).
  rewrite !cond_mul. destruct s; cbn [cond_Zopp]; rewrite ?Z.abs_opp, Z.abs_eq; lia.
Qed.

Lemma W_eq : negb (SFltb eps64 (SFabs (SFsub f64_prec f64_emax f g))) = (x =? y).
Proof.
  assert (HR : R k (SFsub f64_prec f64_emax f g) (x - y)).
  { apply R_sub; [lia|exact Hf|exact Hg|]. change (2 ^ 53) with (8 * 2 ^ 50). lia. }
  destruct (R_fin k _ _ ltac:(lia) HR) as [F1 F2]. destruct (fin_abs _ F1) as [A1 A2], eps_fin as [E1 E2]. assert (S := eps_small).
  rewrite fv_lt by auto. rewrite A2, F2, E2, unit_eq. set (E := 7378697629483821 * 2 ^ 1008) in *. clearbody E. clear - S.
  destruct (Z.eqb_spec x y) as [->|N].
  - rewrite Z.sub_diag. cbn [Z.mul Z.abs]. destruct (Z.ltb_spec E 0); [lia|reflexivity].
  - destruct (Z.ltb_spec E (Z.abs ((x - y) * (8 * G)))); [reflexivity|]. exfalso. nia.
Qed.
End Wrapped.
