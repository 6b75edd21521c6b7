(** * The comparisons of WrappedDouble on all finite doubles, and its text *)
From Coq Require Import Strings.Ascii Floats.SpecFloat.
From Verif Require Import Base Data BaseLemmas WrappedDouble FloatSpec FloatExact FloatRound WrappedSpec FloatAny Printing Text PrintProof TextProof.
Local Open Scope Z_scope.

Lemma is_fin f z : f64_is 1074 f z -> fin f /\ fv f = z.
Proof.
  destruct f as [s|s| |s m e]; cbn [f64_is]; try contradiction; [intros ->; split; [exact I|reflexivity]|].
  intros [H1 H2]. split; [exact H1|]. cbn [valid_binary] in H1. apply bounded_range in H1. cbn [fv].
  rewrite Z.max_r, Z.max_l in H2 by lia. change (2 ^ 0) with 1 in H2. lia.
Qed.

(** ** Rounding is monotone *)
Lemma Zdigits2_bounds V : V <> 0 -> 2 ^ (Zdigits2 V - 1) <= Z.abs V < 2 ^ Zdigits2 V.
Proof. intro H. destruct V as [|p|p]; [congruence| |]; cbn [Zdigits2 Z.abs]; apply digits_bounds. Qed.

Lemma Zdigits2_nonneg V : 0 <= Zdigits2 V.
Proof. destruct V; cbn [Zdigits2]; lia. Qed.

Lemma fv_multiple g V : fin g -> Zdigits2 V <= Zdigits2 (fv g) -> exists t, fv g = t * ulp V.
Proof.
  intros Hg HV. destruct (fv_nearest g Hg) as (q & E & _). exists (q * 2 ^ (Z.max 0 (Zdigits2 (fv g) - 53) - Z.max 0 (Zdigits2 V - 53))).
  rewrite E at 1. unfold ulp. rewrite <- Z.mul_assoc, <- Z.pow_add_r by lia. do 2 f_equal. lia.
Qed.

Lemma round_le g V W : fin g -> V <= fv g -> nearest V W -> W <= fv g.
Proof.
  intros Hg HV HN. destruct (Z.le_gt_cases (Zdigits2 V) (Zdigits2 (fv g))) as [C|C].
  - destruct (fv_multiple g V Hg C) as (t & E). rewrite E in *. eapply nearest_le; eauto.
  - assert (N := Zdigits2_nonneg (fv g)). assert (V0 : V <> 0) by (intros ->; cbn in C; lia).
    assert (B := Zdigits2_bounds V V0).
    assert (L : Z.abs (fv g) < 2 ^ (Zdigits2 V - 1)).
    { destruct (Z.eq_dec (fv g) 0) as [->|G0]; [apply Z.pow_pos_nonneg; lia|]. assert (B2 := Zdigits2_bounds _ G0).
      apply Z.lt_le_trans with (1 := proj2 B2). apply Z.pow_le_mono_r; lia. }
    destruct (Z.le_gt_cases (Zdigits2 V) 53) as [D|D].
    + assert (U : ulp V = 1) by (unfold ulp; rewrite Z.max_l by lia; reflexivity). assert (X := nearest_le V W (fv g) HN). rewrite U in X. lia.
    + assert (X := nearest_le V W (- 2 ^ 52) HN). assert (U : 2 ^ 52 * ulp V = 2 ^ (Zdigits2 V - 1)).
      { unfold ulp. rewrite Z.max_r, <- Z.pow_add_r by lia. f_equal. lia. }
      rewrite Z.mul_opp_l, U in X. lia.
Qed.

Lemma round_ge g V W : fin g -> fv g <= V -> nearest V W -> fv g <= W.
Proof.
  intros Hg HV HN. destruct (fin_opp g Hg) as [Ho Eo]. assert (X := round_le (SFopp g) (- V) (- W) Ho). rewrite Eo in X.
  specialize (X ltac:(lia) (nearest_opp _ _ HN)). lia.
Qed.

(** the relative error of a rounding *)
Lemma round_error V W : nearest V W -> 2 ^ 53 * Z.abs (V - W) <= Z.abs V.
Proof.
  intros (q & E & H). destruct (Z.le_gt_cases (Zdigits2 V) 53) as [D|D].
  - assert (U : ulp V = 1) by (unfold ulp; rewrite Z.max_l by lia; reflexivity). rewrite U in H. replace (V - W) with 0 by lia. cbn [Z.abs]. lia.
  - assert (V0 : V <> 0) by (intros ->; cbn in D; lia). assert (B := Zdigits2_bounds V V0).
    assert (U : 2 ^ 52 * ulp V = 2 ^ (Zdigits2 V - 1)). { unfold ulp. rewrite Z.max_r, <- Z.pow_add_r by lia. f_equal. lia. }
    change (2 ^ 53) with (2 ^ 52 * 2). nia.
Qed.

(** ** The comparisons *)
Notation wlt := (@wd_lt spec_float f64_ops eps64).
Notation wgt := (@wd_gt spec_float f64_ops eps64).
Notation wle := (@wd_le spec_float f64_ops eps64).
Notation wge := (@wd_ge spec_float f64_ops eps64).
Notation weq := (@wd_eq spec_float f64_ops SFabs eps64).

Lemma tol_range : 0 < tol /\ 2 ^ 2096 + tol < big.
Proof. split; reflexivity. Qed.

Lemma leb_not_lt f g : fin f -> fin g -> SFleb g f = negb (SFltb f g).
Proof. intros Hf Hg. rewrite fv_le, fv_lt by auto. rewrite Z.leb_antisym. reflexivity. Qed.

Section Pair.
Variables (a b : spec_float) (x y : Z).
Hypothesis Ha : f64_is 1074 a x.
Hypothesis Hb : f64_is 1074 b y.

Lemma plus_eps : fin (SFadd f64_prec f64_emax a eps64) /\ nearest (x + tol) (fv (SFadd f64_prec f64_emax a eps64)).
Proof.
  destruct (is_fin _ _ Ha) as [Fa Ea], eps_fin as [Fe Ee]. destruct tol_range as [T1 T2]. change (7378697629483821 * 2 ^ 1008) with tol in Ee.
  assert (T := tol_top). assert (L := fin_top a Fa). rewrite Ea in L.
  destruct (add_any a eps64 Fa Fe) as [X|[X|X]]; rewrite Ea, Ee in X; [exact X| |]; exfalso; lia.
Qed.

Lemma minus_eps : fin (SFsub f64_prec f64_emax a eps64) /\ nearest (x - tol) (fv (SFsub f64_prec f64_emax a eps64)).
Proof.
  destruct (is_fin _ _ Ha) as [Fa Ea], eps_fin as [Fe Ee]. destruct tol_range as [T1 T2]. change (7378697629483821 * 2 ^ 1008) with tol in Ee.
  assert (T := tol_top). assert (L := fin_top a Fa). rewrite Ea in L.
  destruct (sub_any a eps64 Fa Fe) as [X|[X|X]]; rewrite Ea, Ee in X; [exact X| |]; exfalso; lia.
Qed.

Lemma wge_is : wge a b = negb (wlt a b).
Proof. unfold wd_ge, wd_lt. apply leb_not_lt; [apply plus_eps|apply (is_fin _ _ Hb)]. Qed.

Lemma wle_is : wle a b = negb (wgt a b).
Proof. unfold wd_le, wd_gt. apply leb_not_lt; [apply (is_fin _ _ Hb)|apply minus_eps]. Qed.

Lemma wlt_sound : wlt a b = true -> x + tol < y.
Proof.
  destruct plus_eps as [F N], (is_fin _ _ Hb) as [Fb Eb]. unfold wd_lt. change (dadd a eps64) with (SFadd f64_prec f64_emax a eps64).
  change (dlt ?p ?q) with (SFltb p q). rewrite fv_lt by auto. intro H. apply Z.ltb_lt in H.
  destruct (Z.le_gt_cases y (x + tol)) as [C|C]; [|lia]. exfalso. assert (X := round_ge b (x + tol) _ Fb ltac:(lia) N). lia.
Qed.

Lemma wgt_sound : wgt a b = true -> y + tol < x.
Proof.
  destruct minus_eps as [F N], (is_fin _ _ Hb) as [Fb Eb]. unfold wd_gt. change (dsub a eps64) with (SFsub f64_prec f64_emax a eps64).
  change (dlt ?p ?q) with (SFltb p q). rewrite fv_lt by auto. intro H. apply Z.ltb_lt in H.
  destruct (Z.le_gt_cases (x - tol) y) as [C|C]; [|lia]. exfalso. assert (X := round_le b (x - tol) _ Fb ltac:(lia) N). lia.
Qed.

Lemma wlt_complete : Z.abs (x + tol) < 2 ^ 53 * (y - x - tol) -> wlt a b = true.
Proof.
  destruct plus_eps as [F N], (is_fin _ _ Hb) as [Fb Eb]. intro H. unfold wd_lt. change (dadd a eps64) with (SFadd f64_prec f64_emax a eps64).
  change (dlt ?p ?q) with (SFltb p q). rewrite fv_lt by auto. apply Z.ltb_lt. apply round_error in N. set (P := 2 ^ 53) in *. assert (0 < P) by reflexivity. clearbody P. nia.
Qed.

Lemma wgt_complete : Z.abs (x - tol) < 2 ^ 53 * (x - y - tol) -> wgt a b = true.
Proof.
  destruct minus_eps as [F N], (is_fin _ _ Hb) as [Fb Eb]. intro H. unfold wd_gt. change (dsub a eps64) with (SFsub f64_prec f64_emax a eps64).
  change (dlt ?p ?q) with (SFltb p q). rewrite fv_lt by auto. apply Z.ltb_lt. apply round_error in N. set (P := 2 ^ 53) in *. assert (0 < P) by reflexivity. clearbody P. nia.
Qed.
End Pair.

Lemma diff_abs a b x y : f64_is 1074 a x -> f64_is 1074 b y -> Z.abs (x - y) < big ->
  fin (SFabs (SFsub f64_prec f64_emax a b)) /\ exists W, nearest (x - y) W /\ fv (SFabs (SFsub f64_prec f64_emax a b)) = Z.abs W.
Proof.
  intros Ha Hb HB. destruct (is_fin _ _ Ha) as [Fa Ea], (is_fin _ _ Hb) as [Fb Eb].
  destruct (sub_nearest a b Fa Fb) as [F N]; [rewrite Ea, Eb; exact HB|]. rewrite Ea, Eb in N. destruct (fin_abs _ F) as [FA EA]. split; [exact FA|]. eauto.
Qed.

Lemma weq_complete a b x y : f64_is 1074 a x -> f64_is 1074 b y -> Z.abs (x - y) <= tol -> weq a b = true.
Proof.
  intros Ha Hb H. destruct tol_range as [T1 T2]. destruct (diff_abs a b x y Ha Hb ltac:(lia)) as (F & W & N & EW).
  destruct eps_fin as [Fe Ee]. change (7378697629483821 * 2 ^ 1008) with tol in Ee. unfold wd_eq. change (dsub a b) with (SFsub f64_prec f64_emax a b).
  change (dlt ?p ?q) with (SFltb p q). rewrite fv_lt by auto. rewrite EW, Ee. destruct (fin_opp _ Fe) as [Fo Eo].
  assert (X := round_le eps64 (x - y) W Fe ltac:(rewrite Ee; lia) N). assert (Y := round_ge (SFopp eps64) (x - y) W Fo ltac:(rewrite Eo, Ee; lia) N). rewrite Eo in Y. rewrite Ee in X, Y.
  destruct (Z.ltb_spec tol (Z.abs W)); [lia|reflexivity].
Qed.

Lemma weq_sound a b x y : f64_is 1074 a x -> f64_is 1074 b y -> weq a b = true -> (2 ^ 53 - 1) * Z.abs (x - y) <= 2 ^ 53 * tol.
Proof.
  intros Ha Hb. destruct (is_fin _ _ Ha) as [Fa Ea], (is_fin _ _ Hb) as [Fb Eb].
  unfold wd_eq. change (dsub a b) with (SFsub f64_prec f64_emax a b). change (dlt ?p ?q) with (SFltb p q).
  destruct (sub_any a b Fa Fb) as [[F N]|[[-> _]|[-> _]]]; [|discriminate|discriminate]. rewrite Ea, Eb in N. destruct (fin_abs _ F) as [FA EW].
  destruct eps_fin as [Fe Ee]. change (7378697629483821 * 2 ^ 1008) with tol in Ee. rewrite fv_lt by auto. rewrite EW, Ee. intro H. apply negb_true_iff, Z.ltb_ge in H.
  apply round_error in N. set (P := 2 ^ 53) in *. assert (0 < P) by reflexivity. clearbody P. nia.
Qed.

(** ** Symmetry of [==] *)
Lemma round_abs s s' m e : SFabs (binary_round 53 1024 s m e) = SFabs (binary_round 53 1024 s' m e).
Proof.
  unfold binary_round. destruct (shl_align m e (fexp 53 1024 (Zpos (digits2_pos m) + e))) as [mz ez]. unfold binary_round_aux.
  destruct (shr_fexp 53 1024 (Zpos mz) ez loc_Exact) as [mrs' e']. destruct (shr_fexp 53 1024 _ e' loc_Exact) as [mrs'' e''].
  destruct (shr_m mrs''); try reflexivity. destruct (e'' <=? 1024 - 53); reflexivity.
Qed.

Lemma sub_abs a b : SFabs (SFsub f64_prec f64_emax a b) = SFabs (SFsub f64_prec f64_emax b a).
Proof.
  destruct a as [s|s| |s m e], b as [s'|s'| |s' m' e']; try reflexivity; cbn [SFsub].
  - destruct s, s'; reflexivity.
  - destruct s, s'; reflexivity.
  - rewrite (Z.min_comm e' e). set (ez := Z.min e e'). 
    set (p := cond_Zopp s (Zpos (fst (shl_align m e ez)))). set (q := cond_Zopp s' (Zpos (fst (shl_align m' e' ez)))).
    replace (q - p) with (- (p - q)) by lia. destruct (p - q); cbn [Z.opp binary_normalize]; [reflexivity| |]; apply round_abs.
Qed.

Lemma weq_sym a b : weq a b = weq b a.
Proof. unfold wd_eq. change (dsub a b) with (SFsub f64_prec f64_emax a b). change (dsub b a) with (SFsub f64_prec f64_emax b a). rewrite sub_abs. reflexivity. Qed.

(** ** [<] is a strict order *)
Lemma wlt_trans a b c x y z : f64_is 1074 a x -> f64_is 1074 b y -> f64_is 1074 c z ->
  wlt a b = true -> wlt b c = true -> wlt a c = true.
Proof.
  intros Ha Hb Hc H1 H2. apply (wlt_sound b c y z Hb Hc) in H2. destruct (plus_eps a x Ha) as [F N].
  destruct (is_fin _ _ Hb) as [Fb Eb], (is_fin _ _ Hc) as [Fc Ec]. destruct tol_range as [T1 T2]. unfold wd_lt in *. change (dadd a eps64) with (SFadd f64_prec f64_emax a eps64) in *.
  change (dlt ?p ?q) with (SFltb p q) in *. rewrite fv_lt in * by auto. apply Z.ltb_lt in H1. apply Z.ltb_lt. lia.
Qed.

Theorem wrapped_compare a b x y : f64_is 1074 a x -> f64_is 1074 b y ->
  wge a b = negb (wlt a b) /\ wle a b = negb (wgt a b) /\ weq a b = weq b a /\
  (wlt a b = true -> x + tol < y) /\ (Z.abs (x + tol) < 2 ^ 53 * (y - x - tol) -> wlt a b = true) /\
  (wgt a b = true -> y + tol < x) /\ (Z.abs (x - tol) < 2 ^ 53 * (x - y - tol) -> wgt a b = true) /\
  (Z.abs (x - y) <= tol -> weq a b = true) /\ (weq a b = true -> (2 ^ 53 - 1) * Z.abs (x - y) <= 2 ^ 53 * tol).
Proof.
  intros Ha Hb. split; [eapply wge_is; eauto|]. split; [eapply wle_is; eauto|]. split; [apply weq_sym|].
  split; [eapply wlt_sound; eauto|]. split; [eapply wlt_complete; eauto|]. split; [eapply wgt_sound; eauto|]. split; [eapply wgt_complete; eauto|].
  split; [eapply weq_complete; eauto|]. eapply weq_sound; eauto.
Qed.

Theorem wrapped_strict a b c x y z : f64_is 1074 a x -> f64_is 1074 b y -> f64_is 1074 c z ->
  wlt a a = false /\ (wlt a b = true -> wlt b a = false) /\ (wlt a b = true -> wlt b c = true -> wlt a c = true).
Proof.
  intros Ha Hb Hc. destruct tol_range as [T1 T2]. split; [|split].
  - destruct (wlt a a) eqn:E; [|reflexivity]. apply (wlt_sound a a x x) in E; auto. lia.
  - intro H. destruct (wlt b a) eqn:E; [|reflexivity]. apply (wlt_sound a b x y) in H; auto. apply (wlt_sound b a y x) in E; auto. lia.
  - eapply wlt_trans; eauto.
Qed.

(** ** Infinities and NaN *)
Lemma fin_plus a : fin a -> fin (SFadd f64_prec f64_emax a eps64) /\ fin (SFsub f64_prec f64_emax a eps64).
Proof.
  intro Fa. destruct eps_fin as [Fe Ee]. change (7378697629483821 * 2 ^ 1008) with tol in Ee. destruct tol_range as [T1 _].
  assert (T := tol_top). assert (L := fin_top a Fa). split.
  - destruct (add_any a eps64 Fa Fe) as [X|[X|X]]; rewrite Ee in X; [apply X| |]; exfalso; lia.
  - destruct (sub_any a eps64 Fa Fe) as [X|[X|X]]; rewrite Ee in X; [apply X| |]; exfalso; lia.
Qed.

Lemma infinite_left s b : b <> S754_nan ->
  wlt (S754_infinity s) b = s && negb (is_infinity true b) /\ wgt (S754_infinity s) b = negb s && negb (is_infinity false b) /\
  wge (S754_infinity s) b = negb (wlt (S754_infinity s) b) /\ wle (S754_infinity s) b = negb (wgt (S754_infinity s) b) /\
  weq (S754_infinity s) b = is_infinity s b.
Proof. intro H. destruct b as [t|t| |t m e]; [| |congruence|]; destruct s, t; repeat split; reflexivity. Qed.

Lemma infinite_right a s : fin a ->
  wlt a (S754_infinity s) = negb s /\ wgt a (S754_infinity s) = s /\
  wge a (S754_infinity s) = s /\ wle a (S754_infinity s) = negb s /\ weq a (S754_infinity s) = false.
Proof.
  intro Fa. destruct (fin_plus a Fa) as [P M]. unfold wd_lt, wd_gt, wd_ge, wd_le, wd_eq.
  change (dadd a eps64) with (SFadd f64_prec f64_emax a eps64). change (dsub a eps64) with (SFsub f64_prec f64_emax a eps64).
  destruct (SFadd f64_prec f64_emax a eps64) as [p|p| |p m e]; try contradiction; destruct (SFsub f64_prec f64_emax a eps64) as [q|q| |q n d]; try contradiction;
  (destruct a as [t|t| |t m' e']; try contradiction; destruct s; repeat split; reflexivity).
Qed.

Lemma infinite_finite a s x : f64_is 1074 a x ->
  wlt a (S754_infinity s) = negb s /\ wgt a (S754_infinity s) = s /\
  wge a (S754_infinity s) = s /\ wle a (S754_infinity s) = negb s /\ weq a (S754_infinity s) = false.
Proof. intro H. apply infinite_right, (is_fin _ _ H). Qed.

Lemma nan_either a b : a = S754_nan \/ b = S754_nan ->
  wlt a b = false /\ wgt a b = false /\ wge a b = false /\ wle a b = false /\ weq a b = true.
Proof.
  intros [-> | ->]; [destruct b; repeat split; reflexivity|]. unfold wd_lt, wd_gt, wd_ge, wd_le, wd_eq.
  change (dlt ?p ?q) with (SFltb p q). change (dle ?p ?q) with (SFleb p q). change (dsub a S754_nan) with (SFsub f64_prec f64_emax a S754_nan).
  assert (L : forall f, SFltb f S754_nan = false /\ SFltb S754_nan f = false /\ SFleb f S754_nan = false /\ SFleb S754_nan f = false) by (intros [?|?| |? ? ?]; repeat split; reflexivity).
  replace (SFabs (SFsub f64_prec f64_emax a S754_nan)) with S754_nan by (destruct a; reflexivity).
  repeat split; try apply L.
Qed.

(** ** The text *)
Lemma half_even_near a b : 0 < b -> 2 * Z.abs (a - half_even a b * b) <= b.
Proof.
  intro Hb. unfold half_even. assert (D := Z.div_mod a b ltac:(lia)). assert (M := Z.mod_pos_bound a b Hb). set (q := a / b) in *. set (r := a mod b) in *. clearbody q r.
  destruct (Z.ltb_spec (2 * r) b); [nia|]. destruct (Z.ltb_spec b (2 * r)); [nia|]. destruct (Z.even q); nia.
Qed.

Lemma half_even_nonneg a b : 0 <= a -> 0 < b -> 0 <= half_even a b.
Proof. intros Ha Hb. assert (P := Z.div_pos a b Ha Hb). unfold half_even. destruct (2 * (a mod b) <? b), (b <? 2 * (a mod b)), (Z.even (a / b)); lia. Qed.

Lemma fixed_value d x z : f64_is 1074 x z ->
  exists s v, 0 <= v /\ fixed d x = sign_text s ++ decimals d v /\ 2 * Z.abs (z * 10 ^ Z.of_nat d - cond_Zopp s v * 2 ^ 1074) <= 2 ^ 1074.
Proof.
  intro H. destruct (is_fin _ _ H) as [F <-]. clear H. set (T := 10 ^ Z.of_nat d). assert (PT : 0 < T) by (apply Z.pow_pos_nonneg; lia).
  destruct x as [s|s| |s m e]; try contradiction; cbn [fixed fv].
  - exists s, 0. split; [lia|]. split; [reflexivity|]. clearbody T. destruct s; vm_compute; discriminate.
  - fold T. cbn [fin valid_binary] in F. apply bounded_range in F. destruct F as [Fe _].
    set (v := half_even (Zpos m * T * 2 ^ Z.max 0 e) (2 ^ Z.max 0 (- e))). exists s, v.
    assert (P1 := Z.pow_pos_nonneg 2 (Z.max 0 e) ltac:(lia) ltac:(lia)). assert (P2 := Z.pow_pos_nonneg 2 (Z.max 0 (- e)) ltac:(lia) ltac:(lia)).
    split; [apply half_even_nonneg; [nia|lia]|]. split; [reflexivity|].
    assert (N := half_even_near (Zpos m * T * 2 ^ Z.max 0 e) (2 ^ Z.max 0 (- e)) P2). fold v in N. clearbody v.
    assert (K : 2 * Z.abs (Zpos m * 2 ^ (e + 1074) * T - v * 2 ^ 1074) <= 2 ^ 1074).
    { destruct (Z.le_gt_cases 0 e) as [C|C].
      - rewrite (Z.max_r 0 e), (Z.max_l 0 (- e)) in N by lia. change (2 ^ 0) with 1 in N. rewrite Z.pow_add_r by lia. set (U := 2 ^ 1074).
        assert (0 < U) by reflexivity. clearbody U. replace (Zpos m * (2 ^ e * U) * T - v * U) with ((Zpos m * T * 2 ^ e - v * 1) * U) by ring.
        replace (Zpos m * T * 2 ^ e - v * 1) with 0 by lia. cbn [Z.abs Z.mul]. lia.
      - rewrite (Z.max_l 0 e), (Z.max_r 0 (- e)) in N by lia. change (2 ^ 0) with 1 in N. rewrite Z.mul_1_r in N.
        replace (2 ^ 1074) with (2 ^ (- e) * 2 ^ (e + 1074)) by (rewrite <- Z.pow_add_r by lia; f_equal; lia).
        assert (P3 := Z.pow_pos_nonneg 2 (e + 1074) ltac:(lia) ltac:(lia)). set (U := 2 ^ (e + 1074)) in *. clearbody U. set (B := 2 ^ (- e)) in *. clearbody B.
        replace (Zpos m * U * T - v * (B * U)) with ((Zpos m * T - v * B) * U) by ring. rewrite Z.abs_mul, (Z.abs_eq U) by lia. nia. }
    destruct s; cbn [cond_Zopp]; [|exact K]. change (Zneg m) with (- Zpos m). revert K. generalize (2 ^ 1074) (2 ^ (e + 1074)). intros U V. lia.
Qed.

Theorem text_close x y a b : f64_is 1074 x a -> f64_is 1074 y b -> fixed 6 x = fixed 6 y -> 10 ^ 6 * Z.abs (a - b) <= 2 ^ 1074.
Proof.
  intros Hx Hy E. destruct (fixed_value 6 x a Hx) as (s & v & Hv & E1 & N1). destruct (fixed_value 6 y b Hy) as (s' & w & Hw & E2 & N2).
  rewrite E1, E2 in E. apply signed_inj in E; auto. destruct E as [-> ->]. change (10 ^ Z.of_nat 6) with 1000000 in *. change (10 ^ 6) with 1000000.
  generalize dependent (2 ^ 1074). intros U. lia.
Qed.

Theorem text_equal x y a b out out' : f64_is 1074 x a -> f64_is 1074 y b -> wd_pretty_print x out = wd_pretty_print y out' ->
  10 ^ 6 * Z.abs (a - b) <= 2 ^ 1074 /\ weq x y = true.
Proof.
  intros Hx Hy E. assert (C := text_close x y a b Hx Hy E). split; [exact C|]. apply (weq_complete x y a b Hx Hy).
  assert (2 ^ 1074 <= 10 ^ 6 * tol) by (vm_compute; discriminate). lia.
Qed.

(** ** Where rounding shows *)
Definition down : spec_float := SFopp eps64.                         (* -1e-4 *)
Definition speck : spec_float := S754_finite false 4503599627370496 (-132).  (* 2^-80 *)
Definition two : spec_float := S754_finite false 4503599627370496 (-51).
Definition two_up : spec_float := S754_finite false 4503824807351865 (-51).  (* 2.0001 *)

Lemma below_and_equal : exists a b x y, f64_is 1074 a x /\ f64_is 1074 b y /\
  wlt a b = true /\ weq a b = true /\ wgt b a = false.
Proof. exists down, speck, (- tol), (2 ^ 994). repeat split. Qed.

Lemma none_of_three : exists a b x y, f64_is 1074 a x /\ f64_is 1074 b y /\
  wlt a b = false /\ wgt a b = false /\ weq a b = false.
Proof. exists two, two_up, (2 ^ 1075), (4503824807351865 * 2 ^ 1023). repeat split. Qed.

Lemma equal_not_transitive : exists a b c x y z, f64_is 1074 a x /\ f64_is 1074 b y /\ f64_is 1074 c z /\
  weq a b = true /\ weq b c = true /\ weq a c = false.
Proof. exists down, (S754_zero false), eps64, (- tol), 0, tol. repeat split. Qed.

Lemma equal_but_shown_apart : exists a b x y, f64_is 1074 a x /\ f64_is 1074 b y /\
  weq a b = true /\ wd_pretty_print a [] <> wd_pretty_print b [].
Proof.
  exists (S754_zero false), (S754_zero true), 0, 0. split; [reflexivity|]. split; [reflexivity|]. split; [vm_compute; reflexivity|]. vm_compute. discriminate.
Qed.

Lemma pretty_print_replaces : exists a out, wd_pretty_print a out <> out ++ wd_pretty_print a [].
Proof. exists (S754_zero false), ["x"%char]. vm_compute. discriminate. Qed.
