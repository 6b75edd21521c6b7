(** * The decimals of WrappedDouble::prettyPrint are correctly rounded *)
From Coq Require Import Strings.String Strings.Ascii.
From Coq Require Import Floats.SpecFloat Numbers.DecimalString.
From Verif Require Import Base Data Printing Text TextProof WrappedDouble WrappedSpec FloatSpec FloatExact FloatRound WrappedLaws.
Local Open Scope Z_scope.

Lemma half_even_even a b : 0 < b -> 2 * Z.abs (a - half_even a b * b) = b -> Z.even (half_even a b) = true.
Proof.
  intro Hb. unfold half_even. assert (D := Z.div_mod a b ltac:(lia)). assert (M := Z.mod_pos_bound a b Hb). set (q := a / b) in *. set (r := a mod b) in *. clearbody q r.
  destruct (Z.ltb_spec (2 * r) b); [nia|]. destruct (Z.ltb_spec b (2 * r)); [nia|]. destruct (Z.even q) eqn:E; [intros _; exact E|].
  intros _. rewrite Z.add_1_r, Z.even_succ, <- Z.negb_even, E. reflexivity.
Qed.

Lemma fixed_even d x z : f64_is 1074 x z ->
  exists s v, 0 <= v /\ fixed d x = sign_text s ++ decimals d v /\ 2 * Z.abs (z * 10 ^ Z.of_nat d - cond_Zopp s v * 2 ^ 1074) <= 2 ^ 1074 /\
    (2 * Z.abs (z * 10 ^ Z.of_nat d - cond_Zopp s v * 2 ^ 1074) = 2 ^ 1074 -> Z.even v = true) /\ (z < 0 -> s = true) /\ (0 < z -> s = false).
Proof.
  intro H. destruct (is_fin _ _ H) as [F <-]. clear H. set (T := 10 ^ Z.of_nat d). assert (PT : 0 < T) by (apply Z.pow_pos_nonneg; lia).
  destruct x as [s|s| |s m e]; try contradiction; cbn [fixed fv].
  - exists s, 0. split; [lia|]. split; [reflexivity|]. split; [|split; [intros _; reflexivity|lia]]. clearbody T. destruct s; vm_compute; discriminate.
  - fold T. cbn [fin valid_binary] in F. apply bounded_range in F. destruct F as [Fe _].
    set (a := Zpos m * T * 2 ^ Z.max 0 e). set (b := 2 ^ Z.max 0 (- e)). set (v := half_even a b). exists s, v.
    assert (P1 := Z.pow_pos_nonneg 2 (Z.max 0 e) ltac:(lia) ltac:(lia)). assert (P2 := Z.pow_pos_nonneg 2 (Z.max 0 (- e)) ltac:(lia) ltac:(lia)). fold b in P2.
    assert (Q := half_even_even a b P2). fold v in Q.
    split; [apply half_even_nonneg; [unfold a; nia|lia]|]. split; [reflexivity|].
    assert (N := half_even_near a b P2). fold v in N. clearbody v.
    assert (P4 : 0 < 2 ^ 1074) by (apply Z.pow_pos_nonneg; lia). assert (P3 := Z.pow_pos_nonneg 2 (e + 1074) ltac:(lia) ltac:(lia)).
    assert (X : exists u, 0 < u /\ 2 ^ 1074 = b * u /\ Zpos m * 2 ^ (e + 1074) * T = a * u).
    { unfold a, b. destruct (Z.le_gt_cases 0 e) as [C|C].
      - exists (2 ^ 1074). split; [exact P4|]. rewrite (Z.max_r 0 e), (Z.max_l 0 (- e)), Z.pow_add_r, Z.pow_0_r by lia. split; ring.
      - exists (2 ^ (e + 1074)). split; [exact P3|]. rewrite (Z.max_l 0 e), (Z.max_r 0 (- e)), Z.pow_0_r by lia. split; [rewrite <- Z.pow_add_r by lia; f_equal; lia|ring]. }
    destruct X as (u & Hu & Eb & Ea). assert (K : Z.abs (Zpos m * 2 ^ (e + 1074) * T - v * 2 ^ 1074) = Z.abs (a - v * b) * u).
    { rewrite Ea, Eb. replace (a * u - v * (b * u)) with ((a - v * b) * u) by ring. rewrite Z.abs_mul, (Z.abs_eq u) by lia. reflexivity. }
    assert (KS : Z.abs (cond_Zopp s (Zpos m) * 2 ^ (e + 1074) * T - cond_Zopp s v * 2 ^ 1074) = Z.abs (a - v * b) * u).
    { rewrite <- K. destruct s; cbn [cond_Zopp]; [|reflexivity]. change (Zneg m) with (- Zpos m). rewrite <- Z.abs_opp. f_equal. ring. }
    rewrite KS, Eb. split; [rewrite Z.mul_assoc; apply Z.mul_le_mono_nonneg_r; lia|]. split; [|destruct s; cbn [cond_Zopp]; split; intros; try reflexivity; exfalso; nia].
    intros E. apply Q. rewrite Z.mul_assoc in E. apply Z.mul_cancel_r in E; lia.
Qed.

Lemma six v : 0 <= v -> exists w a b c d e f, 0 <= w /\ (0 <= a <= 9 /\ 0 <= b <= 9 /\ 0 <= c <= 9 /\ 0 <= d <= 9 /\ 0 <= e <= 9 /\ 0 <= f <= 9) /\
  v = w * 10 ^ 6 + a * 10 ^ 5 + b * 10 ^ 4 + c * 10 ^ 3 + d * 10 ^ 2 + e * 10 + f /\
  decimals 6 v = show w ++ chars "." ++ show a ++ show b ++ show c ++ show d ++ show e ++ show f.
Proof.
  intros Hv. exists (v / 1000000), (v / 100000 mod 10), (v / 10000 mod 10), (v / 1000 mod 10), (v / 100 mod 10), (v / 10 mod 10), (v mod 10).
  split; [apply Z.div_pos; lia|].
  split; [repeat split; match goal with |- context [?x mod 10] => assert (H := Z.mod_pos_bound x 10 ltac:(lia)); lia end|].
  assert (E1 := Z.div_mod v 10 ltac:(lia)). assert (E2 := Z.div_mod (v / 10) 10 ltac:(lia)). assert (E3 := Z.div_mod (v / 100) 10 ltac:(lia)).
  assert (E4 := Z.div_mod (v / 1000) 10 ltac:(lia)). assert (E5 := Z.div_mod (v / 10000) 10 ltac:(lia)). assert (E6 := Z.div_mod (v / 100000) 10 ltac:(lia)).
  rewrite Z.div_div in E2, E3, E4, E5, E6 by lia. change (10 * 10) with 100 in E2. change (100 * 10) with 1000 in E3. change (1000 * 10) with 10000 in E4.
  change (10000 * 10) with 100000 in E5. change (100000 * 10) with 1000000 in E6.
  split; [change (10 ^ 6) with 1000000; change (10 ^ 5) with 100000; change (10 ^ 4) with 10000; change (10 ^ 3) with 1000; change (10 ^ 2) with 100; lia|].
  unfold decimals. cbn [digits]. change (10 ^ Z.of_nat 6) with 1000000. f_equal. f_equal.
  set (r := v mod 1000000). assert (Er : r = v - 1000000 * (v / 1000000)) by (unfold r; apply Z.mod_eq; lia).
  assert (M : forall k x, k <> 0 -> 0 < x -> x * 10 * k = 1000000 -> (r / x) mod 10 = (v / x) mod 10).
  { intros k x Hk Hx E. rewrite Er. replace (v - 1000000 * (v / 1000000)) with (v + (- (10 * k * (v / 1000000))) * x) by (rewrite <- E; ring).
    rewrite Z.div_add by lia. replace (v / x + - (10 * k * (v / 1000000))) with (v / x + (- (k * (v / 1000000))) * 10) by ring. apply Z.mod_add. lia. }
  rewrite !Z.div_div by lia. repeat match goal with |- context [Z.mul (Zpos ?a) (Zpos ?b)] => let c := eval vm_compute in (Z.mul (Zpos a) (Zpos b)) in change (Z.mul (Zpos a) (Zpos b)) with c end.
  rewrite (M 1 100000), (M 10 10000), (M 100 1000), (M 1000 100), (M 10000 10) by lia.
  assert (M0 := M 100000 1 ltac:(lia) ltac:(lia) ltac:(lia)). rewrite !Z.div_1_r in M0. rewrite M0. rewrite <- !app_assoc. reflexivity.
Qed.

Theorem text_rounded x z out : f64_is 1074 x z ->
  exists s w a b c d e f, 0 <= w /\ (0 <= a <= 9 /\ 0 <= b <= 9 /\ 0 <= c <= 9 /\ 0 <= d <= 9 /\ 0 <= e <= 9 /\ 0 <= f <= 9) /\
    wd_pretty_print x out = (if (s : bool) then chars "-" else []) ++ show w ++ chars "." ++ show a ++ show b ++ show c ++ show d ++ show e ++ show f /\
    (let v := w * 10 ^ 6 + a * 10 ^ 5 + b * 10 ^ 4 + c * 10 ^ 3 + d * 10 ^ 2 + e * 10 + f in
     let error := Z.abs (z * 10 ^ 6 - (if s then - v else v) * 2 ^ 1074) in
     2 * error <= 2 ^ 1074 /\ (2 * error = 2 ^ 1074 -> Z.even f = true)) /\
    (z < 0 -> s = true) /\ (0 < z -> s = false).
Proof.
  intros H. destruct (fixed_even 6 x z H) as (s & v & Hv & Et & He & Hq & Hs). destruct (six v Hv) as (w & a & b & c & d & e & f & Hw & Hd & Ev & Es).
  exists s, w, a, b, c, d, e, f. split; [exact Hw|]. split; [exact Hd|]. split; [unfold wd_pretty_print; rewrite Et, Es; reflexivity|]. split; [|exact Hs].
  cbv zeta. rewrite <- Ev. change (10 ^ Z.of_nat 6) with (10 ^ 6) in *. split; [exact He|]. intros E. specialize (Hq E).
  rewrite Ev in Hq. rewrite Z.even_add in Hq. replace (w * 10 ^ 6 + a * 10 ^ 5 + b * 10 ^ 4 + c * 10 ^ 3 + d * 10 ^ 2 + e * 10) with (2 * (w * 500000 + a * 50000 + b * 5000 + c * 500 + d * 50 + e * 5)) in Hq.
  - rewrite Z.even_mul in Hq. cbn [Z.even orb] in Hq. destruct (Z.even f); [reflexivity|discriminate].
  - change (10 ^ 6) with 1000000; change (10 ^ 5) with 100000; change (10 ^ 4) with 10000; change (10 ^ 3) with 1000; change (10 ^ 2) with 100; lia.
Qed.
