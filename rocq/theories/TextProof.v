(** * The text [info] fits its buffer and determines the graph *)
From Coq Require Import Strings.String Strings.Ascii.
From Coq Require Import Floats.SpecFloat Numbers.DecimalString Numbers.DecimalFacts Numbers.DecimalPos Numbers.DecimalZ.
From Verif Require Import Base Data BaseLemmas ProblemDefine CostScaling Generator GenSpec GenRng GenProof Printing PrintProof FloatSpec FloatExact FloatRun Hom Text.
Local Open Scope Z_scope.

(** ** The length of numbers *)
Lemma acc_lower d : forall a, (Zpos a * 10 ^ Z.of_nat (Decimal.nb_digits d) <= Zpos (Pos.of_uint_acc d a)).
Proof.
  induction d; intro a; cbn [Decimal.nb_digits Pos.of_uint_acc]; [change (10 ^ Z.of_nat 0) with 1; lia|..].
  all: rewrite Nat2Z.inj_succ, Z.pow_succ_r by lia; match goal with |- _ <= Zpos (Pos.of_uint_acc ?x ?b) => specialize (IHd b);
    assert (P := Z.pow_pos_nonneg 10 (Z.of_nat (Decimal.nb_digits x)) ltac:(lia) ltac:(lia)); set (pw := 10 ^ Z.of_nat (Decimal.nb_digits x)) in *; clearbody pw end; nia.
Qed.

Lemma to_uint_head p d : Pos.to_uint p <> Decimal.D0 d.
Proof.
  intro E. assert (A := Unsigned.of_to p). assert (B := Unsigned.to_of (Pos.to_uint p)). rewrite A, E in B.
  cbn [N.to_uint] in B. rewrite E in B. unfold Decimal.unorm in B. cbn [Decimal.nzhead] in B.
  destruct (Decimal.nzhead d) eqn:E2; try discriminate.
  - injection B as ->. rewrite E in A. cbn in A. discriminate.
  - destruct (nzhead_nonzero d u). exact E2.
Qed.

Lemma digits_length p k : Zpos p < 10 ^ Z.of_nat k -> (Decimal.nb_digits (Pos.to_uint p) <= k)%nat.
Proof.
  intro H. assert (A := Unsigned.of_to p). destruct (Pos.to_uint p) as [|d|d|d|d|d|d|d|d|d|d] eqn:E; [cbn; lia|destruct (to_uint_head p d E)|..].
  all: cbn [Pos.of_uint] in A; injection A as A; cbn [Decimal.nb_digits].
  all: match type of A with Pos.of_uint_acc _ ?b = _ => assert (L := acc_lower d b) end; rewrite A in L.
  all: destruct (Nat.le_gt_cases (S (Decimal.nb_digits d)) k) as [|G]; [assumption|exfalso].
  all: assert (P := Z.pow_le_mono_r 10 (Z.of_nat k) (Z.of_nat (Decimal.nb_digits d)) ltac:(lia) ltac:(lia)); lia.
Qed.

Lemma uint_chars d : length (chars (NilEmpty.string_of_uint d)) = Decimal.nb_digits d.
Proof. unfold chars. induction d; cbn; congruence. Qed.

Lemma show_length z k : (1 <= k)%nat -> 0 <= z < 10 ^ Z.of_nat k -> (length (show z) <= k)%nat.
Proof.
  intros Hk [H1 H2]. unfold show. destruct z as [|p|p]; [cbn; lia| |lia]. cbn [Z.to_int NilZero.string_of_int]. unfold NilZero.string_of_uint.
  assert (L := digits_length p k H2). destruct (Pos.to_uint p) eqn:E; [destruct (Unsigned.to_uint_nonnil p E)|..]; rewrite uint_chars; exact L.
Qed.

Lemma show_digit v : length (show (v mod 10)) = 1%nat.
Proof.
  assert (H := Z.mod_pos_bound v 10 ltac:(lia)). assert (L := show_length (v mod 10) 1 ltac:(lia) ltac:(change (10 ^ Z.of_nat 1) with 10; lia)).
  destruct (show (v mod 10)) as [|c l] eqn:E; [|cbn in *; lia]. exfalso. revert E. clear L. assert (C : exists w, w = v mod 10) by eauto. destruct C as [w C]. rewrite <- C in *. clear C.
  assert (w = 0 \/ w = 1 \/ w = 2 \/ w = 3 \/ w = 4 \/ w = 5 \/ w = 6 \/ w = 7 \/ w = 8 \/ w = 9) as D by lia.
  repeat destruct D as [->|D]; try discriminate. subst w. discriminate.
Qed.

Lemma digits_len d : forall v, length (digits d v) = d.
Proof. induction d as [|d IH]; intro v; cbn [digits]; [reflexivity|]. rewrite app_length, IH, show_digit. lia. Qed.

Lemma app_inv_len {A} (a b c d : list A) : length a = length b -> a ++ c = b ++ d -> a = b /\ c = d.
Proof.
  revert b. induction a as [|x a IH]; intros [|y b] L E; try discriminate; [auto|]. injection E as -> E. injection L as L. destruct (IH b L E) as [-> ->]. auto.
Qed.

Lemma digits_inj d : forall v w, 0 <= v < 10 ^ Z.of_nat d -> 0 <= w < 10 ^ Z.of_nat d -> digits d v = digits d w -> v = w.
Proof.
  induction d as [|d IH]; intros v w Hv Hw E; [change (10 ^ Z.of_nat 0) with 1 in *; lia|].
  rewrite Nat2Z.inj_succ, Z.pow_succ_r in Hv, Hw by lia. cbn [digits] in E.
  assert (E2 : digits d (v / 10) = digits d (w / 10) /\ show (v mod 10) = show (w mod 10)).
  { apply app_inv_len; [rewrite !digits_len; reflexivity|exact E]. }
  destruct E2 as [E1 E2]. apply show_inj in E2.
  assert (v / 10 = w / 10).
  { apply IH; [split; [apply Z.div_pos; lia|apply Z.div_lt_upper_bound; lia]|split; [apply Z.div_pos; lia|apply Z.div_lt_upper_bound; lia]|exact E1]. }
  rewrite (Z.div_mod v 10), (Z.div_mod w 10) by lia. congruence.
Qed.

(** ** The characters of numbers *)
Definition digit (c : ascii) : Prop := In c (chars "0123456789").
Definition numeric (c : ascii) : Prop := In c (chars "-.0123456789").

Lemma digit_numeric c : digit c -> numeric c.
Proof. unfold digit, numeric. intro H. right. right. exact H. Qed.

Ltac pick := unfold digit, numeric; cbn; repeat (first [left; reflexivity | right]).

Lemma uint_digit d c : In c (chars (NilEmpty.string_of_uint d)) -> digit c.
Proof. induction d; cbn; [intros []|..]; (intros [<-|H]; [pick|exact (IHd H)]). Qed.

Lemma show_digits z : 0 <= z -> Forall digit (show z).
Proof.
  intro Hz. apply Forall_forall. intros c. unfold show. destruct z as [|p|p]; [|cbn [Z.to_int NilZero.string_of_int]|lia].
  - intros [<-|[]]. pick.
  - unfold NilZero.string_of_uint. destruct (Pos.to_uint p) eqn:E; [intros [<-|[]]; pick|..]; apply uint_digit.
Qed.

Lemma show_numeric z : Forall numeric (show z).
Proof.
  destruct (Z.le_gt_cases 0 z) as [H|H]; [eapply Forall_impl; [apply digit_numeric|apply show_digits; exact H]|].
  destruct z as [|p|p]; try lia. unfold show. cbn [Z.to_int NilZero.string_of_int chars list_ascii_of_string]. constructor; [pick|].
  assert (X := show_digits (Zpos p) ltac:(lia)). unfold show in X. cbn [Z.to_int NilZero.string_of_int] in X. eapply Forall_impl; [apply digit_numeric|exact X].
Qed.

Lemma show_nonempty z : show z <> [].
Proof. unfold show. destruct z as [|p|p]; cbn; try discriminate. unfold NilZero.string_of_uint. destruct (Pos.to_uint p); discriminate. Qed.

Lemma digits_digit d : forall v, Forall digit (digits d v).
Proof.
  induction d as [|d IH]; intro v; cbn [digits]; [constructor|]. apply Forall_app. split; [apply IH|]. apply show_digits.
  assert (H := Z.mod_pos_bound v 10 ltac:(lia)). lia.
Qed.

Lemma digit_stop c : digit c -> c <> "."%char /\ c <> "-"%char.
Proof. unfold digit. intros H. split; intros ->; cbn in H; repeat destruct H as [H|H]; try discriminate; exact H. Qed.

Lemma decimals_numeric d v : Forall numeric (decimals d v).
Proof.
  unfold decimals. apply Forall_app. split; [apply show_numeric|]. constructor; [pick|]. eapply Forall_impl; [apply digit_numeric|apply digits_digit].
Qed.

Lemma decimals_inj d v w : 0 <= v -> 0 <= w -> decimals d v = decimals d w -> v = w.
Proof.
  intros Hv Hw E. unfold decimals in E. assert (P := Z.pow_pos_nonneg 10 (Z.of_nat d) ltac:(lia) ltac:(lia)).
  assert (D1 : 0 <= v / 10 ^ Z.of_nat d) by (apply Z.div_pos; lia). assert (D2 : 0 <= w / 10 ^ Z.of_nat d) by (apply Z.div_pos; lia).
  apply (split_at digit) in E; [|intros c H; apply digit_stop; exact H|apply show_digits; exact D1|apply show_digits; exact D2].
  destruct E as [E1 E2]. apply show_inj in E1. apply digits_inj in E2; [|apply Z.mod_pos_bound; lia|apply Z.mod_pos_bound; lia].
  rewrite (Z.div_mod v (10 ^ Z.of_nat d)), (Z.div_mod w (10 ^ Z.of_nat d)) by lia. congruence.
Qed.

Lemma decimals_head d v : 0 <= v -> exists c r, decimals d v = c :: r /\ c <> "-"%char.
Proof.
  intro Hv. unfold decimals. assert (P := Z.pow_pos_nonneg 10 (Z.of_nat d) ltac:(lia) ltac:(lia)).
  assert (D1 : 0 <= v / 10 ^ Z.of_nat d) by (apply Z.div_pos; lia). assert (X := show_digits _ D1). assert (N := show_nonempty (v / 10 ^ Z.of_nat d)).
  destruct (show (v / 10 ^ Z.of_nat d)) as [|c r]; [congruence|]. inversion X; subst. eexists _, _. split; [reflexivity|]. apply digit_stop. assumption.
Qed.

Lemma signed_inj d s s' v w : 0 <= v -> 0 <= w -> sign_text s ++ decimals d v = sign_text s' ++ decimals d w -> s = s' /\ v = w.
Proof.
  intros Hv Hw E. destruct (decimals_head d v Hv) as (c & r & E1 & N1). destruct (decimals_head d w Hw) as (c' & r' & E2 & N2).
  destruct s, s'; cbn [sign_text chars list_ascii_of_string app] in E.
  - injection E as E. apply decimals_inj in E; auto.
  - rewrite E2 in E. injection E as E _. congruence.
  - rewrite E1 in E. injection E as E _. congruence.
  - apply decimals_inj in E; auto.
Qed.

(** ** Coefficients: multiples of 1/4 are shown exactly *)
Definition coef_text (w : Z) : list ascii := sign_text (w <? 0) ++ decimals 2 (25 * Z.abs w).

Lemma half_even_exact a b : 0 < b -> half_even (a * b) b = a.
Proof. intro H. unfold half_even. rewrite Z.div_mul, Z.mod_mul by lia. destruct (Z.ltb_spec (2 * 0) b); [reflexivity|lia]. Qed.

Lemma fixed_quarters s m e w : f64_is 2 (S754_finite s m e) w -> fixed 2 (S754_finite s m e) = coef_text w.
Proof.
  cbn [f64_is fixed]. intros [_ H]. change (10 ^ Z.of_nat 2) with 100.
  assert (Hs : s = (w <? 0) /\ Zpos m * 2 ^ Z.max 0 (e + 2) = Z.abs w * 2 ^ Z.max 0 (- (e + 2))).
  { assert (P1 := Z.pow_pos_nonneg 2 (Z.max 0 (e + 2)) ltac:(lia) ltac:(lia)). assert (P2 := Z.pow_pos_nonneg 2 (Z.max 0 (- (e + 2))) ltac:(lia) ltac:(lia)).
    destruct s; cbn [cond_Zopp] in H; destruct (Z.ltb_spec w 0); try (exfalso; nia); split; auto; nia. }
  destruct Hs as [-> Hm]. clear H. unfold coef_text. f_equal. f_equal.
  rewrite <- (half_even_exact (25 * Z.abs w) (2 ^ Z.max 0 (- e))) by (apply Z.pow_pos_nonneg; lia). f_equal.
  destruct (Z.le_gt_cases 0 e) as [He|He].
  - rewrite (Z.max_r 0 (e + 2)), (Z.max_l 0 (- (e + 2))) in Hm by lia. rewrite (Z.max_r 0 e), (Z.max_l 0 (- e)) by lia.
    rewrite Z.pow_add_r in Hm by lia. change (2 ^ 2) with 4 in Hm. change (2 ^ 0) with 1 in *. lia.
  - destruct (Z.eq_dec e (-1)) as [->|He2]; [change (2 ^ Z.max 0 (-1 + 2)) with 2 in Hm; change (2 ^ Z.max 0 (- (-1 + 2))) with 1 in Hm; change (2 ^ Z.max 0 (-1)) with 1; change (2 ^ Z.max 0 (- (-1))) with 2; lia|].
    rewrite (Z.max_l 0 (e + 2)), (Z.max_r 0 (- (e + 2))) in Hm by lia. rewrite (Z.max_l 0 e), (Z.max_r 0 (- e)) by lia.
    replace (- e) with (- (e + 2) + 2) by lia. rewrite Z.pow_add_r by lia. change (2 ^ 2) with 4. change (2 ^ 0) with 1 in *. lia.
Qed.

Lemma quarter_text w : INT_MIN <= w <= INT_MAX -> fixed 2 (@quarter spec_float f64_ops w) = coef_text w.
Proof.
  intro Hw. destruct (Z.eq_dec w 0) as [->|Hn]; [vm_compute; reflexivity|].
  assert (HR : RF 2 w (@quarter spec_float f64_ops w)).
  { assert (H := f64_hom 2 ltac:(lia)). unfold quarter, of_int. apply (h_half _ _ _ H), (h_half _ _ _ H).
    replace (2 * (2 * w)) with (2 ^ 2 * w) by lia. apply (h_mul _ _ _ H); [apply f64_done; lia|exact Hw|].
    change (2 ^ 2) with 4. change (2 ^ 53) with 9007199254740992. unfold INT_MIN, INT_MAX in *. lia. }
  destruct HR as [HR _]. destruct (@quarter spec_float f64_ops w) as [s|s| |s m e] eqn:E; cbn [f64_is] in HR; [lia|contradiction|contradiction|]. apply fixed_quarters. exact HR.
Qed.

Lemma coef_length w : INT_MIN <= w <= INT_MAX -> (length (coef_text w) <= 13)%nat.
Proof.
  intro Hw. unfold coef_text, decimals. rewrite !app_length, digits_len. change (10 ^ Z.of_nat 2) with 100.
  assert (L := show_length (25 * Z.abs w / 100) 9 ltac:(lia)). assert (LS : (length (sign_text (w <? 0)%Z) <= 1)%nat) by (destruct (w <? 0); cbn; lia).
  cbn [length chars list_ascii_of_string]. enough (length (show (25 * Z.abs w / 100)%Z) <= 9)%nat by lia. apply L.
  split; [apply Z.div_pos; lia|]. apply Z.div_lt_upper_bound; [lia|]. change (10 ^ Z.of_nat 9) with 1000000000. unfold INT_MIN, INT_MAX in *. lia.
Qed.

Lemma coef_numeric w : Forall numeric (coef_text w).
Proof. unfold coef_text. apply Forall_app. split; [destruct (w <? 0); [constructor; [pick|constructor]|constructor]|apply decimals_numeric]. Qed.

Lemma coef_inj w w' : coef_text w = coef_text w' -> w = w'.
Proof. intro E. apply signed_inj in E; [|lia|lia]. destruct E as [E1 E2]. destruct (Z.ltb_spec w 0), (Z.ltb_spec w' 0); try discriminate; lia. Qed.

Definition stop (c : ascii) : Prop := ~ numeric c.

Lemma coef_split w w' d r r' : stop d -> coef_text w ++ d :: r = coef_text w' ++ d :: r' -> w = w' /\ r = r'.
Proof.
  intros Hd E. apply (split_at numeric) in E; [|intros c Hc ->; exact (Hd Hc)|apply coef_numeric|apply coef_numeric]. destruct E as [E ->]. split; [apply coef_inj; exact E|reflexivity].
Qed.

Lemma show_split z z' d r r' : stop d -> show z ++ d :: r = show z' ++ d :: r' -> z = z' /\ r = r'.
Proof.
  intros Hd E. apply (split_at numeric) in E; [|intros c Hc ->; exact (Hd Hc)|apply show_numeric|apply show_numeric]. destruct E as [E ->]. split; [apply show_inj; exact E|reflexivity].
Qed.

Ltac stops := let H := fresh in intro H; unfold numeric in H; cbn in H; repeat destruct H as [H|H]; try discriminate H; exact H.

(** ** The lines *)
Definition coefs_text (t : coefficients) : list ascii :=
  let '(a, b, c) := t in
  chars "[](int x) { return " ++ coef_text a ++ chars " * x * x + " ++ coef_text b ++ chars " * x + " ++ coef_text c ++ chars "; }".

Definition coefs_int (t : coefficients) : Prop :=
  let '(a, b, c) := t in (INT_MIN <= a <= INT_MAX) /\ (INT_MIN <= b <= INT_MAX) /\ (INT_MIN <= c <= INT_MAX).

Lemma function_fits t : coefs_int t -> print_function_text (@q3 spec_float f64_ops t) = Ok (coefs_text t).
Proof.
  destruct t as [[a b] c]. intros (Ha & Hb & Hc). unfold print_function_text, function_text, q3. rewrite !quarter_text by assumption.
  assert (La := coef_length a Ha). assert (Lb := coef_length b Hb). assert (Lc := coef_length c Hc). cbv zeta.
  match goal with |- (if ?b then _ else _) = _ => destruct b eqn:E end; [reflexivity|]. exfalso. apply Nat.ltb_ge in E. revert E.
  rewrite !app_length. cbn [length chars list_ascii_of_string]. lia.
Qed.

Lemma coefs_split t t' r r' : coefs_text t ++ r = coefs_text t' ++ r' -> t = t' /\ r = r'.
Proof.
  destruct t as [[a b] c], t' as [[a' b'] c']. intro E. unfold coefs_text in E. rewrite <- !app_assoc in E. apply app_inv_head in E.
  cbn [chars list_ascii_of_string app] in E. apply coef_split in E; [|stops]. destruct E as [-> E]. injection E as E.
  apply coef_split in E; [|stops]. destruct E as [-> E]. injection E as E. apply coef_split in E; [|stops]. destruct E as [-> E]. injection E as ->. auto.
Qed.

Definition node_text (x : node_choice) : list ascii :=
  let '(l, u, t) := x in
  [tab; tab] ++ chars "{" ++ show l ++ chars ", " ++ show u ++ chars ", " ++ coefs_text t ++ chars "}" ++ [newline].
Definition edge_text (x : edge_choice) : list ascii :=
  let '(l, u, t, i, j) := x in
  [tab; tab] ++ chars "{{" ++ show l ++ chars ", " ++ show u ++ chars ", " ++ coefs_text t ++ chars "}" ++ chars ", " ++
      show_size i ++ chars ", " ++ show_size j ++ chars "}" ++ [newline].

Lemma node_split' x y r r' : node_text x ++ r = node_text y ++ r' -> x = y /\ r = r'.
Proof.
  destruct x as [[l u] t], y as [[l' u'] t']. intro E. unfold node_text in E. rewrite <- !app_assoc in E. cbn [chars list_ascii_of_string app] in E. injection E as E.
  apply show_split in E; [|stops]. destruct E as [-> E]. injection E as E. apply show_split in E; [|stops]. destruct E as [-> E]. injection E as E.
  apply coefs_split in E. destruct E as [-> E]. injection E as ->. auto.
Qed.

Lemma edge_split' x y r r' : edge_text x ++ r = edge_text y ++ r' -> x = y /\ r = r'.
Proof.
  destruct x as [[[[l u] t] i] j], y as [[[[l' u'] t'] i'] j']. intro E. unfold edge_text, show_size in E. rewrite <- !app_assoc in E. cbn [chars list_ascii_of_string app] in E. injection E as E.
  apply show_split in E; [|stops]. destruct E as [-> E]. injection E as E. apply show_split in E; [|stops]. destruct E as [-> E]. injection E as E.
  apply coefs_split in E. destruct E as [-> E]. injection E as E. apply show_split in E; [|stops]. destruct E as [Ei E]. injection E as E.
  apply show_split in E; [|stops]. destruct E as [Ej E]. injection E as ->. apply Nat2Z.inj in Ei, Ej. subst. auto.
Qed.

Lemma lines_split {A} (text : A -> list ascii) : (forall a, exists r, text a = tab :: tab :: r) ->
  (forall a a' r r', text a ++ r = text a' ++ r' -> a = a' /\ r = r') ->
  forall l l' r r', flat_map text l ++ tab :: "}"%char :: r = flat_map text l' ++ tab :: "}"%char :: r' -> l = l' /\ r = r'.
Proof.
  intros Hh Hs. induction l as [|a l IH]; intros [|a' l'] r r' E; cbn [flat_map app] in E.
  - injection E as ->. auto.
  - destruct (Hh a') as [x X]. rewrite X in E. discriminate.
  - destruct (Hh a) as [x X]. rewrite X in E. discriminate.
  - rewrite <- !app_assoc in E. apply Hs in E. destruct E as [-> E]. apply IH in E. destruct E as [-> ->]. auto.
Qed.

Lemma lines_ok {A B} (line : B -> res (list ascii)) (f : A -> B) (text : A -> list ascii) l :
  (forall a, In a l -> line (f a) = Ok (text a)) -> lines line (map f l) = Ok (flat_map text l).
Proof.
  induction l as [|a l IH]; intro H; [reflexivity|]. cbn [map lines flat_map]. rewrite H by (left; reflexivity). cbn [bind].
  rewrite IH by (intros; apply H; right; assumption). reflexivity.
Qed.

Definition whole (n : Z) (na : list node_choice) (ea : list edge_choice) : list ascii :=
  chars "{" ++ [newline] ++ [tab] ++ show n ++ [newline] ++
      [tab] ++ chars "{" ++ [newline; tab; tab] ++ chars "{}" ++ [newline] ++ flat_map node_text na ++ [tab] ++ chars "}" ++ [newline] ++
      [tab] ++ chars "{" ++ [newline] ++ flat_map edge_text ea ++ [tab] ++ chars "}" ++ [newline] ++
      chars "}" ++ [newline].

Lemma whole_inj n na ea n' na' ea' : whole n na ea = whole n' na' ea' -> n = n' /\ na = na' /\ ea = ea'.
Proof.
  unfold whole. intro E. cbn [chars list_ascii_of_string app] in E. injection E as E. apply show_split in E; [|stops]. destruct E as [-> E]. injection E as E.
  apply (lines_split node_text) in E; [|intros [[l u] t]; eexists; reflexivity|apply node_split']. destruct E as [-> E]. injection E as E.
  apply (lines_split edge_text) in E; [|intros [[[[l u] t] i] j]; eexists; reflexivity|apply edge_split']. destruct E as [-> E]. auto.
Qed.

(** ** TinyGen *)
Lemma coefs_fit n ml multi nl el fl t : tiny_args n ml multi nl el fl -> coefficients_in fl t -> coefs_int t.
Proof.
  intros (_ & _ & _ & _ & _ & _ & (F1 & F2 & F3) & F4) H. destruct t as [[a b] c], fl as [p q]. cbn [fst snd] in *. destruct H as (Ha & Hb & Hc). cbn [fst snd] in *.
  unfold coefs_int, INT_MIN, INT_MAX in *. lia.
Qed.

Lemma made_text fuel n ml multi nl el fl sd s g st : tiny_args n ml multi nl el fl ->
  @tiny_gen spec_float f64_ops fuel n ml multi nl el fl sd true ([], s) = Ok (g, st) ->
  exists na ea, gr_n g = n /\ Z.of_nat (length ea) = gr_m g /\ gr_node g = no_node :: map (@node_of spec_float f64_ops) na /\
    gr_edge g = map (@edge_of spec_float f64_ops) ea /\ info_text g = Ok (whole n na ea).
Proof.
  intros HA E. assert (H := @tiny_gen_shape spec_float f64_ops fuel n ml multi nl el fl sd true s HA). rewrite E in H. cbn [runs] in H.
  destruct st as [q s']. destruct H as (na & ea & E1 & _ & E2 & _ & _ & E3 & E4 & Gn & Ge & _ & _ & EI).
  exists na, ea. repeat (split; [assumption|]). unfold info_text. rewrite EI. cbn [fst snd].
  rewrite (lines_ok node_line node_info node_text).
  2:{ intros [[l u] t] Hx. destruct (Gn _ Hx) as [_ Ht]. unfold node_line, node_info. rewrite function_fits by (eapply coefs_fit; eauto). reflexivity. }
  cbn [bind]. rewrite (lines_ok edge_line edge_info edge_text).
  2:{ intros [[[[l u] t] i] j] Hx. destruct (Ge _ Hx) as (_ & Ht & _). unfold edge_line, edge_info. rewrite function_fits by (eapply coefs_fit; eauto). reflexivity. }
  cbn [bind]. rewrite E1. reflexivity.
Qed.

Theorem info_fits fuel n ml multi nl el fl sd s : tiny_args n ml multi nl el fl -> drawable multi n -> 2 ^ 48 + 2 <= Z.of_nat fuel ->
  exists g s' text, @tiny_gen spec_float f64_ops fuel n ml multi nl el fl sd true ([], s) = Ok (g, ([], s')) /\ info_text g = Ok text.
Proof.
  intros HA HD Hf. assert (X := @tiny_gen_shape spec_float f64_ops fuel n ml multi nl el fl sd true s HA).
  apply (fun H => runs_ok _ _ _ H (conj Hf HD)) in X. destruct X as ([g [q s']] & E & X). assert (q = []) as -> by (destruct X as (? & ? & X); tauto).
  destruct (made_text _ _ _ _ _ _ _ _ _ _ _ HA E) as (na & ea & _ & _ & _ & _ & Y). eauto.
Qed.

Theorem quarter_shown w : INT_MIN <= w <= INT_MAX ->
  exists whole tenths hundredths, fixed 2 (@quarter spec_float f64_ops w) =
      (if w <? 0 then chars "-" else []) ++ show whole ++ chars "." ++ show tenths ++ show hundredths /\
    0 <= whole /\ 0 <= tenths <= 9 /\ 0 <= hundredths <= 9 /\ 25 * Z.abs w = 100 * whole + 10 * tenths + hundredths.
Proof.
  intro Hw. rewrite quarter_text by exact Hw. set (v := 25 * Z.abs w). unfold coef_text, sign_text, decimals. fold v. change (10 ^ Z.of_nat 2) with 100.
  exists (v / 100), ((v mod 100) / 10 mod 10), (v mod 100 mod 10). cbn [digits app]. split; [reflexivity|].
  assert (A := Z.div_mod v 100 ltac:(lia)). assert (A1 := Z.mod_pos_bound v 100 ltac:(lia)). assert (A2 := Z.div_pos v 100 ltac:(lia) ltac:(lia)).
  set (r := v mod 100) in *. assert (B := Z.div_mod r 10 ltac:(lia)). assert (B1 := Z.mod_pos_bound r 10 ltac:(lia)).
  assert (B2 := Z.div_pos r 10 ltac:(lia) ltac:(lia)). assert (B3 : r / 10 < 10) by (apply Z.div_lt_upper_bound; lia).
  rewrite (Z.mod_small (r / 10)) by lia. lia.
Qed.

Theorem info_determines fuel n ml multi nl el fl sd s g st fuel' n' ml' multi' nl' el' fl' sd' s' g' st' text :
  tiny_args n ml multi nl el fl -> @tiny_gen spec_float f64_ops fuel n ml multi nl el fl sd true ([], s) = Ok (g, st) ->
  tiny_args n' ml' multi' nl' el' fl' -> @tiny_gen spec_float f64_ops fuel' n' ml' multi' nl' el' fl' sd' true ([], s') = Ok (g', st') ->
  info_text g = Ok text -> info_text g' = Ok text ->
  gr_n g = gr_n g' /\ gr_m g = gr_m g' /\ gr_node g = gr_node g' /\ gr_edge g = gr_edge g'.
Proof.
  intros HA E HA' E' T T'. destruct (made_text _ _ _ _ _ _ _ _ _ _ _ HA E) as (na & ea & N1 & N2 & N3 & N4 & X).
  destruct (made_text _ _ _ _ _ _ _ _ _ _ _ HA' E') as (na' & ea' & M1 & M2 & M3 & M4 & X').
  assert (Y : whole n na ea = whole n' na' ea') by congruence. apply whole_inj in Y. destruct Y as (<- & <- & <-).
  repeat split; congruence.
Qed.
