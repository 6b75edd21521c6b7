(** * The text written by WrappedDouble's [operator<<] *)
From Coq Require Import Strings.String Strings.Ascii.
From Coq Require Import Floats.SpecFloat DecimalFacts DecimalPos DecimalString.
From Coq Require Import QArith Qabs Qpower Lqa.
From Verif Require Import Base Data WrappedDouble FloatSpec FloatExact FloatRound FloatRun WrappedSpec WrappedLaws GenFarFloat Printing PrintProof Text TextProof TextTies TextSpec TextStream.
Local Open Scope Z_scope.

(** ** The exponent *)
Lemma log10_loop_spec : forall fuel z, 1 <= z < 2 ^ (Z.of_nat fuel + 1) -> 0 <= log10_loop fuel z /\ 10 ^ log10_loop fuel z <= z < 10 ^ (log10_loop fuel z + 1).
Proof.
  induction fuel as [|fuel IH]; intros z Hz; cbn [log10_loop].
  - change (2 ^ (Z.of_nat 0 + 1)) with 2 in Hz. change (10 ^ 0) with 1. change (10 ^ (0 + 1)) with 10. lia.
  - destruct (Z.ltb_spec z 10) as [L|L]; [change (10 ^ 0) with 1; change (10 ^ (0 + 1)) with 10; lia|].
    assert (D := Z.div_mod z 10 ltac:(lia)). assert (M := Z.mod_pos_bound z 10 ltac:(lia)).
    rewrite Nat2Z.inj_succ in Hz. replace (Z.succ (Z.of_nat fuel) + 1) with (Z.succ (Z.of_nat fuel + 1)) in Hz by lia. rewrite Z.pow_succ_r in Hz by lia.
    destruct (IH (z / 10)) as (I1 & I2 & I3); [lia|]. set (l := log10_loop fuel (z / 10)) in *. clearbody l.
    split; [lia|]. rewrite (Z.add_comm 1 l). rewrite Z.pow_add_r in * by lia. change (10 ^ 1) with 10 in *. rewrite Z.pow_add_r by lia. change (10 ^ 1) with 10.
    rewrite (Z.pow_add_r 10 l 1) by lia. change (10 ^ 1) with 10. lia.
Qed.

Lemma log10_spec z : 1 <= z -> 0 <= log10 z /\ 10 ^ log10 z <= z < 10 ^ (log10 z + 1).
Proof.
  intro Hz. apply log10_loop_spec. split; [exact Hz|]. assert (N := Z.log2_nonneg z). rewrite Z2Nat.id by lia.
  replace (Z.log2 z + 1) with (Z.succ (Z.log2 z)) by lia. apply Z.log2_spec. lia.
Qed.

(** ** Reading *)
Definition dv (c : ascii) : Z := Z.of_nat (nat_of_ascii c) - 48.
Definition val (acc : Z) (l : list ascii) : Z := fold_left (fun a c => 10 * a + dv c) l acc.
Definition stops (r : list ascii) : Prop := match r with [] => True | c :: _ => digit_value c = None end.

Lemma digit_value_of c : digit c -> digit_value c = Some (dv c).
Proof. unfold digit. intro H. repeat (destruct H as [<-|H]; [reflexivity|]). destruct H. Qed.

Lemma read_digits_app l : Forall digit l -> forall acc r, stops r -> read_digits acc (l ++ r) = (val acc l, Z.of_nat (length l), r).
Proof.
  induction 1 as [|c l Hc Hl IH]; intros acc r Hr.
  - cbn [app length]. destruct r as [|c r]; [reflexivity|]. cbn [stops] in Hr. cbn [read_digits]. rewrite Hr. reflexivity.
  - cbn [app read_digits]. rewrite (digit_value_of c Hc), IH by exact Hr. cbn [val fold_left length]. unfold val. rewrite Nat2Z.inj_succ. reflexivity.
Qed.

Lemma val_app acc l l' : val acc (l ++ l') = val (val acc l) l'.
Proof. apply fold_left_app. Qed.

Lemma val_uint d : forall a, val (Zpos a) (chars (NilEmpty.string_of_uint d)) = Zpos (Pos.of_uint_acc d a).
Proof.
  induction d; intro a; cbn [NilEmpty.string_of_uint chars list_ascii_of_string val fold_left Pos.of_uint_acc]; [reflexivity|..].
  all: match goal with |- _ = Zpos (Pos.of_uint_acc _ ?b) => etransitivity; [|apply (IHd b)] end; unfold val, chars; f_equal.
  all: match goal with |- context[dv ?c] => let v := eval vm_compute in (dv c) in change (dv c) with v end; lia.
Qed.

Lemma val_show z : 0 <= z -> val 0 (show z) = z.
Proof.
  intro Hz. destruct z as [|p|p]; [reflexivity| |lia]. unfold show. cbn [Z.to_int NilZero.string_of_int]. unfold NilZero.string_of_uint.
  assert (A := Unsigned.of_to p). destruct (Pos.to_uint p) as [|d|d|d|d|d|d|d|d|d|d] eqn:E; [destruct (Unsigned.to_uint_nonnil p E)|destruct (to_uint_head p d E)|..].
  all: cbn [Pos.of_uint] in A; injection A as A; rewrite <- A; cbn [NilEmpty.string_of_uint chars list_ascii_of_string val fold_left]; etransitivity; [|apply val_uint]; reflexivity.
Qed.

Lemma show_snoc w : forall acc, 0 <= w < 10 -> val acc (show w) = 10 * acc + w.
Proof.
  intros acc Hw. assert (C : w = 0 \/ w = 1 \/ w = 2 \/ w = 3 \/ w = 4 \/ w = 5 \/ w = 6 \/ w = 7 \/ w = 8 \/ w = 9) by lia.
  repeat destruct C as [C|C]; subst w; cbn [val fold_left]; reflexivity.
Qed.

Lemma val_digits k : forall acc v, 0 <= v < 10 ^ Z.of_nat k -> val acc (digits k v) = acc * 10 ^ Z.of_nat k + v.
Proof.
  induction k as [|k IH]; intros acc v Hv; cbn [digits].
  - change (10 ^ Z.of_nat 0) with 1 in *. cbn [val fold_left]. lia.
  - rewrite Nat2Z.inj_succ, Z.pow_succ_r in * by lia. assert (D := Z.div_mod v 10 ltac:(lia)). assert (M := Z.mod_pos_bound v 10 ltac:(lia)).
    assert (P := Z.pow_pos_nonneg 10 (Z.of_nat k) ltac:(lia) ltac:(lia)). set (p := 10 ^ Z.of_nat k) in *. clearbody p.
    rewrite val_app, IH by lia. rewrite show_snoc by exact M. lia.
Qed.

(** ** Without trailing zeros *)
Definition after_point (j r : Z) (t : list ascii) : Prop := t = [] /\ j = 0 /\ r = 0 \/ t = "."%char :: digits (Z.to_nat j) r /\ 0 < j.

Lemma rev_show w : 0 <= w < 10 -> exists c, show w = [c] /\ digit c /\ (c = "0"%char <-> w = 0).
Proof.
  intros Hw. assert (C : w = 0 \/ w = 1 \/ w = 2 \/ w = 3 \/ w = 4 \/ w = 5 \/ w = 6 \/ w = 7 \/ w = 8 \/ w = 9) by lia.
  assert (D := show_digits w ltac:(lia)).
  repeat destruct C as [C|C]; subst w; (eexists; split; [reflexivity|]; split; [inversion D; assumption|split; [discriminate || reflexivity|discriminate || reflexivity]]).
Qed.

Lemma strip_spec w k : forall r, 0 <= r < 10 ^ Z.of_nat k ->
  exists j r' t, strip (show w ++ chars "." ++ digits k r) = show w ++ t /\ after_point j r' t /\ 0 <= j <= Z.of_nat k /\ 0 <= r' < 10 ^ j /\ r = r' * 10 ^ (Z.of_nat k - j).
Proof.
  induction k as [|k IH]; intros r Hr.
  - exists 0, 0, []. change (10 ^ Z.of_nat 0) with 1 in Hr. split; [|split; [left; auto|split; [lia|split; [change (10 ^ 0) with 1; lia|cbn; lia]]]].
    cbn [digits]. unfold strip. rewrite app_nil_r. cbn [chars list_ascii_of_string]. rewrite rev_app_distr. cbn [rev app strip_back]. rewrite rev_involutive, app_nil_r. reflexivity.
  - cbn [digits]. assert (D := Z.div_mod r 10 ltac:(lia)). assert (M := Z.mod_pos_bound r 10 ltac:(lia)).
    rewrite Nat2Z.inj_succ, Z.pow_succ_r in Hr by lia.
    destruct (rev_show (r mod 10) M) as (c & Ec & Dc & Z0). rewrite Ec.
    assert (R : rev (show w ++ chars "." ++ digits k (r / 10) ++ [c]) = c :: rev (show w ++ chars "." ++ digits k (r / 10))).
    { rewrite !app_assoc, rev_app_distr. reflexivity. }
    destruct (Z.eq_dec (r mod 10) 0) as [E|E].
    + destruct (IH (r / 10)) as (j & r' & t & H1 & H2 & H3 & H4 & H5); [lia|]. exists j, r', t. split; [|split; [exact H2|split; [lia|split; [exact H4|]]]].
      * unfold strip in *. rewrite R. apply Z0 in E. subst c. cbn [strip_back]. exact H1.
      * rewrite Nat2Z.inj_succ. replace (Z.succ (Z.of_nat k) - j) with (1 + (Z.of_nat k - j)) by lia. rewrite Z.pow_add_r by lia. change (10 ^ 1) with 10. lia.
    + exists (Z.of_nat (S k)), r, (chars "." ++ digits (S k) r). split; [|split; [right; split; [|lia]|split; [lia|split; [rewrite Nat2Z.inj_succ, Z.pow_succ_r by lia; lia|rewrite Z.sub_diag; change (10 ^ 0) with 1; lia]]]].
      * unfold strip. rewrite R. assert (c <> "0"%char) by tauto. assert (N : c <> "."%char) by (apply digit_stop; exact Dc).
        assert (S : strip_back (c :: rev (show w ++ chars "." ++ digits k (r / 10))) = c :: rev (show w ++ chars "." ++ digits k (r / 10))).
        { clear - Dc H N. unfold digit in Dc. cbn in Dc. repeat (destruct Dc as [<-|Dc]; [first [congruence|reflexivity]|]). destruct Dc. }
        rewrite S, <- R, rev_involutive. cbn [digits]. rewrite Ec. reflexivity.
      * rewrite Nat2Z.id. reflexivity.
Qed.

(** ** A number is read back *)
Lemma read_parts w j r t E e : 0 <= w -> after_point j r t -> 0 <= r < 10 ^ j -> 0 <= j -> stops E -> (match E with "."%char :: _ => False | _ => True end) -> read_exponent E = Some e ->
  read_unsigned (show w ++ t ++ E) = Some (w * 10 ^ j + r, e - j).
Proof.
  intros Hw Ht Hr Hj SE NE HE. unfold read_unsigned.
  assert (St : stops (t ++ E)). { destruct Ht as [(-> & _)|(-> & _)]; [exact SE|reflexivity]. }
  rewrite read_digits_app; [|apply show_digits; exact Hw|exact St]. rewrite val_show by exact Hw.
  assert (N := show_nonempty w). destruct (Z.ltb_spec 0 (Z.of_nat (length (show w)))) as [L|L]; [|destruct (show w); [congruence|cbn [length] in L; lia]].
  destruct Ht as [(-> & -> & ->)|(-> & Pj)].
  - cbn [app]. assert (F : read_fraction w E = (w, 0, E)).
    { destruct E as [|c E]; [reflexivity|]. unfold read_fraction. destruct c as [[] [] [] [] [] [] [] []]; try reflexivity. contradiction. }
    rewrite F, HE. change (10 ^ 0) with 1. do 2 f_equal. lia.
  - cbn [app read_fraction]. rewrite read_digits_app; [|apply digits_digit|exact SE]. rewrite val_digits by (rewrite Z2Nat.id; lia). rewrite digits_len, HE, Z2Nat.id by lia. reflexivity.
Qed.

Lemma exponent_read X : read_exponent (exponent_text X) = Some X.
Proof.
  assert (G : forall r, 0 <= r -> read_digits 0 ((if r <? 10 then chars "0" else []) ++ show r) = (r, Z.of_nat (length ((if r <? 10 then chars "0" else []) ++ show r)), [])).
  { intros r Hr. assert (F : Forall digit ((if r <? 10 then chars "0" else []) ++ show r)).
    { apply Forall_app. split; [destruct (r <? 10); repeat constructor; pick|apply show_digits; exact Hr]. }
    rewrite <- (app_nil_r ((if r <? 10 then chars "0" else []) ++ show r)) at 1. rewrite read_digits_app; [|exact F|exact I].
    rewrite val_app. replace (val 0 (if r <? 10 then chars "0" else [])) with 0 by (destruct (r <? 10); reflexivity). rewrite val_show by exact Hr. reflexivity. }
  assert (P : forall r, (0 <? Z.of_nat (length ((if r <? 10 then chars "0" else []) ++ show r))) = true).
  { intro r. apply Z.ltb_lt. rewrite app_length. assert (N := show_nonempty r). destruct (show r); [congruence|cbn [length]; lia]. }
  unfold exponent_text. destruct (Z.ltb_spec X 0) as [L|L]; cbn [chars list_ascii_of_string app]; cbn [read_exponent]; change (list_ascii_of_string "0") with (chars "0");
  rewrite G, P by lia; f_equal; lia.
Qed.

(** ** Rounding to six digits *)
Local Open Scope Q_scope.

Lemma apart_abs p q : apart p q == Qabs (p - q).
Proof.
  unfold apart. destruct (Qle_bool p q) eqn:E.
  - apply Qle_bool_iff in E. rewrite Qabs_neg by lra. lra.
  - assert (L : q < p). { apply Qnot_le_lt. intro H. apply Qle_bool_iff in H. congruence. } rewrite Qabs_pos by lra. lra.
Qed.

Lemma apart_scale u p q : 0 < u -> apart (p * u) (q * u) == u * apart p q.
Proof.
  intro Hu. rewrite !apart_abs. setoid_replace (p * u - q * u) with (u * (p - q)) by ring. rewrite Qabs_Qmult. rewrite (Qabs_pos u) by lra. reflexivity.
Qed.

#[global] Instance apart_proper : Proper (Qeq ==> Qeq ==> Qeq) apart.
Proof. intros a b E c d F. rewrite !apart_abs, E, F. reflexivity. Qed.

Lemma apart_opp p q : apart (- p) (- q) == apart p q.
Proof. rewrite !apart_abs. setoid_replace (- p - - q) with (- (p - q)) by ring. apply Qabs_opp. Qed.

Lemma ten_pos k : 0 < Qpower 10 k.
Proof. apply Qpower_0_lt. reflexivity. Qed.

Lemma ten_add j k : Qpower 10 (j + k) == Qpower 10 j * Qpower 10 k.
Proof. apply Qpower_plus. intro H. discriminate H. Qed.

Lemma ten_Z k : (0 <= k)%Z -> Qpower 10 k == inject_Z (10 ^ k).
Proof. intro Hk. symmetry. exact (Zpower_Qpower 10 k Hk). Qed.

(** an integer nearest to a number from 10^5 to 10^6 *)
Definition nearest_int (r : Q) (d : Z) : Prop := Qabs (r - inject_Z d) <= 1 # 2 /\ (Qabs (r - inject_Z d) == 1 # 2 -> Z.even d = true).

Lemma nearest_int_least r d c : nearest_int r d -> apart r (inject_Z d) <= apart r (inject_Z c) /\
  (apart r (inject_Z c) == apart r (inject_Z d) -> c = d \/ Z.odd c = true).
Proof.
  intros [H1 H2]. rewrite !apart_abs. destruct (Z.eq_dec c d) as [->|N]; [split; [lra|auto]|].
  assert (A : 1 <= Qabs (inject_Z d - inject_Z c)).
  { unfold Qminus. rewrite <- inject_Z_opp, <- inject_Z_plus. unfold inject_Z, Qabs. unfold Qle. cbn [Qnum Qden]. lia. }
  assert (T := Qabs_triangle (r - inject_Z c) (inject_Z d - r)). setoid_replace (r - inject_Z c + (inject_Z d - r)) with (inject_Z d - inject_Z c) in T by ring.
  assert (O : Qabs (inject_Z d - r) == Qabs (r - inject_Z d)). { rewrite <- Qabs_opp. apply Qabs_wd. ring. } rewrite O in T. split; [lra|].
  intro E. right. assert (F : Qabs (r - inject_Z d) == 1 # 2) by lra. specialize (H2 F). rewrite F in *.
  assert (B : (Z.abs (d - c) <= 1)%Z).
  { assert (B : Qabs (inject_Z d - inject_Z c) <= 1) by lra. unfold Qminus in B. rewrite <- inject_Z_opp, <- inject_Z_plus in B. unfold inject_Z, Qabs, Qle in B. cbn [Qnum Qden] in B. lia. }
  assert (C : (c = d + 1 \/ c = d - 1)%Z) by lia. rewrite <- Z.negb_even. destruct C as [-> | ->]; rewrite ?Z.even_add, ?Z.even_sub, H2; reflexivity.
Qed.

Lemma six_core r X d : inject_Z (10 ^ 5) <= r -> r < inject_Z (10 ^ 6) -> nearest_int r d -> forall v' k', (Z.abs v' < 10 ^ 6)%Z ->
  apart (r * Qpower 10 X) (inject_Z d * Qpower 10 X) <= apart (r * Qpower 10 X) (decimal v' k') /\
  (apart (r * Qpower 10 X) (decimal v' k') == apart (r * Qpower 10 X) (inject_Z d * Qpower 10 X) -> decimal v' k' == inject_Z d * Qpower 10 X \/ Z.odd v' = true).
Proof.
  intros R1 R2 N v' k' Hv. assert (P := ten_pos X). destruct (Z.le_gt_cases X k') as [C|C].
  - assert (E : decimal v' k' == inject_Z (v' * 10 ^ (k' - X)) * Qpower 10 X).
    { unfold decimal. replace k' with ((k' - X) + X)%Z at 1 by lia. rewrite ten_add, ten_Z by lia. rewrite inject_Z_mult. ring. }
    rewrite E, !apart_scale by exact P. destruct (nearest_int_least r d (v' * 10 ^ (k' - X)) N) as [L1 L2]. split.
    + apply Qmult_le_l; assumption.
    + intro H. apply Qmult_inj_l in H; [|lra]. destruct (L2 H) as [-> |O]; [left; reflexivity|]. right. rewrite Z.odd_mul in O. apply andb_true_iff in O. apply O.
  - assert (E : exists y, decimal v' k' == y * Qpower 10 X /\ y <= inject_Z (10 ^ 5) - (1 # 10)).
    { exists (decimal v' k' / Qpower 10 X). split; [field; lra|]. unfold decimal.
      replace X with ((X - k' - 1) + (1 + k'))%Z at 1 by lia. rewrite !ten_add. rewrite (ten_Z (X - k' - 1)) by lia. assert (Q := ten_pos k'). set (u := Qpower 10 k') in *. clearbody u.
      assert (B : (1 <= 10 ^ (X - k' - 1))%Z) by (assert (Z := Z.pow_pos_nonneg 10 (X - k' - 1) ltac:(lia) ltac:(lia)); lia).
      set (b := (10 ^ (X - k' - 1))%Z) in *. clearbody b. change (Qpower 10 1) with 10.
      assert (B' : 1 <= inject_Z b). { change 1 with (inject_Z 1). rewrite <- Zle_Qle. exact B. }
      assert (V : inject_Z v' <= 999999). { change 999999 with (inject_Z 999999). rewrite <- Zle_Qle. change (10 ^ 6)%Z with 1000000%Z in Hv. lia. }
      change (inject_Z (10 ^ 5)) with 100000.
      setoid_replace (inject_Z v' * u / (inject_Z b * (10 * u))) with (inject_Z v' / (10 * inject_Z b)) by (field; lra).
      apply Qle_shift_div_r; [lra|]. set (w := inject_Z b) in *. clearbody w. set (z := inject_Z v') in *. clearbody z. nra. }
    destruct E as (y & E & Y). rewrite E, !apart_scale by exact P.
    destruct (nearest_int_least r d (10 ^ 5) N) as [L _]. assert (S : apart r (inject_Z d) < apart r y).
    { apply Qle_lt_trans with (1 := L). rewrite !apart_abs. rewrite !Qabs_pos by lra. lra. }
    split; [apply Qmult_le_l; [exact P|lra]|]. intro H. exfalso. apply Qmult_inj_l in H; lra.
Qed.

Lemma six_of r X d v k : inject_Z (10 ^ 5) <= r -> r < inject_Z (10 ^ 6) -> nearest_int r d -> (Z.abs v < 10 ^ 6)%Z ->
  decimal v k == inject_Z d * Qpower 10 X -> forall x, x == r * Qpower 10 X -> six_digits x v k.
Proof.
  intros R1 R2 N Hv E x Ex. split; [exact Hv|]. split; intros v' k' Hv'.
  - rewrite Ex, E. apply six_core; auto.
  - intro H. rewrite Ex, E in H. rewrite E. apply (six_core r X d R1 R2 N v' k'); [lia|exact H].
Qed.

Lemma close_of r X d v k : inject_Z (10 ^ 5) <= r -> nearest_int r d -> decimal v k == inject_Z d * Qpower 10 X ->
  forall x, x == r * Qpower 10 X -> apart x (decimal v k) <= (1 # 200000) * Qabs x.
Proof.
  intros R1 [N _] E x Ex. assert (P := ten_pos X). rewrite E, Ex, apart_scale, apart_abs by exact P. change (inject_Z (10 ^ 5)) with 100000 in R1.
  rewrite Qabs_Qmult, (Qabs_pos r), (Qabs_pos (Qpower 10 X)) by lra. set (u := Qpower 10 X) in *. clearbody u. set (w := Qabs (r - inject_Z d)) in *. clearbody w. nra.
Qed.

Lemma decimal_opp v k : decimal (- v) k == - decimal v k.
Proof. unfold decimal. rewrite inject_Z_opp. ring. Qed.

Lemma six_opp x v k : six_digits x v k -> six_digits (- x) (- v) k.
Proof.
  intros (H1 & H2 & H3). split; [lia|]. split; intros v' k' Hv'.
  - rewrite decimal_opp, apart_opp. replace v' with (- - v')%Z by lia. rewrite (decimal_opp (- v') k'), apart_opp. apply H2. lia.
  - intro H. assert (G := H3 (- v')%Z k' ltac:(lia)). rewrite Z.odd_opp, decimal_opp in G.
    assert (A : apart x (- decimal v' k') == apart (- x) (decimal v' k')) by (rewrite <- (apart_opp x (- decimal v' k')); apply apart_proper; [reflexivity|ring]).
    rewrite A, H, decimal_opp, apart_opp in G. destruct (G ltac:(reflexivity)) as [G'|G']; [left|right; exact G']. rewrite decimal_opp. lra.
Qed.

Lemma six_proper x y v k : x == y -> six_digits x v k -> six_digits y v k.
Proof.
  intros E (H1 & H2 & H3). split; [exact H1|]. split; intros v' k' Hv'; [rewrite <- E; auto|]. intro H. rewrite <- E in H. auto.
Qed.
Local Close Scope Q_scope.

(** ** The text of a double *)
Lemma significant_spec a b : 0 < a -> 0 < b -> b <= a * 10 ^ 400 ->
  exists r X d, (inject_Z a / inject_Z b == r * Qpower 10 X)%Q /\ (inject_Z (10 ^ 5) <= r)%Q /\ (r < inject_Z (10 ^ 6))%Q /\ nearest_int r d /\
    10 ^ 5 <= fst (significant a b) < 10 ^ 6 /\ (inject_Z (fst (significant a b)) * Qpower 10 (snd (significant a b) - 5) == inject_Z d * Qpower 10 X)%Q.
Proof.
  intros Ha Hb Hab. assert (N1 : 1 <= a * 10 ^ 400 / b) by (apply Z.div_le_lower_bound; lia). destruct (log10_spec _ N1) as (L0 & L1 & L2).
  unfold significant. set (L := log10 (a * 10 ^ 400 / b)) in *. clearbody L.
  assert (D := Z.div_mod (a * 10 ^ 400) b ltac:(lia)). assert (M := Z.mod_pos_bound (a * 10 ^ 400) b Hb).
  assert (B1 : b * 10 ^ L <= a * 10 ^ 400) by nia. assert (B2 : a * 10 ^ 400 < b * 10 ^ (L + 1)) by nia. clear D M N1 L1 L2.
  remember (L - 400) as X eqn:EX. assert (PA := Z.pow_pos_nonneg 10 (Z.max 0 (5 - X)) ltac:(lia) ltac:(lia)). assert (PB := Z.pow_pos_nonneg 10 (Z.max 0 (X - 5)) ltac:(lia) ltac:(lia)).
  set (A := a * 10 ^ Z.max 0 (5 - X)). set (B := b * 10 ^ Z.max 0 (X - 5)).
  assert (HA : 0 < A) by (unfold A; nia). assert (HB : 0 < B) by (unfold B; nia).
  assert (R1 : 10 ^ 5 * B <= A /\ A < 10 ^ 6 * B).
  { unfold A, B. destruct (Z.le_gt_cases X 5) as [C|C].
    - rewrite (Z.max_r 0 (5 - X)), (Z.max_l 0 (X - 5)) by lia. change (10 ^ 0) with 1.
      assert (E1 : 10 ^ 400 * 10 ^ 5 = 10 ^ (5 - X) * 10 ^ L) by (rewrite <- !Z.pow_add_r by lia; f_equal; lia).
      assert (E2 : 10 ^ 400 * 10 ^ 6 = 10 ^ (5 - X) * 10 ^ (L + 1)) by (rewrite <- !Z.pow_add_r by lia; f_equal; lia).
      assert (P := Z.pow_pos_nonneg 10 (5 - X) ltac:(lia) ltac:(lia)). assert (P4 : 0 < 10 ^ 400) by reflexivity.
      set (T := 10 ^ 400) in *. clearbody T. set (U := 10 ^ (5 - X)) in *. clearbody U. set (V := 10 ^ L) in *. clearbody V. set (W := 10 ^ (L + 1)) in *. clearbody W.
      change (10 ^ 5) with 100000 in *. change (10 ^ 6) with 1000000 in *. clear PA PB HA HB A B. split.
      + apply Z.mul_le_mono_pos_r with (p := T); [exact P4|]. nia.
      + apply Z.mul_lt_mono_pos_r with (p := T); [exact P4|]. nia.
    - rewrite (Z.max_l 0 (5 - X)), (Z.max_r 0 (X - 5)) by lia. change (10 ^ 0) with 1.
      assert (E1 : 10 ^ 400 * (10 ^ 5 * 10 ^ (X - 5)) = 10 ^ L) by (rewrite <- !Z.pow_add_r by lia; f_equal; lia).
      assert (E2 : 10 ^ 400 * (10 ^ 6 * 10 ^ (X - 5)) = 10 ^ (L + 1)) by (rewrite <- !Z.pow_add_r by lia; f_equal; lia).
      rewrite <- E1 in B1. rewrite <- E2 in B2. assert (P4 : 0 < 10 ^ 400) by reflexivity.
      set (T := 10 ^ 400) in *. clearbody T. set (U := 10 ^ (X - 5)) in *. clearbody U.
      change (10 ^ 5) with 100000 in *. change (10 ^ 6) with 1000000 in *. clear PA PB HA HB A B E1 E2. split.
      + apply Z.mul_le_mono_pos_r with (p := T); [exact P4|]. nia.
      + apply Z.mul_lt_mono_pos_r with (p := T); [exact P4|]. nia. }
  destruct R1 as [R1 R2].
  assert (HBq : (0 < inject_Z B)%Q) by (change 0%Q with (inject_Z 0); rewrite <- Zlt_Qlt; exact HB).
  exists (inject_Z A / inject_Z B)%Q, (X - 5), (half_even A B). split; [|split; [|split; [|split]]].
  - unfold A, B. destruct (Z.le_gt_cases X 5) as [C|C].
    + rewrite (Z.max_r 0 (5 - X)), (Z.max_l 0 (X - 5)) by lia. change (10 ^ 0) with 1. rewrite Z.mul_1_r, inject_Z_mult, <- ten_Z by lia.
      assert (E := ten_add (5 - X) (X - 5)). replace (5 - X + (X - 5)) with 0 in E by lia. change (Qpower 10 0) with 1%Q in E.
      assert (Hb' : (0 < inject_Z b)%Q) by (change 0%Q with (inject_Z 0); rewrite <- Zlt_Qlt; exact Hb).
      transitivity (inject_Z a / inject_Z b * (Qpower 10 (5 - X) * Qpower 10 (X - 5)))%Q; [rewrite <- E; ring|field; lra].
    + rewrite (Z.max_l 0 (5 - X)), (Z.max_r 0 (X - 5)) by lia. change (10 ^ 0) with 1. rewrite Z.mul_1_r, inject_Z_mult, <- ten_Z by lia.
      assert (P := ten_pos (X - 5)). assert (Hb' : (0 < inject_Z b)%Q) by (change 0%Q with (inject_Z 0); rewrite <- Zlt_Qlt; exact Hb). field. lra.
  - apply Qle_shift_div_l; [exact HBq|]. rewrite <- inject_Z_mult, <- Zle_Qle. exact R1.
  - apply Qlt_shift_div_r; [exact HBq|]. rewrite <- inject_Z_mult, <- Zlt_Qlt. exact R2.
  - assert (H := half_even_near A B HB). assert (T := half_even_even A B HB). set (d := half_even A B) in *. clearbody d.
    assert (E : (Qabs (inject_Z A / inject_Z B - inject_Z d) == inject_Z (Z.abs (A - d * B)) / inject_Z B)%Q).
    { setoid_replace (inject_Z A / inject_Z B - inject_Z d)%Q with ((inject_Z A - inject_Z d * inject_Z B) / inject_Z B)%Q by (field; lra).
      unfold Qdiv. rewrite Qabs_Qmult. rewrite (Qabs_pos (/ inject_Z B)) by (apply Qinv_le_0_compat; lra).
      apply Qmult_comp; [|reflexivity]. unfold Qminus. rewrite <- inject_Z_mult, <- inject_Z_opp, <- inject_Z_plus. reflexivity. }
    split.
    + rewrite E. apply Qle_shift_div_r; [exact HBq|]. setoid_replace ((1 # 2) * inject_Z B)%Q with (inject_Z B / inject_Z 2)%Q by (field; discriminate).
      apply Qle_shift_div_l; [reflexivity|]. rewrite <- inject_Z_mult, <- Zle_Qle. lia.
    + rewrite E. intro F. apply T. assert (G : (inject_Z (2 * Z.abs (A - d * B)) == inject_Z B)%Q).
      { rewrite inject_Z_mult. setoid_replace (inject_Z (Z.abs (A - d * B)))%Q with (inject_Z (Z.abs (A - d * B)) / inject_Z B * inject_Z B)%Q by (field; lra). rewrite F. change (inject_Z 2) with 2%Q. ring. }
      apply (proj1 (inject_Z_injective _ _)). exact G.
  - assert (H := half_even_near A B HB). set (d := half_even A B) in *. clearbody d. change (10 ^ 5) with 100000 in *. change (10 ^ 6) with 1000000 in *. assert (100000 <= d <= 1000000) by nia.
    destruct (Z.eqb_spec d 1000000) as [-> |Nd]; cbn [fst snd].
    + split; [lia|]. replace (X + 1 - 5) with (1 + (X - 5)) by lia. rewrite ten_add. change (Qpower 10 1) with 10%Q. change (inject_Z 100000) with 100000%Q. change (inject_Z 1000000) with 1000000%Q. ring.
    + split; [lia|reflexivity].
Qed.

Lemma general_spec a b : 0 < a -> 0 < b -> b <= a * 10 ^ 400 ->
  exists v k, read_unsigned (general a b) = Some (v, k) /\ six_digits (inject_Z a / inject_Z b) v k /\ (apart (inject_Z a / inject_Z b) (decimal v k) <= (1 # 200000) * Qabs (inject_Z a / inject_Z b))%Q /\ exists c r, general a b = c :: r /\ c <> "-"%char.
Proof.
  intros Ha Hb Hab. destruct (significant_spec a b Ha Hb Hab) as (r & X & d & E & R1 & R2 & N & Hd & Ed). unfold general.
  destruct (significant a b) as [dd XX]. cbn [fst snd] in *.
  assert (G : forall (k : nat) T e, Z.of_nat k = e - (XX - 5) -> stops T -> (match T with "."%char :: _ => False | _ => True end) -> read_exponent T = Some e ->
    exists v q, read_unsigned (strip (decimals k dd) ++ T) = Some (v, q) /\ six_digits (inject_Z a / inject_Z b) v q /\ (apart (inject_Z a / inject_Z b) (decimal v q) <= (1 # 200000) * Qabs (inject_Z a / inject_Z b))%Q /\ exists c r, strip (decimals k dd) ++ T = c :: r /\ c <> "-"%char).
  { intros k T e Hk ST NT RT. unfold decimals. assert (P := Z.pow_pos_nonneg 10 (Z.of_nat k) ltac:(lia) ltac:(lia)).
    assert (D := Z.div_mod dd (10 ^ Z.of_nat k) ltac:(lia)). assert (M := Z.mod_pos_bound dd (10 ^ Z.of_nat k) P). assert (W : 0 <= dd / 10 ^ Z.of_nat k) by (apply Z.div_pos; lia).
    destruct (strip_spec (dd / 10 ^ Z.of_nat k) k (dd mod 10 ^ Z.of_nat k) M) as (j & r' & t & S1 & S2 & S3 & S4 & S5). rewrite S1, <- app_assoc.
    exists (dd / 10 ^ Z.of_nat k * 10 ^ j + r'), (e - j). split; [apply read_parts; auto; lia|].
    assert (V : (dd / 10 ^ Z.of_nat k * 10 ^ j + r') * 10 ^ (Z.of_nat k - j) = dd).
    { rewrite Z.mul_add_distr_r, <- S5, <- Z.mul_assoc, <- Z.pow_add_r by lia. replace (j + (Z.of_nat k - j)) with (Z.of_nat k) by lia. lia. }
    assert (PJ := Z.pow_pos_nonneg 10 (Z.of_nat k - j) ltac:(lia) ltac:(lia)).
    assert (V0 : 0 <= dd / 10 ^ Z.of_nat k * 10 ^ j + r') by (assert (PP := Z.pow_pos_nonneg 10 j ltac:(lia) ltac:(lia)); nia).
    assert (VE : (decimal (dd / 10 ^ Z.of_nat k * 10 ^ j + r') (e - j) == inject_Z d * Qpower 10 X)%Q).
    { rewrite <- Ed. unfold decimal. revert V. generalize (dd / 10 ^ Z.of_nat k * 10 ^ j + r'). intros v V. rewrite <- V, inject_Z_mult, <- (ten_Z (Z.of_nat k - j)) by lia. rewrite <- Qmult_assoc, <- ten_add.
      replace (Z.of_nat k - j + (XX - 5)) with (e - j) by lia. reflexivity. }
    split; [|split].
    - apply (six_of r X d); auto. rewrite Z.abs_eq by exact V0. change (10 ^ 6) with 1000000 in *. nia.
    - apply (close_of r X d); auto.
    - assert (F := show_digits _ W). assert (NE := show_nonempty (dd / 10 ^ Z.of_nat k)). destruct (show (dd / 10 ^ Z.of_nat k)) as [|c l]; [congruence|].
      exists c, (l ++ t ++ T). split; [reflexivity|]. apply digit_stop. inversion F; assumption. }
  destruct ((-4 <=? XX) && (XX <=? 5)) eqn:C.
  - apply andb_true_iff in C. destruct C as [C1 C2]. apply Z.leb_le in C1, C2. rewrite <- (app_nil_r (strip _)). apply (G (Z.to_nat (5 - XX)) [] 0); [lia|exact I|exact I|reflexivity].
  - apply (G 5%nat (exponent_text XX) XX); [lia|reflexivity|exact I|apply exponent_read].
Qed.

Theorem stream_rounded x z : f64_is 1074 x z -> exists v k, read_number (wd_stream x) = Some (v, k) /\ six_digits (units z) v k /\
  (apart (units z) (decimal v k) <= (1 # 200000) * Qabs (units z))%Q.
Proof.
  intro H. destruct (is_fin _ _ H) as [F <-]. clear H. destruct x as [s|s| |s m e]; try contradiction; cbn [wd_stream fv].
  - exists 0, 0. split; [destruct s; reflexivity|]. split; [|vm_compute; discriminate]. apply (six_proper 0); [reflexivity|]. split; [reflexivity|]. split; intros v' k' Hv'.
    + assert (E : (apart 0 (decimal 0 0) == 0)%Q) by reflexivity. rewrite E, apart_abs. apply Qabs_nonneg.
    + intro G. left. assert (E : (apart 0 (decimal 0 0) == 0)%Q) by reflexivity. rewrite E, apart_abs in G. assert (E0 : (decimal 0 0 == 0)%Q) by reflexivity. rewrite E0.
      assert (A := Qle_Qabs (0 - decimal v' k')). assert (B := Qle_Qabs (- (0 - decimal v' k'))). rewrite Qabs_opp in B. lra.
  - cbn [fin valid_binary] in F. apply bounded_range in F. destruct F as (Fe & _).
    assert (P1 := Z.pow_pos_nonneg 2 (Z.max 0 e) ltac:(lia) ltac:(lia)). assert (P2 := Z.pow_pos_nonneg 2 (Z.max 0 (- e)) ltac:(lia) ltac:(lia)).
    destruct (general_spec (Zpos m * 2 ^ Z.max 0 e) (2 ^ Z.max 0 (- e))) as (v & k & G1 & G2 & G5 & c & t & G3 & G4); [nia|exact P2| |].
    { apply Z.le_trans with (1 * 10 ^ 400); [|apply Z.mul_le_mono_nonneg_r; [vm_compute; discriminate|nia]]. apply Z.le_trans with (2 ^ 1074); [apply Z.pow_le_mono_r; lia|vm_compute; discriminate]. }
    assert (E : (inject_Z (Zpos m * 2 ^ Z.max 0 e) / inject_Z (2 ^ Z.max 0 (- e)) == units (Zpos m * 2 ^ (e + 1074)))%Q).
    { unfold units. assert (Q2 : (0 < inject_Z (2 ^ Z.max 0 (- e)))%Q) by (change 0%Q with (inject_Z 0); rewrite <- Zlt_Qlt; exact P2).
      assert (Q3 : (0 < inject_Z (2 ^ 1074))%Q) by reflexivity.
      assert (ES : 2 ^ Z.max 0 e * 2 ^ 1074 = 2 ^ (e + 1074) * 2 ^ Z.max 0 (- e)) by (rewrite <- !Z.pow_add_r by lia; f_equal; lia).
      set (T := 2 ^ 1074) in *. clearbody T. set (p := 2 ^ Z.max 0 e) in *. clearbody p. set (q := 2 ^ Z.max 0 (- e)) in *. clearbody q. set (u := 2 ^ (e + 1074)) in *. clearbody u.
      assert (EQ : (inject_Z p * inject_Z T == inject_Z u * inject_Z q)%Q) by (rewrite <- !inject_Z_mult, ES; reflexivity).
      rewrite !inject_Z_mult. transitivity (inject_Z (Zpos m) * (inject_Z p * inject_Z T) / (inject_Z q * inject_Z T))%Q; [field; lra|]. rewrite EQ. field. lra. }
    apply (six_proper _ _ _ _ E) in G2. rewrite E in G5. destruct s; cbn [sign_text app].
    + exists (- v), k. cbn [chars list_ascii_of_string app read_number]. rewrite G1. split; [reflexivity|]. cbn [cond_Zopp]. change (Zneg m) with (- Zpos m). rewrite Z.mul_opp_l.
      assert (EO : (units (- (Zpos m * 2 ^ (e + 1074))) == - units (Zpos m * 2 ^ (e + 1074)))%Q) by (unfold units; rewrite inject_Z_opp; field; discriminate).
      split; [apply (six_proper (- units (Zpos m * 2 ^ (e + 1074)))); [symmetry; exact EO|apply six_opp; exact G2]|].
      rewrite EO, decimal_opp, apart_opp, Qabs_opp. exact G5.
    + exists v, k. split; [|split; [exact G2|exact G5]]. rewrite G3 in *. unfold read_number. destruct c as [[] [] [] [] [] [] [] []]; try exact G1. congruence.
Qed.

Theorem stream_same x y z w : f64_is 1074 x z -> f64_is 1074 y w -> wd_stream x = wd_stream y ->
  (apart (units z) (units w) <= (1 # 200000) * (Qabs (units z) + Qabs (units w)))%Q.
Proof.
  intros Hx Hy E. destruct (stream_rounded x z Hx) as (v & k & R & _ & C). destruct (stream_rounded y w Hy) as (v' & k' & R' & _ & C').
  rewrite E, R' in R. injection R as -> ->. rewrite apart_abs in *. assert (T := Qabs_triangle (units z - decimal v k) (decimal v k - units w)).
  setoid_replace (units z - decimal v k + (decimal v k - units w))%Q with (units z - units w)%Q in T by ring.
  assert (O : (Qabs (decimal v k - units w) == Qabs (units w - decimal v k))%Q) by (rewrite <- Qabs_opp; apply Qabs_wd; ring). rewrite O in T. lra.
Qed.

(** ** Integers *)
Lemma strip_zeros w k : strip (show w ++ chars "." ++ digits k 0) = show w.
Proof.
  induction k as [|k IH].
  - cbn [digits]. unfold strip. rewrite app_nil_r. cbn [chars list_ascii_of_string]. rewrite rev_app_distr. cbn [rev app strip_back]. rewrite rev_involutive. reflexivity.
  - cbn [digits]. change (0 / 10) with 0. change (show (0 mod 10)) with ["0"%char]. unfold strip in *. rewrite !app_assoc, rev_app_distr. cbn [rev app strip_back]. rewrite <- !app_assoc. exact IH.
Qed.

Lemma log10_unique z L : 0 <= L -> 10 ^ L <= z < 10 ^ (L + 1) -> log10 z = L.
Proof.
  intros HL Hz. assert (P := Z.pow_pos_nonneg 10 L ltac:(lia) ltac:(lia)). destruct (log10_spec z ltac:(lia)) as (K0 & K). set (K' := log10 z) in *. clearbody K'.
  destruct (Z.lt_trichotomy K' L) as [C|[C|C]]; [exfalso| exact C|exfalso].
  - assert (10 ^ (K' + 1) <= 10 ^ L) by (apply Z.pow_le_mono_r; lia). lia.
  - assert (10 ^ (L + 1) <= 10 ^ K') by (apply Z.pow_le_mono_r; lia). lia.
Qed.

Lemma general_int n b : 0 < b -> 1 <= n < 10 ^ 6 -> general (n * b) b = show n.
Proof.
  intros Hb Hn. destruct (log10_spec n ltac:(lia)) as (L0 & L1 & L2). remember (log10 n) as L eqn:EL.
  assert (L5 : L <= 5). { destruct (Z.le_gt_cases L 5) as [C|C]; [exact C|exfalso]. assert (10 ^ 6 <= 10 ^ L) by (apply Z.pow_le_mono_r; lia). lia. }
  unfold general, significant. replace (n * b * 10 ^ 400 / b) with (n * 10 ^ 400) by (rewrite <- Z.mul_assoc, (Z.mul_comm b), Z.mul_assoc, Z.div_mul by lia; reflexivity).
  rewrite (log10_unique (n * 10 ^ 400) (L + 400)); [|lia|].
  2: { rewrite Z.pow_add_r by lia. replace (L + 400 + 1) with (L + 1 + 400) by lia. rewrite (Z.pow_add_r 10 (L + 1) 400) by lia. assert (P : 0 < 10 ^ 400) by reflexivity. set (T := 10 ^ 400) in *. clearbody T. nia. }
  replace (L + 400 - 400) with L by lia. rewrite (Z.max_r 0 (5 - L)), (Z.max_l 0 (L - 5)) by lia. change (10 ^ 0) with 1. rewrite Z.mul_1_r.
  assert (P := Z.pow_pos_nonneg 10 (5 - L) ltac:(lia) ltac:(lia)).
  assert (H : half_even (n * b * 10 ^ (5 - L)) b = n * 10 ^ (5 - L)).
  { assert (E : n * b * 10 ^ (5 - L) = n * 10 ^ (5 - L) * b) by ring. unfold half_even. rewrite E, Z.div_mul, Z.mod_mul by lia. destruct (Z.ltb_spec (2 * 0) b); [reflexivity|lia]. }
  rewrite H. assert (U : n * 10 ^ (5 - L) < 10 ^ 6).
  { replace 6 with ((L + 1) + (5 - L)) at 1 by lia. rewrite (Z.pow_add_r 10 (L + 1)) by lia. nia. }
  destruct (Z.eqb_spec (n * 10 ^ (5 - L)) (10 ^ 6)) as [C|_]; [lia|].
  replace ((-4 <=? L) && (L <=? 5)) with true by (symmetry; apply andb_true_iff; split; apply Z.leb_le; lia).
  unfold decimals. rewrite Z2Nat.id by lia. rewrite Z.div_mul, Z.mod_mul by lia. apply strip_zeros.
Qed.

Lemma show_neg p : show (Zneg p) = chars "-" ++ show (Zpos p).
Proof. reflexivity. Qed.

Theorem stream_int x n : f64_is 0 x n -> Z.abs n < 10 ^ 6 -> wd_stream x = show n \/ x = S754_zero true /\ n = 0 /\ wd_stream x = chars "-0".
Proof.
  intros H Hn. destruct x as [s|s| |s m e]; try contradiction; cbn [f64_is wd_stream] in *.
  - subst n. destruct s; [right; auto|left; reflexivity].
  - left. destruct H as [_ H]. rewrite Z.add_0_r in H. assert (P1 := Z.pow_pos_nonneg 2 (Z.max 0 e) ltac:(lia) ltac:(lia)). assert (P2 := Z.pow_pos_nonneg 2 (Z.max 0 (- e)) ltac:(lia) ltac:(lia)).
    set (p := 2 ^ Z.max 0 e) in *. clearbody p. set (q := 2 ^ Z.max 0 (- e)) in *. clearbody q. destruct s; cbn [cond_Zopp sign_text] in *.
    + change (Zneg m) with (- Zpos m) in H. destruct n as [|n|n]; [nia|nia|]. rewrite show_neg. f_equal. change (Zneg n) with (- Zpos n) in H. replace (Zpos m * p) with (Zpos n * q) by lia. apply general_int; [exact P2|]. cbn [Z.abs] in Hn. lia.
    + cbn [chars list_ascii_of_string app]. rewrite H. apply general_int; [exact P2|]. destruct n as [|n|n]; [nia|cbn [Z.abs] in Hn; lia|nia].
Qed.

(** ** Constructors *)
Lemma fin_is f : fin f -> f64_is 1074 f (fv f).
Proof.
  destruct f as [s|s| |s m e]; cbn [f64_is fin fv]; try contradiction; [reflexivity|]. intro H. split; [exact H|]. cbn [valid_binary] in H. apply bounded_range in H.
  rewrite Z.max_r, Z.max_l by lia. change (2 ^ 0) with 1. lia.
Qed.

Theorem of_size n : 0 <= n < 2 ^ 64 ->
  exists w, f64_is 1074 (wd_of_size n) w /\ 2 ^ 53 * Z.abs (w - n * 2 ^ 1074) <= n * 2 ^ 1074 /\ (n <= 2 ^ 53 -> w = n * 2 ^ 1074).
Proof.
  intro Hn. exists (fv (wd_of_size n)). destruct (normalize_nearest n 0) as [F N]; [lia| |].
  { rewrite Z.abs_eq by (apply Z.mul_nonneg_nonneg; [lia|apply Z.pow_nonneg; lia]). apply Z.lt_le_trans with (2 ^ 64 * 2 ^ (0 + 1074)); [|vm_compute; discriminate].
    apply Z.mul_lt_mono_pos_r; [reflexivity|lia]. }
  change (0 + 1074) with 1074 in N. change (binary_normalize 53 1024 n 0 false) with (wd_of_size n) in *. split; [apply fin_is; exact F|]. split.
  - apply round_error in N. rewrite (Z.abs_eq (n * 2 ^ 1074)) in N by (apply Z.mul_nonneg_nonneg; [lia|apply Z.pow_nonneg; lia]). rewrite <- Z.abs_opp. replace (- (fv (wd_of_size n) - n * 2 ^ 1074)) with (n * 2 ^ 1074 - fv (wd_of_size n)) by lia. exact N.
  - intro L. destruct (Z.eq_dec n (2 ^ 53)) as [->|D]; [reflexivity|]. apply (of_Z_fin n). rewrite Z.abs_eq by lia. lia.
Qed.

Theorem int_text z : INT_MIN <= z <= INT_MAX -> f64_is 0 (wd_of_int z) z /\ (Z.abs z < 10 ^ 6 -> wd_stream (wd_of_int z) = show z).
Proof.
  intro Hz. assert (H := of_int_is z Hz). split; [exact H|]. intro L. destruct (stream_int _ _ H L) as [E|(E & _)]; [exact E|].
  exfalso. unfold wd_of_int, f64_of_Z in E. destruct z as [|p|p]; [discriminate| |]; cbn [binary_normalize] in E.
  all: revert E; assert (X := H); unfold f64_of_Z in X; cbn [binary_normalize] in X; intro E; rewrite E in X; cbn [f64_is] in X; discriminate.
Qed.

Theorem int_compare a b : INT_MIN <= a <= INT_MAX -> INT_MIN <= b <= INT_MAX ->
  wlt (wd_of_int a) (wd_of_int b) = (a <? b) /\ wle (wd_of_int a) (wd_of_int b) = (a <=? b) /\ wgt (wd_of_int a) (wd_of_int b) = (b <? a) /\
  wge (wd_of_int a) (wd_of_int b) = (b <=? a) /\ weq (wd_of_int a) (wd_of_int b) = (a =? b).
Proof.
  unfold INT_MIN, INT_MAX. intros Ha Hb.
  assert (Ra : R 0 (wd_of_int a) a). { assert (X := R_of_Z 0 ltac:(lia) a ltac:(rewrite Z.pow_0_r; lia)). rewrite Z.pow_0_r, Z.mul_1_r in X. exact X. }
  assert (Rb : R 0 (wd_of_int b) b). { assert (X := R_of_Z 0 ltac:(lia) b ltac:(rewrite Z.pow_0_r; lia)). rewrite Z.pow_0_r, Z.mul_1_r in X. exact X. }
  split; [apply (W_lt 0 ltac:(lia) _ _ a b Ra Rb); lia|]. split; [apply (W_le 0 ltac:(lia) _ _ a b Ra Rb); lia|]. split; [apply (W_gt 0 ltac:(lia) _ _ a b Ra Rb); lia|].
  split; [apply (W_ge 0 ltac:(lia) _ _ a b Ra Rb); lia|]. apply (W_eq 0 ltac:(lia) _ _ a b Ra Rb); lia.
Qed.
