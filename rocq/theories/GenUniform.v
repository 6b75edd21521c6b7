(** * next(n) gives every value for the same number of states *)
From Verif Require Import Base Data BaseLemmas ProblemDefine CostScaling Generator GenSpec GenRng GenGraphProof.
Local Open Scope Z_scope.

(** ** The step is a bijection *)
Definition inverse : Z := 246154705703781.
Definition unstep (t : rng) : rng := ((t - rng_addend) * inverse) mod 2 ^ 48.

Lemma unstep_ok t : rng_ok (unstep t).
Proof. apply Z.mod_pos_bound. lia. Qed.

Lemma inverse_eq : rng_multiplier * inverse = 1 + 2 ^ 48 * (rng_multiplier * inverse / 2 ^ 48).
Proof. vm_compute. reflexivity. Qed.

Lemma step_unstep t : rng_ok t -> rng_step (unstep t) = t.
Proof.
  intro H. rewrite step_eq. unfold unstep. rewrite <- Z.add_mod_idemp_l, Z.mul_mod_idemp_l, Z.add_mod_idemp_l by lia.
  rewrite <- Z.mul_assoc, (Z.mul_comm inverse), inverse_eq. set (q := rng_multiplier * inverse / 2 ^ 48). clearbody q.
  replace ((t - rng_addend) * (1 + 2 ^ 48 * q) + rng_addend) with (t + (t - rng_addend) * q * 2 ^ 48) by ring.
  rewrite Z.mod_add by lia. apply Z.mod_small. exact H.
Qed.

Lemma unstep_step w : rng_ok w -> unstep (rng_step w) = w.
Proof.
  intro H. rewrite step_eq. unfold unstep. rewrite <- Z.mul_mod_idemp_l, Zminus_mod_idemp_l, Z.mul_mod_idemp_l by lia.
  replace ((w * rng_multiplier + rng_addend - rng_addend) * inverse) with (w * (rng_multiplier * inverse)) by ring.
  rewrite inverse_eq. set (q := rng_multiplier * inverse / 2 ^ 48). clearbody q.
  replace (w * (1 + 2 ^ 48 * q)) with (w + w * q * 2 ^ 48) by ring. rewrite Z.mod_add by lia. apply Z.mod_small. exact H.
Qed.

(** ** Changing the bits *)
Definition move (d : Z) (t : rng) : rng := t + d * 2 ^ 17.

Lemma move_bits d t : bits31 (move d t) = bits31 t + d.
Proof. unfold bits31, move. rewrite !Z.shiftr_div_pow2 by lia. rewrite Z.div_add by lia. reflexivity. Qed.

Lemma move_ok d t : rng_ok t -> 0 <= bits31 t + d < 2 ^ 31 -> rng_ok (move d t).
Proof.
  intros H H1. rewrite <- move_bits in H1. unfold bits31 in H1. rewrite Z.shiftr_div_pow2 in H1 by lia. unfold rng_ok.
  pose proof (Z.div_mod (move d t) (2 ^ 17) ltac:(lia)). pose proof (Z.mod_pos_bound (move d t) (2 ^ 17) ltac:(lia)). lia.
Qed.

Lemma pow2_power n : 0 < n -> pow2 n = true -> n = 2 ^ Z.log2 n.
Proof.
  intros Hn H. apply Z.eqb_eq in H. pose proof (Z.log2_spec n Hn) as [L1 L2]. set (k := Z.log2 n) in *.
  assert (Hk : 0 <= k) by apply Z.log2_nonneg.
  destruct (Z.eq_dec n (2 ^ k)) as [E|NE]; [exact E|exfalso].
  assert (L : Z.log2 (n - 1) = k) by (apply Z.log2_unique; [exact Hk|lia]).
  assert (B1 : Z.testbit n k = true) by (apply Z.bit_log2; lia).
  assert (B2 : Z.testbit (n - 1) k = true) by (rewrite <- L; apply Z.bit_log2; lia).
  assert (B3 : Z.testbit (Z.land n (- n)) k = false).
  { rewrite Z.land_spec. replace (- n) with (Z.lnot (n - 1)) by (unfold Z.lnot; lia). rewrite Z.lnot_spec, B2 by lia. apply andb_false_r. }
  rewrite H in B3. congruence.
Qed.

Lemma moved n r r' : 0 < n <= INT_MAX -> 0 <= r < n -> 0 <= r' < n -> exists d, forall t, rng_ok t -> out n t = Some r ->
  rng_ok (move d t) /\ out n (move d t) = Some r'.
Proof.
  intros Hn Hr Hr'. unfold out. destruct (pow2 n) eqn:P.
  - apply (pow2_power n) in P; [|lia]. set (j := Z.log2 n) in *. assert (Hj : 0 <= j) by apply Z.log2_nonneg.
    assert (Hj31 : j < 31). { apply (Z.pow_lt_mono_r_iff 2); [lia|lia|]. rewrite <- P. change (2 ^ 31) with (INT_MAX + 1). lia. }
    assert (E31 : 2 ^ 31 = n * 2 ^ (31 - j)) by (rewrite P at 1; rewrite <- Z.pow_add_r by lia; f_equal; lia).
    set (w := 2 ^ (31 - j)) in *. assert (Hw : 0 < w) by (apply Z.pow_pos_nonneg; lia).
    assert (Q : forall b, Z.shiftr (n * b) 31 = b / w).
    { intro b. rewrite Z.shiftr_div_pow2, E31 by lia. apply Z.div_mul_cancel_l; lia. }
    exists ((r' - r) * w). intros t Ht [= E]. rewrite Q in E. rewrite move_bits, Q, Z.div_add by lia.
    split; [|f_equal; lia]. apply move_ok; [exact Ht|].
    pose proof (Z.div_mod (bits31 t) w ltac:(lia)). pose proof (Z.mod_pos_bound (bits31 t) w Hw). rewrite E31, E in *. nia.
  - exists (r' - r). intros t Ht E. destruct (INT_MAX / n * n <=? bits31 t) eqn:E1; [discriminate|]. injection E as E. apply Z.leb_gt in E1.
    pose proof (bits31_range t Ht) as HB. rewrite move_bits.
    pose proof (Z.div_mod (bits31 t) n ltac:(lia)) as DM. rewrite E in DM. set (q := bits31 t / n) in *.
    assert (Hq : 0 <= q) by (apply Z.div_pos; lia).
    assert (Hq2 : q < INT_MAX / n) by (apply Z.div_lt_upper_bound; lia).
    assert (L : n * q + r' < INT_MAX / n * n) by nia.
    assert (LM : INT_MAX / n * n <= INT_MAX) by (pose proof (Z.mul_div_le INT_MAX n ltac:(lia)); lia).
    replace (bits31 t + (r' - r)) with (n * q + r') by lia. split.
    + apply move_ok; [exact Ht|]. change (2 ^ 31) with (INT_MAX + 1). replace (bits31 t + (r' - r)) with (n * q + r') by lia. nia.
    + rewrite (proj2 (Z.leb_gt _ _) L). f_equal. rewrite Z.mul_comm, Z.add_comm, Z.mod_add by lia. apply Z.mod_small. lia.
Qed.

(** from the states that give [r] there is an injection to those that give [r'] *)
Theorem next_uniform n r r' : 1 <= n <= INT_MAX -> 0 <= r < n -> 0 <= r' < n ->
  exists f : rng -> rng,
    (forall w, 0 <= w < 2 ^ 48 -> next_of n w = Some r -> 0 <= f w < 2 ^ 48 /\ next_of n (f w) = Some r') /\
    (forall w1 w2, 0 <= w1 < 2 ^ 48 -> 0 <= w2 < 2 ^ 48 -> next_of n w1 = Some r -> next_of n w2 = Some r -> f w1 = f w2 -> w1 = w2).
Proof.
  intros Hn Hr Hr'. destruct (moved n r r' ltac:(lia) Hr Hr') as [d HM].
  exists (fun w => unstep (move d (rng_step w))). split.
  - intros w Hw E. rewrite next_of_out in E by lia. destruct (HM _ (step_ok w) E) as [M1 M2].
    split; [apply unstep_ok|]. rewrite next_of_out, step_unstep by (lia || exact M1). exact M2.
  - intros w1 w2 H1 H2 E1 E2 EF. rewrite next_of_out in E1, E2 by lia.
    destruct (HM _ (step_ok w1) E1) as [M1 _], (HM _ (step_ok w2) E2) as [M2 _].
    apply (f_equal rng_step) in EF. rewrite !step_unstep in EF by assumption. unfold move in EF.
    rewrite <- (unstep_step w1 H1), <- (unstep_step w2 H2). f_equal. lia.
Qed.
