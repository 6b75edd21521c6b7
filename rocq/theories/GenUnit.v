(** * [double random_t::next()] *)
From Coq Require Import Floats.SpecFloat.
From Verif Require Import Base BaseLemmas Data CostScaling Generator GenMore GenFar GenSpec FloatSpec FloatRound GenRng GenUniform GenFarFloat.
Local Open Scope Z_scope.

(** testlib.h:863-867 *)
Definition unit_next (s : rng) : spec_float * rng := let '(z, s) := unit_bits s in (unit_of z, s).

(** the number drawn is between a / 2^26 and (a + 1) / 2^26 *)
Definition in_slot (a : Z) (w : rng) : Prop :=
  exists k, f64_is 53 (fst (unit_next w)) k /\ a * 2 ^ 27 <= k < (a + 1) * 2 ^ 27.

Theorem unit_digits s : exists k, f64_is 53 (fst (unit_next s)) k /\ 0 <= k < 2 ^ 53 /\
  k / 2 ^ 27 = rng_step s / 2 ^ 22 /\ k mod 2 ^ 27 = rng_step (rng_step s) / 2 ^ 21 /\ snd (unit_next s) = rng_step (rng_step s).
Proof.
  unfold unit_next, unit_bits, next_bits. change (48 - 26) with 22. change (48 - 27) with 21. cbn [fst snd].
  assert (H1 := step_ok s). assert (H2 := step_ok (rng_step s)). set (t := rng_step s) in *. set (u := rng_step t) in *. unfold rng_ok in *. clearbody t u.
  rewrite Z.shiftl_mul_pow2, !Z.shiftr_div_pow2 by lia.
  assert (A := Z.div_mod t (2 ^ 22) ltac:(lia)). assert (A' := Z.mod_pos_bound t (2 ^ 22) ltac:(lia)).
  assert (B := Z.div_mod u (2 ^ 21) ltac:(lia)). assert (B' := Z.mod_pos_bound u (2 ^ 21) ltac:(lia)).
  remember (t / 2 ^ 22) as x. remember (u / 2 ^ 21) as y. remember (t mod 2 ^ 22) as x'. remember (u mod 2 ^ 21) as y'.
  exists (x * 2 ^ 27 + y). assert (HB : 0 <= x * 2 ^ 27 + y < 2 ^ 53) by lia. split; [|split; [exact HB|split; [|split]]].
  - destruct (Z.eq_dec (x * 2 ^ 27 + y) 0) as [->|N]; [vm_compute; reflexivity|]. apply unit_of_is. lia.
  - symmetry. apply (Z.div_unique _ _ _ y); lia.
  - symmetry. apply (Z.mod_unique _ _ x); lia.
  - reflexivity.
Qed.

Lemma is53_unique p P Q : f64_is 53 p P -> f64_is 53 p Q -> P = Q.
Proof. intros H1 H2. destruct (is53_fin p P H1) as [_ V1]. destruct (is53_fin p Q H2) as [_ V2]. rewrite V1 in V2. apply (Z.mul_cancel_r _ _ (2 ^ 1021)); [apply Z.pow_nonzero; lia|exact V2]. Qed.

Lemma slot_step a w : in_slot a w <-> rng_step w / 2 ^ 22 = a.
Proof.
  destruct (unit_digits w) as (k & K1 & _ & K3 & _). split.
  - intros (k' & J1 & J2). rewrite (is53_unique _ _ _ J1 K1) in J2. rewrite <- K3. symmetry. apply (Z.div_unique _ _ _ (k - a * 2 ^ 27)); lia.
  - intros E. exists k. split; [exact K1|]. assert (X := Z.div_mod k (2 ^ 27) ltac:(lia)). assert (Y := Z.mod_pos_bound k (2 ^ 27) ltac:(lia)). rewrite K3, E in X. lia.
Qed.

(** equally many states for each slot *)
Theorem unit_uniform a a' : 0 <= a < 2 ^ 26 -> 0 <= a' < 2 ^ 26 ->
  exists f : rng -> rng,
    (forall w, 0 <= w < 2 ^ 48 -> in_slot a w -> 0 <= f w < 2 ^ 48 /\ in_slot a' (f w)) /\
    (forall w1 w2, 0 <= w1 < 2 ^ 48 -> 0 <= w2 < 2 ^ 48 -> in_slot a w1 -> in_slot a w2 -> f w1 = f w2 -> w1 = w2).
Proof.
  intros Ha Ha'. exists (fun w => unstep (rng_step w + (a' - a) * 2 ^ 22)).
  assert (M : forall w, in_slot a w -> rng_ok (rng_step w + (a' - a) * 2 ^ 22)).
  { intros w E. apply slot_step in E. assert (X := Z.div_mod (rng_step w) (2 ^ 22) ltac:(lia)). assert (Y := Z.mod_pos_bound (rng_step w) (2 ^ 22) ltac:(lia)). unfold rng_ok. lia. }
  split.
  - intros w Hw E. split; [apply unstep_ok|]. apply slot_step. rewrite step_unstep by (apply M; exact E). apply slot_step in E. rewrite Z.div_add by lia. lia.
  - intros w1 w2 H1 H2 E1 E2 EF. apply (f_equal rng_step) in EF. rewrite !step_unstep in EF by (apply M; assumption).
    rewrite <- (unstep_step w1 H1), <- (unstep_step w2 H2). f_equal. lia.
Qed.
