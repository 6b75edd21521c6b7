(** * The total work of min_cost() in closed form *)
From Verif Require Import Base Data LCT LCTSpec LCTRun LCTTime LCTAmortRun ProblemDefine Flow FlowSpec WorkSpec FlowTotal.
From Verif Require Import FlowLog CallSpec CallTotal.
Local Open Scope Z_scope.

Lemma rounds_log n U r : 1 <= U -> 2 ^ Z.of_nat r < 4 * Z.of_nat (n + 1) * U -> Z.of_nat r <= Z.log2 (Z.of_nat (n + 1) * U) + 2.
Proof.
  intros HU Hr. set (x := Z.of_nat (n + 1) * U). assert (Hx : 1 <= x) by (unfold x; nia).
  replace (Z.log2 x + 2) with (Z.log2 (x * 2 ^ 2)) by (rewrite Z.log2_mul_pow2 by lia; lia).
  apply Z.log2_le_pow2; unfold x; nia.
Qed.

Lemma round_iterations_le n m : 0 <= round_iterations n m <= 24 * Z.of_nat (n + 1) * (Z.of_nat m + Z.of_nat (n + 1)).
Proof. unfold round_iterations. cbv zeta. rewrite Nat2Z.inj_add. change (Z.of_nat 1) with 1. nia. Qed.

Lemma round_calls_le n m : 0 <= round_calls n (round_steps n m) <= 432 * Z.of_nat (n + 1) * (Z.of_nat m + Z.of_nat (n + 1)).
Proof. unfold round_calls, round_steps, step_bound, round_iterations. cbv zeta. rewrite Nat2Z.inj_add. change (Z.of_nat 1) with 1. nia. Qed.

(** if no limit is further from 0 than U, the first round is like the others *)
Lemma first_round_le n m K U : 0 <= K <= U -> 1 <= U -> first_round_steps n m K U <= round_steps n m.
Proof.
  intros HK HU. unfold first_round_steps, round_steps, step_bound, phase_iterations, round_iterations. cbv zeta.
  assert (X : Z.of_nat n * (2 * K + U) / U <= 3 * Z.of_nat n) by (apply Z.div_le_upper_bound; nia).
  set (a := Z.of_nat n * (2 * K + U) / U) in *. clearbody a. set (b := 3 * Z.of_nat n) in *. clearbody b.
  assert (a * (8 * Z.of_nat m + 3 * Z.of_nat (n + 1)) <= b * (8 * Z.of_nat m + 3 * Z.of_nat (n + 1))) by (apply Z.mul_le_mono_nonneg_r; lia).
  assert (Z.of_nat m * a <= Z.of_nat m * b) by (apply Z.mul_le_mono_nonneg_l; lia). lia.
Qed.

Lemma min_cost_calls_le n m K U r : 0 <= K <= U -> 1 <= U -> r = 0%nat \/ 2 ^ Z.of_nat r < 4 * Z.of_nat (n + 1) * U ->
  min_cost_calls n m K U r <= 432 * Z.of_nat (n + 1) * (Z.of_nat m + Z.of_nat (n + 1)) * (Z.log2 (Z.of_nat (n + 1) * U) + 2).
Proof.
  intros HK HU Hr. assert (R := round_calls_le n m). assert (F := first_round_le n m K U HK HU).
  assert (L := Z.log2_nonneg (Z.of_nat (n + 1) * U)). unfold min_cost_calls. destruct r as [|r]; [nia|].
  destruct Hr as [|Hr]; [discriminate|]. apply rounds_log in Hr; [|exact HU]. rewrite Nat2Z.inj_succ in Hr.
  set (B := 432 * Z.of_nat (n + 1) * (Z.of_nat m + Z.of_nat (n + 1))) in *. set (y := round_calls n (round_steps n m)) in *.
  assert (round_calls n (first_round_steps n m K U) <= y) by (unfold y, round_calls; lia). clearbody B y.
  assert (Z.of_nat r * y <= Z.of_nat r * B) by nia. nia.
Qed.

Lemma list_sum_repeat k r : list_sum (repeat k r) = (r * k)%nat.
Proof. induction r as [|r IH]; [reflexivity|]. cbn [repeat list_sum fold_right]. unfold list_sum in IH. rewrite IH. lia. Qed.

Theorem closed_iterations (one : Z) (fuel n : nat) (M K U : Z) (limits : list (OmegaLimit Z)) :
  network_wf n M K U limits -> flow_iterations n (length limits) K <= Z.of_nat fuel -> K <= U ->
  exists s s' ks, @flow_new Z (exact_ops one) fuel n M U limits = Ok s /\
    @scaling_loop Z (exact_ops one) fuel fuel s = Ok s' /\ @phases_run (exact_ops one) fuel ks s s' /\
    Z.of_nat (length ks) <= Z.log2 (Z.of_nat (n + 1) * U) + 2 /\
    Z.of_nat (list_sum ks) <= 24 * Z.of_nat (n + 1) * (Z.of_nat (length limits) + Z.of_nat (n + 1)) * (Z.log2 (Z.of_nat (n + 1) * U) + 2).
Proof.
  intros HW Hf HK. destruct (total_work one fuel n M K U limits HW Hf HK) as (s & s' & r & E1 & Hr & E2 & E3).
  destruct HW as (_ & _ & HF & HK1 & _). apply rounds_log in Hr; [|lia].
  exists s, s', (repeat (Z.to_nat (round_iterations n (length limits))) r). do 3 (split; [assumption|]).
  rewrite repeat_length, list_sum_repeat. split; [exact Hr|]. assert (R := round_iterations_le n (length limits)).
  rewrite Nat2Z.inj_mul, Z2Nat.id by lia. rewrite Z.mul_comm. apply Z.mul_le_mono_nonneg; lia.
Qed.

Theorem closed_calls (one : Z) (fuel n : nat) (M K U : Z) (limits : list (OmegaLimit Z)) :
  network_wf n M K U limits -> flow_iterations n (length limits) K <= Z.of_nat fuel -> K <= U ->
  exists s s' v os outs c, @flow_new Z (exact_ops one) fuel n M U limits = Ok s /\
    min_cost_l one fuel s = Ok ((s', v), os) /\ @min_cost Z (exact_ops one) fuel s = Ok (s', v) /\
    lct_calls_s one fuel (f_nodes s) os = Ok (f_nodes s', outs, c) /\
    Z.of_nat (length os) <= 432 * Z.of_nat (n + 1) * (Z.of_nat (length limits) + Z.of_nat (n + 1)) * (Z.log2 (Z.of_nat (n + 1) * U) + 2) /\
    Z.of_nat c <= 432 * Z.of_nat (n + 1) * (Z.of_nat (length limits) + Z.of_nat (n + 1)) * (Z.log2 (Z.of_nat (n + 1) * U) + 2)
                  * (91 * Z.log2 (Z.of_nat (n + 1)) + 14).
Proof.
  intros HW Hf HK. destruct (total_calls one fuel n M K U limits HW Hf) as (s & s' & v & os & outs & f & c & r & E1 & E2 & E3 & _ & _ & _ & E4 & Hr & L1 & L2).
  destruct HW as (_ & _ & HF & HK1 & _). assert (B := min_cost_calls_le n (length limits) K U r ltac:(lia) ltac:(lia) Hr).
  exists s, s', v, os, outs, c. do 4 (split; [assumption|]). split; [lia|].
  eapply Z.le_trans; [exact L2|]. unfold splay_turns. assert (Lg := Z.log2_nonneg (Z.of_nat (n + 1))).
  apply Z.mul_le_mono_nonneg_r; [lia|exact B].
Qed.
