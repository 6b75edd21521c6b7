(** * The work of [Flow::min_cost] altogether *)
From Verif Require Import Base BaseLemmas Data ProblemDefine Flow Spec FlowSpec.
From Verif Require Import FlowNet FlowInv FlowPhase FlowChecked FlowRun FlowNew FlowOpt FlowFrame FlowStates FuelMono WorkSpec.
Local Open Scope Z_scope.

Section Total.
Variable one : Z.
#[local] Hint Extern 0 (DataOps Z) => exact (exact_ops one) : typeclass_instances.

Lemma phases_loop fuel ks s s' : phases_run fuel ks s s' -> (forall k, In k ks -> (k <= fuel)%nat) ->
  forall k, (length ks <= k)%nat -> scaling_loop fuel k s = Ok s'.
Proof.
  induction 1 as [s Hs|k ks s s1 s2 s3 s' Hs E1 E2 E3 _ IH]; intros Hk k0 Hl.
  - destruct k0; cbn [scaling_loop]; (destruct (Z.ltb_spec (f_eps s) 2); [reflexivity|lia]).
  - cbn [length] in Hl. destruct k0 as [|k0]; [lia|]. cbn [scaling_loop]. destruct (Z.ltb_spec (f_eps s) 2); [lia|].
    assert (X : phase fuel s = Ok s3).
    { unfold phase. rewrite E1. cbn [bind]. unfold refine.
      destruct (refine_loop_later (le_n fuel) k fuel (Hk k (or_introl eq_refl)) s1) as [Y|Y]; [congruence|]. rewrite <- Y, E2. exact E3. }
    rewrite X. cbn [bind]. apply IH; [intros x Hx; apply Hk; right; exact Hx|lia].
Qed.

Variables (fuel n : nat) (M K U : Z) (limits : list (OmegaLimit Z)).
Notation m := (length limits).
Hypothesis HW : network_wf n M K U limits.
Hypothesis Hfuel : flow_iterations n m K <= Z.of_nat fuel.

Lemma round_eq : round_iterations n m = phase_iterations n m 2 1 + 1.
Proof. unfold round_iterations, phase_iterations. rewrite Z.div_1_r. ring. Qed.

Lemma work_le kap h : 0 < h -> 0 <= kap <= 2 * h -> 0 <= phase_work n m h kap <= phase_work n m 1 2.
Proof.
  intros Hh Hk. split; [refine (proj1 (phase_work_mono n m h kap kap _ _)); lia|]. rewrite <- (work_later n m h Hh). unfold phase_work.
  assert (X : Z.of_nat n * (kap + h) / h <= Z.of_nat n * (2 * h + h) / h) by (apply Z.div_le_mono; nia).
  set (a := Z.of_nat n * (kap + h) / h) in *. set (b := Z.of_nat n * (2 * h + h) / h) in *. clearbody a b.
  apply Z.add_le_mono_r, Z.add_le_mono_r, Z.mul_le_mono_nonneg_r; [lia|]. lia.
Qed.

Lemma J_phases : forall r kap s, J fuel n M limits kap s -> f_eps s = 2 ^ Z.of_nat r -> kap <= f_eps s ->
  exists s', phases_run fuel (repeat (Z.to_nat (round_iterations n m)) r) s s'.
Proof.
  destruct (fuel_facts fuel n M K U limits HW Hfuel) as (F1 & F2 & F3 & F4 & F5).
  induction r as [|r IH]; intros kap s HJ He Hk.
  - exists s. constructor. rewrite He. reflexivity.
  - assert (Hp := Z.pow_pos_nonneg 2 (Z.of_nat r) ltac:(lia) ltac:(lia)).
    assert (H2 : 2 ^ Z.of_nat (S r) = 2 * 2 ^ Z.of_nat r) by (rewrite Nat2Z.inj_succ, Z.pow_succ_r by lia; reflexivity).
    assert (H0 : 0 <= kap) by (destruct HJ as (? & ? & ? & ? & ? & ? & ? & _ & _ & _ & X & _); exact X).
    destruct (J_step one fuel n M K U limits HW Hfuel (fun _ => true) (fun _ _ => eq_refl) kap s HJ ltac:(lia)) as (s1 & s2 & s3 & E1 & E2 & E3 & E4 & HJ' & _).
    rewrite He, pow2_quot in E2, HJ'. rewrite E4, He, pow2_quot in HJ'.
    apply (push_all_chk_sim (fun _ => true)) in E1. apply (refine_loop_chk_sim (fun _ => true)) in E2. apply (phase_chk_sim (fun _ => true)) in E3.
    destruct (work_le kap (2 ^ Z.of_nat r) Hp ltac:(lia)) as [W0 W1].
    destruct (IH (2 ^ Z.of_nat r) _ HJ' eq_refl ltac:(cbn [with_eps f_eps]; lia)) as [s' HR].
    exists s'. cbn [repeat]. 
    assert (R2 : forall k, (Z.to_nat (phase_work n m (2 ^ Z.of_nat r) kap + 1) <= k)%nat -> refine_loop fuel k s1 = Ok s2).
    { intros k Hle. destruct (refine_loop_later (le_n fuel) _ k Hle s1) as [Y|Y]; congruence. }
    unfold phase in E3. rewrite E1 in E3. cbn [bind] in E3. unfold refine in E3. rewrite R2 in E3 by lia. cbn [bind] in E3.
    apply (pr_phase fuel _ _ s s1 s2 s3); [lia|exact E1|apply R2; rewrite round_eq, iterations_eq; lia|exact E3|].
    rewrite E4, He, pow2_quot. exact HR.
Qed.

(** the first round, with no assumption about the distance of the limits from 0 *)
Lemma first_le kap h : 0 < U -> 0 < h -> 0 <= kap -> kap * U <= 2 * K * h -> 0 <= phase_work n m h kap <= phase_work n m U (2 * K).
Proof.
  intros HU Hh H0 Hk. split; [refine (proj1 (phase_work_mono n m h kap kap _ _)); lia|]. unfold phase_work.
  assert (X : Z.of_nat n * (kap + h) / h <= Z.of_nat n * (2 * K + U) / U).
  { replace (Z.of_nat n * (kap + h)) with (Z.of_nat n * kap + Z.of_nat n * h) by ring. rewrite Z.div_add by lia.
    replace (Z.of_nat n * (2 * K + U)) with (Z.of_nat n * (2 * K) + Z.of_nat n * U) by ring. rewrite Z.div_add by lia.
    apply Z.add_le_mono_r. apply Z.div_le_lower_bound; [exact HU|].
    assert (Y := Z.mul_div_le (Z.of_nat n * kap) h Hh). set (a := Z.of_nat n * kap / h) in *. clearbody a.
    assert (U * a * h <= Z.of_nat n * (2 * K) * h); [|nia]. nia. }
  set (a := Z.of_nat n * (kap + h) / h) in *. set (b := Z.of_nat n * (2 * K + U) / U) in *. clearbody a b.
  apply Z.add_le_mono_r, Z.add_le_mono_r, Z.mul_le_mono_nonneg_r; [lia|]. lia.
Qed.

Theorem total_work_far : exists s s' r,
  flow_new fuel n M U limits = Ok s /\
  (r = 0%nat \/ 2 ^ Z.of_nat r < 4 * Z.of_nat (n + 1) * U) /\
  phases_run fuel (firstn r (Z.to_nat (phase_iterations n m (2 * K) U + 1) :: repeat (Z.to_nat (round_iterations n m)) r)) s s' /\
  scaling_loop fuel fuel s = Ok s'.
Proof.
  destruct (J_first one fuel n M K U limits HW Hfuel) as (s & E & HJ & _).
  pose proof HW as (HM & HL & HU & HK & I1 & I2 & I3 & I4). destruct (fuel_facts fuel n M K U limits HW Hfuel) as (F1 & F2 & F3 & F4 & F5).
  assert (Ee : exists r, f_eps s = 2 ^ Z.of_nat r /\ (r <= 31)%nat /\ 2 * Z.of_nat (n + 1) * U <= 2 ^ Z.of_nat r /\ (r = 0%nat \/ 2 ^ Z.of_nat r < 4 * Z.of_nat (n + 1) * U)).
  { destruct (eps_loop_ok n U HU ltac:(rewrite Dn_eq; lia) ltac:(lia) 31 fuel 0 eq_refl F3) as (r & Er & R1 & R2 & R3).
    exists r. split; [|split; [lia|split; assumption]]. unfold flow_new in E. change (2 ^ Z.of_nat 0) with 1 in Er. rewrite Er in E. cbn [bind] in E.
    apply bind_inv in E. destruct E as (a2 & _ & E). apply bind_inv in E. destruct E as (a3 & _ & E). apply bind_inv in E. destruct E as (a4 & _ & E).
    inversion E; subst. reflexivity. }
  destruct Ee as (r & Ee & R1 & R2 & R3). destruct r as [|r].
  { exists s, s, 0%nat. split; [exact E|]. split; [left; reflexivity|]. cbn [firstn].
    assert (X : @phases_run (exact_ops one) fuel [] s s) by (constructor; rewrite Ee; reflexivity).
    split; [exact X|]. apply (phases_loop fuel [] s s X); [intros k []|cbn [length]; lia]. }
  destruct R3 as [|R3]; [discriminate|].
  assert (Hp := Z.pow_pos_nonneg 2 (Z.of_nat r) ltac:(lia) ltac:(lia)).
  assert (H2 : 2 ^ Z.of_nat (S r) = 2 * 2 ^ Z.of_nat r) by (rewrite Nat2Z.inj_succ, Z.pow_succ_r by lia; reflexivity).
  assert (HU0 : 0 < U) by nia.
  revert HJ. set (kap0 := 2 * Z.of_nat (n + 1) * K) in *. intro HJ.
  assert (H0 : 0 <= kap0) by (unfold kap0; nia).
  destruct (J_step one fuel n M K U limits HW Hfuel (fun _ => true) (fun _ _ => eq_refl) _ s HJ ltac:(lia)) as (s1 & s2 & s3 & E1 & E2 & E3 & E4 & HJ' & _).
  rewrite Ee, pow2_quot in E2, HJ'. rewrite E4, Ee, pow2_quot in HJ'.
  apply (push_all_chk_sim (fun _ => true)) in E1. apply (refine_loop_chk_sim (fun _ => true)) in E2. apply (phase_chk_sim (fun _ => true)) in E3.
  destruct (first_le kap0 (2 ^ Z.of_nat r) HU0 Hp H0 ltac:(unfold kap0; nia)) as [W0 W1].
  destruct (J_phases r (2 ^ Z.of_nat r) _ HJ' eq_refl ltac:(cbn [with_eps f_eps]; lia)) as [s' HR].
  assert (R2' : forall k, (Z.to_nat (phase_work n m (2 ^ Z.of_nat r) kap0 + 1) <= k)%nat -> refine_loop fuel k s1 = Ok s2).
  { intros k Hle. destruct (refine_loop_later (le_n fuel) _ k Hle s1) as [Y|Y]; congruence. }
  assert (W2 : phase_work n m U (2 * K) <= phase_work n m 1 (Dn n * K)).
  { unfold phase_work. rewrite Z.div_1_r.
    assert (X : Z.of_nat n * (2 * K + U) / U <= Z.of_nat n * (Dn n * K + 1)) by (apply Z.div_le_upper_bound; [exact HU0|]; rewrite Dn_eq; assert (HN1 : 1 <= Z.of_nat (n + 1)) by lia; nia).
    set (a := Z.of_nat n * (2 * K + U) / U) in *. clearbody a.
    apply Z.add_le_mono_r, Z.add_le_mono_r, Z.mul_le_mono_nonneg_r; [lia|]. lia. }
  unfold phase in E3. rewrite E1 in E3. cbn [bind] in E3. unfold refine in E3. rewrite R2' in E3 by lia. cbn [bind] in E3.
  assert (FR : firstn r (repeat (Z.to_nat (round_iterations n m)) (S r)) = repeat (Z.to_nat (round_iterations n m)) r).
  { clear. generalize (Z.to_nat (round_iterations n m)) as a. intro a. induction r as [|r IH]; [reflexivity|]. cbn [repeat firstn]. f_equal. exact IH. }
  assert (HP : @phases_run (exact_ops one) fuel (firstn (S r) (Z.to_nat (phase_iterations n m (2 * K) U + 1) :: repeat (Z.to_nat (round_iterations n m)) (S r))) s s').
  { cbn [firstn]. rewrite FR.
    apply (pr_phase fuel _ _ s s1 s2 s3); [lia|exact E1|apply R2'; rewrite iterations_eq; lia|exact E3|].
    rewrite E4, Ee, pow2_quot. exact HR. }
  exists s, s', (S r). split; [exact E|]. split; [right; exact R3|]. split; [exact HP|]. apply (phases_loop fuel _ _ _ HP).
  - intros k Hk. cbn [firstn] in Hk. rewrite FR in Hk. destruct Hk as [<-|Hk]; [rewrite iterations_eq; lia|].
    apply repeat_spec in Hk. subst. rewrite round_eq, iterations_eq. lia.
  - cbn [firstn length]. rewrite FR, repeat_length. lia.
Qed.

Theorem total_work : K <= U -> exists s s' r,
  flow_new fuel n M U limits = Ok s /\
  2 ^ Z.of_nat r < 4 * Z.of_nat (n + 1) * U /\
  phases_run fuel (repeat (Z.to_nat (round_iterations n m)) r) s s' /\
  scaling_loop fuel fuel s = Ok s'.
Proof.
  intro HKU. destruct (J_first one fuel n M K U limits HW Hfuel) as (s & E & HJ & _).
  pose proof HW as (HM & HL & HU & HK & I1 & I2 & I3 & I4). destruct (fuel_facts fuel n M K U limits HW Hfuel) as (F1 & F2 & F3 & F4 & F5).
  assert (Ee : exists r, f_eps s = 2 ^ Z.of_nat r /\ (r <= 31)%nat /\ 2 * Z.of_nat (n + 1) * U <= 2 ^ Z.of_nat r /\ (r = 0%nat \/ 2 ^ Z.of_nat r < 4 * Z.of_nat (n + 1) * U)).
  { destruct (eps_loop_ok n U HU ltac:(rewrite Dn_eq; lia) ltac:(lia) 31 fuel 0 eq_refl F3) as (r & Er & R1 & R2 & R3).
    exists r. split; [|split; [lia|split; assumption]]. unfold flow_new in E. change (2 ^ Z.of_nat 0) with 1 in Er. rewrite Er in E. cbn [bind] in E.
    apply bind_inv in E. destruct E as (a2 & _ & E). apply bind_inv in E. destruct E as (a3 & _ & E). apply bind_inv in E. destruct E as (a4 & _ & E).
    inversion E; subst. reflexivity. }
  destruct Ee as (r & Ee & R1 & R2 & R3).
  destruct (J_phases r _ s HJ Ee ltac:(nia)) as [s' HR]. exists s, s', r. split; [exact E|]. split.
  - destruct R3 as [->|R3]; [change (2 ^ Z.of_nat 0) with 1; nia|exact R3].
  - split; [exact HR|]. apply (phases_loop fuel _ _ _ HR).
    + intros k Hk. apply repeat_spec in Hk. subst. rewrite round_eq, iterations_eq. lia.
    + rewrite repeat_length. lia.
Qed.
End Total.
