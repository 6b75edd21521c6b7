(** * Phase by phase *)
From Verif Require Import Base BaseLemmas Data UniqueQueue LCT ProblemDefine Flow Spec FlowSpec.
From Verif Require Import LCTSpec LCTForest LCTOps UQProof Sums NetMath Convex FlowNet FlowInv FlowPhase FlowChecked FlowRun FlowNew FlowOpt FlowFrame.
Local Open Scope Z_scope.

Section States.
Variable one : Z.
#[local] Hint Extern 0 (DataOps Z) => exact (exact_ops one) : typeclass_instances.

Lemma limit_wf_ok n M K o : limit_wf n M K o <-> limit_ok n M K o.
Proof.
  unfold limit_wf. split.
  - intros (A1 & A2 & A3 & A4 & A5 & A6 & A7 & A8). repeat constructor; auto; intros; apply A4; auto.
  - intros [[A1 A2 A3 A4] A5 A6 A7 A8]. repeat split; auto; apply A4; auto.
Qed.

Lemma Dn_eq n : Dn n = 2 * Z.of_nat (n + 1).
Proof. unfold Dn. lia. Qed.

Lemma iterations_eq n m kap h : phase_iterations n m kap h = phase_work n m h kap.
Proof. reflexivity. Qed.

Lemma flow_iterations_eq n m K : flow_iterations n m K = flow_fuel n m K.
Proof. unfold flow_iterations, flow_fuel. rewrite iterations_eq, Dn_eq. reflexivity. Qed.

Variables (fuel n : nat) (M K U : Z) (limits : list (OmegaLimit Z)).
Notation m := (length limits).
Hypothesis HW : network_wf n M K U limits.
Hypothesis Hfuel : flow_iterations n m K <= Z.of_nat fuel.

(** invariant of the states *)
Definition J (kap : Z) (s : flow Z) : Prop :=
  exists E Gl k p x P W, flownet n m M E Gl /\
    (forall j, (j < m)%nat -> edge E (2 * j) = nth j limits OmegaLimit0) /\
    Head n m M E Gl (2 ^ Z.of_nat k) kap W s p x /\ 0 <= kap /\
    0 <= W /\ W + Z.of_nat k * (Z.of_nat m * M) <= 33 * (Z.of_nat m * M) /\
    (forall u, (u <= n)%nat -> p u <= P) /\
    match k with
    | O => True
    | S k => P + Z.of_nat n * (kap + 2 ^ Z.of_nat k) + 3 * Z.of_nat n * (2 ^ Z.of_nat k - 1) <= INT_MAX /\
             phase_work n m (2 ^ Z.of_nat k) kap < Z.of_nat fuel
    end.

Lemma fuel_facts : (n + 1 < fuel)%nat /\ (2 * m < fuel)%nat /\ (31 < fuel)%nat /\
  phase_work n m 1 2 < Z.of_nat fuel /\ phase_work n m 1 (Dn n * K) < Z.of_nat fuel.
Proof.
  rewrite flow_iterations_eq in Hfuel. unfold flow_fuel in Hfuel. destruct HW as (_ & _ & _ & HK & _).
  assert (HD := Dn_pos n).
  assert (HPW := phase_work_mono n m 1 0 (Dn n * K) ltac:(lia) ltac:(nia)).
  assert (HPW2 := phase_work_mono n m 1 2 (Dn n * K) ltac:(lia) ltac:(nia)).
  assert (HF0 : 6 * Z.of_nat m + 2 * Z.of_nat (n + 1) <= phase_work n m 1 0).
  { unfold phase_work. rewrite Z.div_1_r. nia. }
  lia.
Qed.

Lemma J_first : exists s, flow_new fuel n M U limits = Ok s /\ J (2 * Z.of_nat (n + 1) * K) s /\
  forall v, potential s v = 0.
Proof.
  pose proof HW as (HM & HL & HU & HK & I1 & I2 & I3 & I4). destruct fuel_facts as (F1 & F2 & F3 & F4 & F5).
  destruct (flow_new_ok one n M K U limits HM ltac:(lia)) with (fuel := fuel)
    as (s & E & Gl & k & E1 & HN & HE & HH & Hk & Hk1 & Hk2); auto.
  { intros o Ho. apply limit_wf_ok; auto. }
  { rewrite Dn_eq. auto. }
  exists s. split; [exact E1|]. split.
  - exists E, Gl, k, (fun _ => 0), (fun _ => 0), 0, 0. split; [exact HN|]. split; [exact HE|].
    rewrite <- Dn_eq. split; [exact HH|]. assert (HD := Dn_pos n). split; [nia|]. split; [lia|].
    split; [assert (Z.of_nat k * (Z.of_nat m * M) <= 31 * (Z.of_nat m * M)) by (apply Z.mul_le_mono_nonneg_r; nia); nia|]. split; [intros; lia|].
    destruct k as [|k]; [exact I|]. destruct Hk2 as [|Hk2]; [congruence|].
    specialize (I4 ltac:(assert (0 < 2 ^ Z.of_nat (S k)) by (apply Z.pow_pos_nonneg; lia); nia)).
    assert (Hp := Z.pow_pos_nonneg 2 (Z.of_nat k) ltac:(lia) ltac:(lia)).
    rewrite Nat2Z.inj_succ, Z.pow_succ_r in * by lia.
    assert (X := pow_bit_ceil k (Z.of_nat (n + 1) * U) ltac:(lia)). rewrite <- Dn_eq in I4. split.
    + set (h := 2 ^ Z.of_nat k) in *.
      assert (Z.of_nat n * (Dn n * K + 4 * h) <= Z.of_nat n * (Dn n * K + 4 * bit_ceil (Z.of_nat (n + 1) * U))).
      { apply Z.mul_le_mono_nonneg_l; lia. }
      lia.
    + assert (Y := phase_work_mono n m (2 ^ Z.of_nat k) (Dn n * K) (Dn n * K) ltac:(lia) ltac:(nia)). lia.
  - intros v. unfold potential. unfold flow_new in E1.
    apply bind_inv in E1. destruct E1 as (a1 & _ & E1). apply bind_inv in E1. destruct E1 as (a2 & _ & E1).
    apply bind_inv in E1. destruct E1 as (a3 & _ & E1). apply bind_inv in E1. destruct E1 as (a4 & _ & E1).
    inversion E1; subst. cbn [f_scal]. destruct (nth_in_or_default v (repeat 0 (n + 1)) 0) as [Hi|Hd]; [|exact Hd].
    apply repeat_spec in Hi. exact Hi.
Qed.

Lemma head_eps_eq E Gl eps kap W s p x : Head n m M E Gl eps kap W s p x -> f_eps s = eps.
Proof. intros [(par & val & cur & HS & _) _ _ _ _ _]. apply (st_eps _ _ _ _ _ _ _ _ _ _ _ _ _ HS). Qed.

Lemma head_pot E Gl eps kap W s p x v : Head n m M E Gl eps kap W s p x -> (v <= n)%nat -> potential s v = p v.
Proof.
  intros [(par & val & cur & HS & _) _ _ _ _ _] Hv. unfold potential. apply nth_error_nth.
  apply (vec_nth _ _ _ (st_p _ _ _ _ _ _ _ _ _ _ _ _ _ HS)). lia.
Qed.

Lemma head_flow E Gl eps kap W s p x e : Head n m M E Gl eps kap W s p x -> (e < 2 * m)%nat -> flow_on s e = xd x e.
Proof.
  intros [(par & val & cur & HS & _) _ _ _ _ _] Hv. unfold flow_on. apply nth_error_nth.
  apply (vec_nth _ _ _ (st_fl _ _ _ _ _ _ _ _ _ _ _ _ _ HS)). lia.
Qed.

Lemma head_imb E Gl eps kap W s p x v : Head n m M E Gl eps kap W s p x -> (v <= n)%nat -> imbalance s v = 0.
Proof.
  intros [(par & val & cur & HS & _) _ _ _ _ _] Hv. unfold imbalance. apply nth_error_nth.
  apply (vec_nth _ _ _ (st_imb _ _ _ _ _ _ _ _ _ _ _ _ _ HS)). lia.
Qed.

Section Step.
Variable okd : Z -> bool.
Hypothesis Hokd : forall z, Z.abs z <= 2 * Cb m M -> okd z = true.

(** one phase from such a state, with checks *)
Lemma J_step kap s : J kap s -> 2 <= f_eps s ->
  exists s1 s2 s', push_all_chk okd (initialization s) = Ok s1 /\
    refine_loop_chk okd fuel (Z.to_nat (phase_work n m (Z.quot (f_eps s) 2) kap + 1)) s1 = Ok s2 /\
    phase_chk okd fuel s = Ok s' /\ f_eps s' = f_eps s /\
    J (Z.quot (f_eps s) 2) (with_eps s' (Z.quot (f_eps s') 2)) /\
    forall v, (v <= n)%nat ->
      potential s v <= potential s' v <= potential s v + Z.of_nat n * (kap + Z.quot (f_eps s) 2).
Proof.
  intros (E & Gl & k & p & x & P & W & HN & HE & HH & Hkap & HW0 & HW1 & HP & HJ) He.
  destruct fuel_facts as (F1 & F2 & F3 & F4 & F5).
  assert (Ee := head_eps_eq _ _ _ _ _ _ _ _ HH). rewrite Ee in *.
  destruct k as [|k]; [change (2 ^ Z.of_nat 0) with 1 in *; lia|]. destruct HJ as [J1 J2].
  rewrite pow2_quot. set (h := 2 ^ Z.of_nat k) in *.
  assert (Hh : 0 < h) by (apply Z.pow_pos_nonneg; lia).
  assert (Hwork : 0 <= phase_work n m h kap) by (apply (phase_work_mono n m h kap kap); lia).
  assert (Hint : forall u, (u <= n)%nat -> p u + Z.of_nat n * (kap + h) <= INT_MAX).
  { intros u Hu. specialize (HP u Hu). nia. }
  assert (Hq : h = Z.quot (2 ^ Z.of_nat (S k)) 2) by (rewrite pow2_quot; reflexivity).
  assert (HMm : 0 <= Z.of_nat m * M) by (assert (A := fn_M _ _ _ _ _ HN); nia).
  assert (HWb : 0 <= W <= 33 * (Z.of_nat m * M)) by (rewrite Nat2Z.inj_succ in HW1; nia).
  destruct (phase_parts_ok one n m M E Gl HN okd Hokd fuel F1 F2 _ h kap W s p x
    (Z.to_nat (phase_work n m h kap + 1)) Hh Hq Hkap HWb HH Hint ltac:(lia)) as (s1 & s2 & s3 & p3 & x3 & A1 & A2 & _).
  destruct (phase_chk_ok one n m M E Gl HN okd Hokd fuel F1 F2 _ h kap W s p x Hh Hq Hkap HWb HH Hint J2)
    as (s' & p' & x' & B1 & B2 & B3).
  exists s1, s2, s'. split; [exact A1|]. split; [exact A2|]. split; [exact B1|].
  assert (Ee' := head_eps_eq _ _ _ _ _ _ _ _ B2). split; [exact Ee'|]. rewrite Ee', pow2_quot. fold h. split.
  - exists E, Gl, k, p', x', (P + Z.of_nat n * (kap + h)), (W + Z.of_nat m * M). split; [exact HN|]. split; [exact HE|].
    split; [eapply head_eps; exact B2|]. split; [lia|]. split; [lia|]. split; [rewrite Nat2Z.inj_succ in HW1; lia|]. split.
    { intros u Hu. specialize (B3 u Hu). specialize (HP u Hu). lia. }
    destruct k as [|k]; [exact I|].
    assert (E2 : h = 2 * 2 ^ Z.of_nat k) by (unfold h; rewrite Nat2Z.inj_succ, Z.pow_succ_r by lia; reflexivity).
    assert (Hp := Z.pow_pos_nonneg 2 (Z.of_nat k) ltac:(lia) ltac:(lia)). rewrite E2 in *. split; [nia|].
    rewrite work_later by lia. exact F4.
  - intros v Hv. rewrite (head_pot _ _ _ _ _ _ _ _ v HH Hv), (head_pot _ _ _ _ _ _ _ _ v B2 Hv). apply B3; auto.
Qed.

End Step.

Lemma J_state kap s : phase_state fuel n M K U limits kap s -> J kap s.
Proof.
  induction 1 as [s E|kap s s' H IH He E].
  - destruct J_first as (s0 & E0 & H0 & _). rewrite E0 in E. inversion E; subst. exact H0.
  - destruct (J_step (fun _ => true) (fun _ _ => eq_refl) kap s IH He) as (s1 & s2 & s3 & _ & _ & E3 & Ee & HJ & _).
    apply (phase_chk_sim (fun _ => true)) in E3. rewrite E3 in E. inversion E; subst. exact HJ.
Qed.

(** ** What the invariant says in plain terms *)
Lemma J_circulation kap s : J kap s -> circulation n M limits s.
Proof.
  intros (E & Gl & k & p & x & P & W & HN & HE & HH & _).
  pose proof HH as [(par & val & cur & HS & _) Hexc Hopt HM _ _].
  split; [apply (vec_len _ _ _ (st_fl _ _ _ _ _ _ _ _ _ _ _ _ _ HS))|]. split.
  - intros j Hj. rewrite !(head_flow _ _ _ _ _ _ _ _ _ HH) by lia. rewrite <- rev_even, xd_rev. split; [reflexivity|].
    apply (xd_M m M); auto. lia.
  - intros v Hv. split; [apply (head_imb _ _ _ _ _ _ _ _ v HH Hv)|].
    rewrite <- (Hexc v Hv). unfold net_inflow, exc. rewrite sumZ_zsum. apply zsum_ext. intros j Hj. apply in_seq in Hj.
    cbv zeta. unfold nei, nej. rewrite HE, (head_flow _ _ _ _ _ _ _ _ _ HH), xd_even by lia. reflexivity.
Qed.

Lemma J_optimal kap s : J kap s -> optimal_within n M kap limits s.
Proof.
  intros (E & Gl & k & p & x & P & W & HN & HE & HH & _) j o Ho.
  assert (Hj := nth_error_lt _ _ _ Ho). assert (Eo := HE j Hj). rewrite (nth_error_nth _ _ _ Ho) in Eo.
  assert (HD := Dn_pos n). rewrite <- Dn_eq.
  pose proof HH as [_ _ Hopt _ _ _].
  assert (Hlt : (2 * j < 2 * m)%nat) by lia.
  assert (Hok := fn_ok _ _ _ _ _ HN _ Hlt). assert (Hlu := eo_lu _ _ Hok). rewrite Eo in Hlu.
  assert (HM := fn_M _ _ _ _ _ HN).
  assert (Hi := fn_i _ _ _ _ _ HN _ Hlt). rewrite Eo in Hi.
  assert (Hjn : (o_j o <= n)%nat).
  { destruct (fn_rev _ _ _ _ _ HN _ Hlt) as (A & _). rewrite <- Eo, <- A. apply (fn_i _ _ _ _ _ HN). apply rev_lt; auto. }
  cbv zeta. rewrite (head_pot _ _ _ _ _ _ _ _ _ HH Hi), (head_pot _ _ _ _ _ _ _ _ _ HH Hjn), (head_flow _ _ _ _ _ _ _ _ _ HH Hlt).
  set (d := p (o_i o) - p (o_j o)).
  assert (Ed : pe (nei E) (nej E) p (2 * j) = d) by (unfold pe, nei, nej; rewrite Eo; reflexivity).
  assert (Hs : forall t, penalised M o (t + 1) - penalised M o t = eslope M o t).
  { intros t. rewrite !penalised_fext by exact Hlu. apply fext_step. exact Hlu. }
  split; intros t Ht; rewrite Hs.
  - eapply Z.le_trans; [|apply (Hopt _ Hlt)]. rewrite Ed. unfold lftE. rewrite Eo. apply eslope_mono; auto; [rewrite <- Eo; exact Hok|].
    unfold cdiv. assert (A := Z.div_mod (- (d - kap)) (Dn n) ltac:(lia)). assert (B := Z.mod_pos_bound (- (d - kap)) (Dn n) ltac:(lia)). nia.
  - assert (R := Hopt _ (rev_lt _ _ Hlt)). rewrite xd_rev in R.
    rewrite (pe_rev n m M (nei E) (nej E) (nG Gl) (lftE n M E) (flownet_netok _ _ _ _ _ HN)) in R by exact Hlt. rewrite Ed in R.
    replace (- d - kap) with (- (d + kap)) in R by lia.
    assert (L := lft_rev n M E Gl m (2 * j) (d + kap) HN Hlt). rewrite Eo in L.
    assert (xd x (2 * j) <= eslope M o ((d + kap) / Dn n)) by lia.
    eapply Z.le_trans; [eassumption|]. apply eslope_mono; auto; [rewrite <- Eo; exact Hok|].
    assert (A := Z.div_mod (d + kap) (Dn n) ltac:(lia)). assert (B := Z.mod_pos_bound (d + kap) (Dn n) ltac:(lia)). nia.
Qed.

(** ** The statements *)
Lemma phase_runs (okd : Z -> bool) (Hokd : forall z, Z.abs z <= 2 * Cb m M -> okd z = true) kap s : phase_state fuel n M K U limits kap s -> 2 <= f_eps s ->
  exists s', phase fuel s = Ok s' /\ phase_chk okd fuel s = Ok s' /\ f_eps s' = f_eps s /\
    circulation n M limits s' /\ optimal_within n M (Z.quot (f_eps s) 2) limits s' /\
    (forall v, (v <= n)%nat -> potential s v <= potential s' v <= potential s v + Z.of_nat n * (kap + Z.quot (f_eps s) 2)).
Proof.
  intros HS He. destruct (J_step okd Hokd kap s (J_state _ _ HS) He) as (s1 & s2 & s' & _ & _ & E1 & E2 & HJ & HB).
  exists s'. split; [apply (phase_chk_sim okd); exact E1|]. split; [exact E1|]. split; [exact E2|].
  split; [apply (J_circulation _ _ HJ)|]. split; [apply (J_optimal _ _ HJ)|exact HB].
Qed.

Lemma phase_work_bound kap s : phase_state fuel n M K U limits kap s -> 2 <= f_eps s ->
  exists s1 s2 s', push_all_admissible_edge (initialization s) = Ok s1 /\
    refine_loop fuel (Z.to_nat (phase_iterations n m kap (Z.quot (f_eps s) 2) + 1)) s1 = Ok s2 /\
    phase fuel s = Ok s' /\
    forall v, (v <= n)%nat -> exists r : nat,
      potential s' v = potential s v + Z.of_nat r * Z.quot (f_eps s) 2 /\
      Z.of_nat r * Z.quot (f_eps s) 2 <= Z.of_nat n * (kap + Z.quot (f_eps s) 2).
Proof.
  intros HS He. pose proof (J_state _ _ HS) as HJ0. destruct (J_step (fun _ => true) (fun _ _ => eq_refl) kap s HJ0 He) as (s1 & s2 & s' & E0 & E1 & E2 & E3 & HJ & HB).
  exists s1, s2, s'. split; [apply (push_all_chk_sim (fun _ => true)); exact E0|]. split; [apply (refine_loop_chk_sim (fun _ => true)); exact E1|].
  apply (phase_chk_sim (fun _ => true)) in E2. split; [exact E2|]. intros v Hv. apply phase_evolve in E2.
  destruct HJ0 as (E & Gl & k & p & x & P & W & HN & HE & HH & _).
  pose proof HH as [(par & val & cur & HSt & _) _ _ _ _ _].
  assert (Ev := vec_nth _ _ _ (st_p _ _ _ _ _ _ _ _ _ _ _ _ _ HSt) v ltac:(lia)).
  destruct (ev_scal _ _ E2 v _ Ev) as [r Er]. exists r. specialize (HB v Hv). revert HB.
  unfold potential. rewrite (nth_error_nth _ _ _ Ev), (nth_error_nth _ _ _ Er). lia.
Qed.

(** the scaling loop visits exactly these states *)
Lemma loop_states : forall k kap s s', phase_state fuel n M K U limits kap s -> scaling_loop fuel k s = Ok s' ->
  exists kap', phase_state fuel n M K U limits kap' s' /\ f_eps s' < 2.
Proof.
  induction k as [|k IH]; intros kap s s' HS H; cbn [scaling_loop] in H; destruct (Z.ltb_spec (f_eps s) 2) as [Hlt|Hge];
    try (inversion H; subst; eauto); try discriminate.
  apply bind_inv in H. destruct H as (s1 & E1 & H). eapply IH; [|exact H]. eapply ps_next; eauto.
Qed.

End States.
