(** * The steps of [Flow::min_cost] altogether *)
From Verif Require Import Base BaseLemmas Data UniqueQueue LCT ProblemDefine Flow ProblemSolver Spec FlowSpec.
From Verif Require Import Sums FlowNet FlowInv FlowPhase FlowChecked FlowRun FlowNew FlowOpt FlowFrame FlowStates FuelMono WorkSpec FlowTotal FlowSteps.
From Verif Require Import SolverProof PrimalSolve.
Local Open Scope Z_scope.

Ltac binv H := let a := fresh "a" in let E := fresh "E" in apply bind_inv in H; destruct H as (a & E & H); cbv beta zeta in H.

Section Runs.
Context {ops : DataOps Z}.

(** ** The relations describe runs of the model *)
Lemma choice_run_loop fuel k s p s' : choice_run fuel k s p s' -> forall k0, (k <= k0 <= fuel)%nat -> choice_loop fuel k0 s p = Ok s'.
Proof.
  induction 1 as [k s p c g e v cu s' E1 E2 L E3 E4 E5 E6 _ IH|k s p c g e v s1 h r s' E1 E2 L E3 E4 E5 E6 E7 E8|s p c g s' E1 E2 L E3]; intros k0 Hk;
    (destruct k0 as [|k0]; [lia|]); cbn [choice_loop]; rewrite E1; cbn [bind]; rewrite E2; cbn [bind].
  - rewrite (proj2 (Nat.ltb_lt _ _) L), E3. cbn [bind]. rewrite E4. cbn [bind]. rewrite E5, E6. cbn [bind]. apply IH. lia.
  - rewrite (proj2 (Nat.ltb_lt _ _) L), E3. cbn [bind]. rewrite E4. cbn [bind]. rewrite E5, E6. cbn [bind]. unfold send. rewrite E7. cbn [bind].
    destruct (send_loop_later (le_n fuel) k fuel ltac:(lia) (with_nodes s1 h) p r) as [Y|Y]; congruence.
  - rewrite (proj2 (Nat.ltb_ge _ _) L). exact E3.
Qed.

Lemma refine_run_loop fuel k s s' : refine_run fuel k s s' -> (k <= fuel)%nat -> forall k0, (k <= k0)%nat -> refine_loop fuel k0 s = Ok s'.
Proof.
  induction 1 as [k s Eu|k k1 k2 s p s1 s2 s' Eu E1 E2 E3 _ IH L]; intros Hf k0 Hk.
  - destruct k0; cbn [refine_loop]; rewrite Eu; reflexivity.
  - destruct k0 as [|k0]; [lia|]. cbn [refine_loop]. rewrite Eu, E1. cbn [bind]. unfold choice_operator.
    rewrite (choice_run_loop _ _ _ _ _ E2) by lia. cbn [bind]. unfold settle in E3. binv E3. rewrite E. cbn [bind]. binv E3. rewrite E0. cbn [bind].
    rewrite E3. cbn [bind]. apply IH; lia.
Qed.

Lemma refine_run_more fuel k k' s s' : refine_run fuel k s s' -> (k <= k')%nat -> refine_run fuel k' s s'.
Proof. intros H L. inversion H; subst; [apply rr_done; assumption|eapply rr_step; eauto; lia]. Qed.

Lemma phases_steps_loop fuel ks s s' : phases_steps fuel ks s s' -> (forall k, In k ks -> (k <= fuel)%nat) ->
  forall k, (length ks <= k)%nat -> scaling_loop fuel k s = Ok s'.
Proof.
  induction 1 as [s Hs|k ks s s1 s2 s3 s' Hs E1 E2 E3 _ IH]; intros Hk k0 Hl.
  - destruct k0; cbn [scaling_loop]; (destruct (Z.ltb_spec (f_eps s) 2); [reflexivity|lia]).
  - cbn [length] in Hl. destruct k0 as [|k0]; [lia|]. cbn [scaling_loop]. destruct (Z.ltb_spec (f_eps s) 2); [lia|].
    assert (X : phase fuel s = Ok s3).
    { unfold phase. rewrite E1. cbn [bind]. unfold refine.
      rewrite (refine_run_loop _ _ _ _ E2 (Hk k (or_introl eq_refl)) fuel (Hk k (or_introl eq_refl))). exact E3. }
    rewrite X. cbn [bind]. apply IH; [intros x Hx; apply Hk; right; exact Hx|lia].
Qed.

Lemma push_all_same s s' : push_all_admissible_edge s = Ok s' -> f_cur s' = f_cur s /\ f_fa s' = f_fa s.
Proof.
  unfold push_all_admissible_edge. intro H. binv H.
  assert (X : f_cur a = f_cur s /\ f_fa a = f_fa s).
  { clear H. revert E. generalize (seq 0 (length (f_edges s))) as l. intro l. revert s a. induction l as [|e l IH]; intros s a H; cbn [for_each] in H.
    - inversion H; subst. auto.
    - binv H. destruct (IH _ _ H) as [A1 A2]. binv E. binv E. destruct (dlt dzero a2).
      + do 4 binv E. unfold add_flow_of_edge in E. repeat binv E. inversion E; subst. cbn [f_cur f_fa with_flows with_imb] in *. auto.
      + inversion E; subst. auto. }
  destruct X as [X1 X2]. rewrite <- X1, <- X2. clear E X1 X2. revert H. generalize (seq 0 (f_n a + 1)) as l. intro l. revert a s'.
  induction l as [|e l IH]; intros a s' H; cbn [for_each] in H.
  - inversion H; subst. auto.
  - binv H. destruct (IH _ _ H) as [A1 A2]. binv E. destruct (dlt dzero a1); [binv E|]; inversion E; subst; auto.
Qed.
End Runs.

Section Total.
Variable one : Z.
#[local] Hint Extern 0 (DataOps Z) => exact (exact_ops one) : typeclass_instances.
Variables (fuel n : nat) (M K U : Z) (limits : list (OmegaLimit Z)).
Notation m := (length limits).
Hypothesis HW : network_wf n M K U limits.
Hypothesis Hfuel : flow_iterations n m K <= Z.of_nat fuel.

Lemma curs_repeat k : curs (repeat O k) = 0.
Proof. unfold curs, vsum. apply zsum_zero. intros u _. rewrite nth_repeat. reflexivity. Qed.

(** ** One round *)
Lemma J_steps kap s : J fuel n M limits kap s -> 2 <= f_eps s ->
  let h := Z.quot (f_eps s) 2 in
  exists s1 s2 s3, push_all_admissible_edge (initialization s) = Ok s1 /\
    refine_run fuel (Z.to_nat (step_bound n m (phase_work n m h kap + 1) (Z.of_nat n * (kap + h) / h))) s1 s2 /\
    cut_all fuel s2 = Ok s3 /\ phase fuel s = Ok s3 /\ f_eps s3 = f_eps s /\ J fuel n M limits h (with_eps s3 (Z.quot (f_eps s3) 2)).
Proof.
  intros HJ He h. assert (Hh : 0 < h) by (unfold h; apply Z.quot_str_pos; lia).
  destruct (fuel_facts fuel n M K U limits HW Hfuel) as (F1 & F2 & F3 & F4 & F5).
  destruct (J_step one fuel n M K U limits HW Hfuel (fun _ => true) (fun _ _ => eq_refl) kap s HJ He) as (s1 & s2 & s3 & E1 & E2 & E3 & E4 & HJ' & HP).
  destruct HJ as (E & Gl & k & p & x & P & W & HN & HE & HH & H0 & HW0 & HW1 & HPP & HJk).
  destruct (hd_st _ _ _ _ _ _ _ _ _ _ _ HH) as (par & val & cur & HS & _ & _).
  assert (Wf : phase_work n m h kap + 1 <= Z.of_nat fuel).
  { assert (Ee := st_eps _ _ _ _ _ _ _ _ _ _ _ _ _ HS). destruct k as [|k]; [rewrite Ee in He; change (2 ^ Z.of_nat 0) with 1 in He; lia|]. destruct HJk as [_ J2].
    unfold h. rewrite Ee, pow2_quot. lia. }
  fold h in E2, HJ', HP.
  assert (Wp : 0 <= phase_work n m h kap) by (refine (proj1 (phase_work_mono n m h kap kap _ _)); lia).
  apply (push_all_chk_sim (fun _ => true)) in E1. apply (phase_chk_sim (fun _ => true)) in E3.
  assert (V1 := push_all_evolve _ _ E1). destruct (push_all_same _ _ E1) as [C1 C2]. cbn [f_cur f_fa initialization with_cur] in C1, C2.
  destruct V1 as [V1n V1M V1e V1E V1G V1l V1s]. cbn [f_n f_eps f_G f_scal initialization with_cur] in V1n, V1e, V1G, V1l, V1s.
  assert (SG := st_G _ _ _ _ _ _ _ _ _ _ _ _ _ HS). assert (Sc := st_cur _ _ _ _ _ _ _ _ _ _ _ _ _ HS).
  assert (Sp := st_p _ _ _ _ _ _ _ _ _ _ _ _ _ HS). assert (Sf := st_fa _ _ _ _ _ _ _ _ _ _ _ _ _ HS).
  destruct Sc as [Sc _]. destruct Sp as [Sp _]. destruct Sf as [Sf _]. assert (GL := fn_Glen _ _ _ _ _ HN).
  assert (PT : pointers s1).
  { constructor; rewrite ?C1, ?V1G, ?V1l, ?SG, ?GL, ?repeat_length; try assumption. intro u. rewrite nth_repeat. lia. }
  destruct (refine_counts (fun _ => true) fuel _ s1 s2 E2 PT ltac:(rewrite V1e; fold h; lia)) as (P2 & G2 & e2 & c & R & L). cbv zeta in L.
  rewrite V1e in L. fold h in L. rewrite C1, curs_repeat, C2, V1G, SG in L.
  assert (E2' := E2). apply (refine_loop_chk_sim (fun _ => true)) in E2'.
  assert (R2 : refine_loop fuel fuel s1 = Ok s2).
  { assert (Hle : (Z.to_nat (phase_work n m h kap + 1) <= fuel)%nat) by lia. destruct (refine_loop_later (le_n fuel) _ fuel Hle s1) as [Y|Y]; congruence. }
  assert (CA : cut_all fuel s2 = Ok s3).
  { unfold phase in E3. rewrite E1 in E3. cbn [bind] in E3. unfold refine in E3. rewrite R2 in E3. exact E3. }
  assert (V2 := refine_loop_evolve _ _ _ _ R2). assert (V3 := cut_all_evolve _ _ _ CA). assert (V23 := evolve_trans _ _ _ V2 V3).
  exists s1, s2, s3. split; [exact E1|]. split; [|split; [exact CA|split; [exact E3|split; [exact E4|exact HJ']]]].
  eapply refine_run_more; [exact R|].
  set (rho := Z.of_nat n * (kap + h) / h) in *.
  assert (HS2 : somes (f_fa s) <= Z.of_nat (n + 1)) by (rewrite <- Sf; apply somes_nonneg).
  assert (HS3 := proj1 (somes_nonneg (f_fa s2))).
  assert (HC2 : curs (f_cur s2) <= Z.of_nat (2 * m)).
  { rewrite <- (fn_deg _ _ _ _ _ HN). destruct P2 as [B1 B2 B3]. unfold curs, vsum. rewrite B1, G2, V1G, SG, GL.
    apply zsum_le. intros u _. specialize (B3 u). rewrite G2, V1G, SG in B3. lia. }
  assert (HD : heights Gl (f_scal s2) - heights Gl (f_scal s1) <= Z.of_nat (2 * m) * (h * rho)).
  { assert (L2 : length (f_scal s2) = (n + 1)%nat) by (rewrite (ev_len _ _ V2), V1l; exact Sp).
    unfold heights, vsum. rewrite L2, V1l, Sp. rewrite <- zsum_sub, <- (fn_deg _ _ _ _ _ HN), Z.mul_comm, <- zsum_scale.
    apply zsum_le. intros u Hu. apply in_seq in Hu. unfold degree.
    assert (X : nth u (f_scal s2) 0 - nth u (f_scal s1) 0 <= h * rho).
    { specialize (HP u ltac:(lia)). unfold potential in HP.
      assert (N0 : nth_error (f_scal s) u = Some (nth u (f_scal s) 0)) by (apply nth_error_nth'; lia).
      destruct (V1s u _ N0) as [r1 N1]. destruct (ev_scal _ _ V2 u _ N1) as [r2 N2]. destruct (ev_scal _ _ V3 u _ N2) as [r3 N3].
      rewrite V1e in N2. rewrite e2, V1e in N3. fold h in N1, N2, N3.
      apply (fun H => nth_error_nth _ _ 0 H) in N1, N2, N3. rewrite N3 in HP. rewrite N2, N1.
      assert (Y : Z.of_nat r1 + Z.of_nat r2 + Z.of_nat r3 <= rho) by (apply Z.div_le_lower_bound; lia). nia. }
    nia. }
  assert (Q : Z.of_nat c <= step_bound n m (phase_work n m h kap + 1) rho).
  { unfold step_bound. apply (Z.mul_le_mono_pos_l _ _ h Hh). nia. }
  lia.
Qed.

Lemma to_nat_le a b : a <= b -> (Z.to_nat a <= Z.to_nat b)%nat.
Proof. lia. Qed.

Lemma step_bound_mono i i' r r' : i <= i' -> r <= r' -> step_bound n m i r <= step_bound n m i' r'.
Proof. intros. unfold step_bound. nia. Qed.

Lemma J_steps_all : forall r kap s, J fuel n M limits kap s -> f_eps s = 2 ^ Z.of_nat r -> kap <= f_eps s ->
  exists s', phases_steps fuel (repeat (Z.to_nat (round_steps n m)) r) s s' /\ forall k, (r <= k)%nat -> scaling_loop fuel k s = Ok s'.
Proof.
  induction r as [|r IH]; intros kap s HJ He Hk.
  - exists s. split; [constructor; rewrite He; reflexivity|]. intros [|k] _; cbn [scaling_loop]; rewrite He; reflexivity.
  - assert (Hp := Z.pow_pos_nonneg 2 (Z.of_nat r) ltac:(lia) ltac:(lia)).
    assert (H2 : 2 ^ Z.of_nat (S r) = 2 * 2 ^ Z.of_nat r) by (rewrite Nat2Z.inj_succ, Z.pow_succ_r by lia; reflexivity).
    assert (H0 : 0 <= kap) by (destruct HJ as (? & ? & ? & ? & ? & ? & ? & _ & _ & _ & X & _); exact X).
    destruct (J_steps kap s HJ ltac:(lia)) as (s1 & s2 & s3 & E1 & E2 & E3 & EP & E4 & HJ').
    rewrite He, pow2_quot in E2, HJ'. rewrite E4, He, pow2_quot in HJ'.
    destruct (work_le fuel n limits kap (2 ^ Z.of_nat r) Hp ltac:(lia)) as [W0 W1].
    destruct (IH (2 ^ Z.of_nat r) _ HJ' eq_refl ltac:(cbn [with_eps f_eps]; lia)) as (s' & HR & HL).
    exists s'. split.
    2:{ intros [|k] Hrk; [lia|]. cbn [scaling_loop]. destruct (Z.ltb_spec (f_eps s) 2); [lia|]. rewrite EP. cbn [bind]. rewrite E4, He, pow2_quot. apply HL. lia. }
    cbn [repeat]. apply (ps_phase fuel _ _ s s1 s2 s3); [lia|exact E1| |exact E3|].
    + eapply refine_run_more; [exact E2|]. apply to_nat_le. apply step_bound_mono; [rewrite round_eq, iterations_eq; lia|].
      apply Z.div_le_upper_bound; [exact Hp|]. nia.
    + rewrite E4, He, pow2_quot. exact HR.
Qed.

Theorem total_steps : exists s s' r,
  flow_new fuel n M U limits = Ok s /\
  (r = 0%nat \/ 2 ^ Z.of_nat r < 4 * Z.of_nat (n + 1) * U) /\
  phases_steps fuel (firstn r (Z.to_nat (first_round_steps n m K U) :: repeat (Z.to_nat (round_steps n m)) r)) s s' /\
  scaling_loop fuel fuel s = Ok s'.
Proof.
  destruct (J_first one fuel n M K U limits HW Hfuel) as (s & E & HJ & _).
  pose proof HW as (HM & HL & HU & HK & I1 & I2 & I3 & I4). destruct (fuel_facts fuel n M K U limits HW Hfuel) as (F1 & F2 & F3 & F4 & F5).
  assert (Ee : exists r, f_eps s = 2 ^ Z.of_nat r /\ (r <= 31)%nat /\ 2 * Z.of_nat (n + 1) * U <= 2 ^ Z.of_nat r /\ (r = 0%nat \/ 2 ^ Z.of_nat r < 4 * Z.of_nat (n + 1) * U)).
  { destruct (eps_loop_ok n U HU ltac:(rewrite Dn_eq; lia) ltac:(lia) 31 fuel 0 eq_refl F3) as (r & Er & R1 & R2 & R3).
    exists r. split; [|split; [lia|split; assumption]]. unfold flow_new in E. change (2 ^ Z.of_nat 0) with 1 in Er. rewrite Er in E. cbn [bind] in E.
    apply bind_inv in E. destruct E as (a2 & _ & E). apply bind_inv in E. destruct E as (a3 & _ & E). apply bind_inv in E. destruct E as (a4 & _ & E).
    inversion E; subst. reflexivity. }
  destruct Ee as (r & Ee & R1 & R2 & R3).
  assert (SL : exists s', phases_steps fuel (firstn r (Z.to_nat (first_round_steps n m K U) :: repeat (Z.to_nat (round_steps n m)) r)) s s' /\ scaling_loop fuel fuel s = Ok s').
  { destruct r as [|r].
    { exists s. split; [cbn [firstn]; constructor; rewrite Ee; reflexivity|]. destruct fuel; cbn [scaling_loop]; rewrite Ee; reflexivity. }
    destruct R3 as [|R3]; [discriminate|].
    assert (Hp := Z.pow_pos_nonneg 2 (Z.of_nat r) ltac:(lia) ltac:(lia)).
    assert (H2 : 2 ^ Z.of_nat (S r) = 2 * 2 ^ Z.of_nat r) by (rewrite Nat2Z.inj_succ, Z.pow_succ_r by lia; reflexivity).
    assert (HU0 : 0 < U) by nia.
    revert HJ. set (kap0 := 2 * Z.of_nat (n + 1) * K) in *. intro HJ.
    assert (H0 : 0 <= kap0) by (unfold kap0; nia).
    destruct (J_steps kap0 s HJ ltac:(lia)) as (s1 & s2 & s3 & E1 & E2 & E3 & EP & E4 & HJ').
    rewrite Ee, pow2_quot in E2, HJ'. rewrite E4, Ee, pow2_quot in HJ'.
    assert (Hk0 : kap0 * U <= 2 * K * 2 ^ Z.of_nat r) by (unfold kap0; nia).
    destruct (first_le fuel n K U limits kap0 (2 ^ Z.of_nat r) HU0 Hp H0 Hk0) as [W0 W1].
    destruct (J_steps_all r (2 ^ Z.of_nat r) _ HJ' eq_refl ltac:(cbn [with_eps f_eps]; lia)) as (s' & HR & HSL).
    assert (FR : firstn r (repeat (Z.to_nat (round_steps n m)) (S r)) = repeat (Z.to_nat (round_steps n m)) r).
    { clear. generalize (Z.to_nat (round_steps n m)) as a. intro a. induction r as [|r IH]; [reflexivity|]. cbn [repeat firstn]. f_equal. exact IH. }
    exists s'. split.
    2:{ destruct fuel as [|fu] eqn:Ef; [lia|]. cbn [scaling_loop]. rewrite <- Ef in *. destruct (Z.ltb_spec (f_eps s) 2); [lia|]. rewrite EP. cbn [bind]. rewrite E4, Ee, pow2_quot. apply HSL. lia. }
    cbn [firstn]. rewrite FR. apply (ps_phase fuel _ _ s s1 s2 s3); [lia|exact E1| |exact E3|].
    - eapply refine_run_more; [exact E2|]. apply to_nat_le. apply step_bound_mono; [rewrite iterations_eq; lia|].
      clear - HU0 Hp H0 Hk0.
      replace (Z.of_nat n * (kap0 + 2 ^ Z.of_nat r)) with (Z.of_nat n * kap0 + Z.of_nat n * 2 ^ Z.of_nat r) by ring. rewrite Z.div_add by lia.
      replace (Z.of_nat n * (2 * K + U)) with (Z.of_nat n * (2 * K) + Z.of_nat n * U) by ring. rewrite Z.div_add by lia.
      apply Z.add_le_mono_r. apply Z.div_le_lower_bound; [exact HU0|].
      assert (Y := Z.mul_div_le (Z.of_nat n * kap0) (2 ^ Z.of_nat r) Hp). set (a := Z.of_nat n * kap0 / 2 ^ Z.of_nat r) in *. clearbody a kap0.
      set (h := 2 ^ Z.of_nat r) in *. clearbody h.
      assert (U * a * h <= Z.of_nat n * (2 * K) * h); [|nia]. nia.
    - rewrite E4, Ee, pow2_quot. exact HR. }
  destruct SL as (s' & HR & HSL). exists s, s', r. split; [exact E|]. split; [exact R3|]. split; [exact HR|exact HSL].
Qed.
End Total.

Theorem solve_steps (one : Z) n mus oms K fuel sv limits :
  0 < one -> admissible n mus oms K -> solver_fuel n (length oms) K <= Z.of_nat fuel ->
  @solver_new Z (exact_ops one) fuel (Z.of_nat n) mus oms = Ok sv -> s_n sv <> SIZE_MAX ->
  @merge_limits Z (exact_ops one) sv = Ok (Some limits) ->
  exists vmax M U s s' r,
    @calc Z (exact_ops one) fuel limits = Ok (vmax, M, U) /\
    @flow_new Z (exact_ops one) fuel n M U limits = Ok s /\
    @scaling_loop Z (exact_ops one) fuel fuel s = Ok s' /\
    (length limits <= length oms + n)%nat /\
    (r = 0%nat \/ 2 ^ Z.of_nat r < 4 * Z.of_nat (n + 1) * U) /\ U <= 3 * K /\
    @phases_steps (exact_ops one) fuel
      (firstn r (Z.to_nat (first_round_steps n (length limits) (2 * K) U) ::
                 repeat (Z.to_nat (round_steps n (length limits))) r)) s s'.
Proof.
  intros H1 HA Hfuel EN Hn EM.
  destruct (solver_network one H1 n mus oms K fuel sv limits HA Hfuel EN Hn EM) as (vmax & M & U & EC & HU & HW & HF & _ & HL & _).
  destruct (total_steps one fuel n M (2 * K) U limits HW HF) as (s & s' & r & E1 & E2 & E3 & E4).
  exists vmax, M, U, s, s', r.
  split; [exact EC|]. split; [exact E1|]. split; [exact E4|]. split; [exact HL|]. split; [exact E2|]. split; [exact HU|exact E3].
Qed.
