(** * The calls of the link-cut tree made by [Flow::min_cost], altogether *)
From Verif Require Import Base BaseLemmas Data UniqueQueue LCT LCTSpec LCTForest LCTOps LCTRun ProblemDefine Flow ProblemSolver Spec FlowSpec.
From Verif Require Import Sums FlowNet FlowInv FlowPhase FlowChecked FlowRun FlowNew FlowOpt FlowFrame FlowStates FuelMono WorkSpec FlowTotal FlowSteps StepsTotal.
From Verif Require Import LCTTime LCTCount FlowTime FlowCount TimeSpec TimeTotal SolverProof PrimalSolve LCTAmortRun FlowLog FlowReplay CallSpec.
Local Open Scope Z_scope.

Ltac binv H := let a := fresh "a" in let E := fresh "E" in apply bind_inv in H; destruct H as (a & E & H); cbv beta zeta in H.

Section Total.
Variable one : Z.
#[local] Hint Extern 0 (DataOps Z) => exact (exact_ops one) : typeclass_instances.
Variables (fuel n : nat) (M K U : Z) (limits : list (OmegaLimit Z)).
Notation m := (length limits).
Hypothesis HW : network_wf n M K U limits.
Hypothesis Hfuel : flow_iterations n m K <= Z.of_nat fuel.
Notation good := (good one (n + 1) fuel).

(** ** One round *)
Lemma J_calls kap s s3' os : J fuel n M limits kap s -> 2 <= f_eps s -> phase_l one fuel s = Ok (s3', os) ->
  let h := Z.quot (f_eps s) 2 in
  f_eps s3' = f_eps s /\ J fuel n M limits h (with_eps s3' (Z.quot (f_eps s3') 2)) /\
  exists k, good k os s s3' /\
    Z.of_nat k <= round_calls n (Z.max 0 (step_bound n m (phase_work n m h kap + 1) (Z.of_nat n * (kap + h) / h))).
Proof.
  intros HJ He HT h.
  destruct (fuel_facts fuel n M K U limits HW Hfuel) as (F1 & _).
  destruct (J_steps one fuel n M K U limits HW Hfuel kap s HJ He) as (s1 & s2 & s3 & E1 & E2 & E3 & EP & E4 & HJ'). fold h in E2, HJ'.
  destruct (J_step one fuel n M K U limits HW Hfuel (fun _ => true) (fun _ _ => eq_refl) kap s HJ He) as (_ & _ & s3'' & _ & _ & HC & _).
  destruct (J_shape fuel n M limits _ _ HJ) as (HI & Hn & HE & Hcur).
  assert (A := unlogged _ _ _ HT). rewrite phase_unlog, EP in A. inversion A; subst s3'. clear A.
  assert (s3'' = s3) by (apply (phase_chk_sim (fun _ => true)) in HC; congruence). subst s3''.
  split; [exact E4|]. split; [exact HJ'|].
  unfold phase_l in HT. cbv zeta in HT. apply lbind_inv in HT. destruct HT as (s1' & i1 & j1 & T1 & HT & ->). apply quiet_inv in T1. destruct T1 as [T1 ->]. cbn [app].
  destruct (push_all_kept one _ _ T1) as (A1 & A2 & A3). assert (s1' = s1) by congruence. subst s1'.
  unfold refine_l in HT. apply lbind_inv in HT. destruct HT as (s2' & i2 & j2 & T2 & HT & ->).
  unfold phase_chk in HC. binv HC. assert (a = s1) by (apply (push_all_chk_sim (fun _ => true)) in E; congruence). subst a.
  unfold refine_chk in HC. binv HC. rename a into s2''.
  destruct (refine_good one (fun _ => true) (n + 1) fuel F1 _ _ _ E2 _ _ _ _ _ E0 T2) as (B1 & B2 & B3). subst s2' s2''.
  destruct (cut_all_good one (fun _ => true) (n + 1) fuel F1 _ _ _ _ HC HT) as (_ & B4).
  assert (N2 : f_n s2 = n).
  { apply (refine_loop_chk_sim (fun _ => true)) in E0. rewrite (ev_n _ _ (refine_loop_evolve _ _ _ _ E0)), (ev_n _ _ (push_all_evolve _ _ E1)). exact Hn. }
  rewrite N2 in B4. eexists. split.
  - eapply good_app with (s1 := s2); [|exact B4|reflexivity]. apply good_from with (s0 := s1); [rewrite A2; reflexivity|rewrite A1; reflexivity|exact B3].
  - unfold round_calls. set (sb := step_bound _ _ _ _). assert (Z.of_nat (Z.to_nat sb) = Z.max 0 sb) by lia. lia.
Qed.

Lemma round_calls_mono a b : a <= b -> round_calls n a <= round_calls n b.
Proof. intro H. unfold round_calls. lia. Qed.

Lemma J_calls_all : forall r kap s, J fuel n M limits kap s -> f_eps s = 2 ^ Z.of_nat r -> kap <= f_eps s ->
  forall k s' os, scaling_loop_l one fuel k s = Ok (s', os) ->
  exists c, good c os s s' /\ Z.of_nat c <= Z.of_nat r * round_calls n (round_steps n m).
Proof.
  induction r as [|r IH]; intros kap s HJ He Hk k s' os HT.
  - exists 0%nat. split; [|lia]. destruct k; cbn [scaling_loop_l] in HT; rewrite He in HT; cbn [quiet] in HT; inversion HT; apply good_nil; reflexivity.
  - assert (Hp := Z.pow_pos_nonneg 2 (Z.of_nat r) ltac:(lia) ltac:(lia)).
    assert (H2 : 2 ^ Z.of_nat (S r) = 2 * 2 ^ Z.of_nat r) by (rewrite Nat2Z.inj_succ, Z.pow_succ_r by lia; reflexivity).
    assert (H0 : 0 <= kap) by (destruct HJ as (? & ? & ? & ? & ? & ? & ? & _ & _ & _ & X & _); exact X).
    destruct k; cbn [scaling_loop_l] in HT; (destruct (Z.ltb_spec (f_eps s) 2); [lia|]); [discriminate|].
    apply lbind_inv in HT. destruct HT as (s3 & i & j & T1 & HT & ->).
    destruct (J_calls kap s s3 i HJ ltac:(lia) T1) as (E4 & HJ' & c1 & G1 & L). cbv zeta in HJ', L.
    rewrite He, pow2_quot in L, HJ'. rewrite E4, He, pow2_quot in HJ', HT.
    destruct (work_le fuel n limits kap (2 ^ Z.of_nat r) Hp ltac:(lia)) as [W0 W1].
    destruct (IH (2 ^ Z.of_nat r) _ HJ' eq_refl ltac:(cbn [with_eps f_eps]; lia) _ _ _ HT) as (c2 & G2 & L2).
    exists (c1 + c2)%nat. split; [eapply good_app; [exact G1| |reflexivity]; eapply good_from; [| |exact G2]; reflexivity|].
    assert (L3 : round_calls n (Z.max 0 (step_bound n m (phase_work n m (2 ^ Z.of_nat r) kap + 1) (Z.of_nat n * (kap + 2 ^ Z.of_nat r) / 2 ^ Z.of_nat r))) <=
                 round_calls n (round_steps n m)).
    { apply round_calls_mono. apply Z.max_lub.
      - apply (steps_nonneg fuel); [unfold round_iterations; nia|lia].
      - assert (RE := round_eq n limits). rewrite iterations_eq in RE. unfold round_steps. apply (step_bound_mono fuel); [lia|]. apply Z.div_le_upper_bound; [exact Hp|]. nia. }
    nia.
Qed.

Lemma sum_answer_nodes k (s s' : flow Z) v : sum_answer k s = Ok (s', v) -> f_nodes s' = f_nodes s.
Proof.
  unfold sum_answer. generalize (seq 0 (length (f_edges s))) as l. intro l. generalize (@dzero Z _) as w. revert s. induction l as [|e l IH]; intros s w H; cbn [for_each] in H.
  - inversion H; reflexivity.
  - binv H. do 4 binv E. inversion E; subst a. rewrite (IH _ _ H). reflexivity.
Qed.

Lemma flow_new_nodes s : flow_new fuel n M U limits = Ok s -> f_nodes s = repeat node0 (n + 1) /\ f_fa s = repeat None (n + 1).
Proof. unfold flow_new. intro H. do 4 binv H. inversion H; subst. auto. Qed.

Theorem total_calls : exists s s' v os outs f c r,
  flow_new fuel n M U limits = Ok s /\ min_cost_l one fuel s = Ok ((s', v), os) /\ min_cost fuel s = Ok (s', v) /\
  lct_run (n + 1) forest0 os f outs /\ eager os /\
  lct_calls one fuel (f_nodes s) os = Ok (f_nodes s', outs) /\
  lct_calls_s one fuel (f_nodes s) os = Ok (f_nodes s', outs, c) /\
  (r = 0%nat \/ 2 ^ Z.of_nat r < 4 * Z.of_nat (n + 1) * U) /\
  Z.of_nat (length os) <= min_cost_calls n m K U r /\
  Z.of_nat c <= min_cost_calls n m K U r * splay_turns (n + 1).
Proof.
  destruct (total_turns one fuel n M K U limits HW Hfuel) as (s & s2 & v & _ & _ & E & _ & EM & _).
  destruct (J_first one fuel n M K U limits HW Hfuel) as (s0 & E0 & HJ & _). assert (s0 = s) by congruence. subst s0. clear E0.
  pose proof HW as (HM & HL & HU & HK & I1 & I2 & I3 & I4). destruct (fuel_facts fuel n M K U limits HW Hfuel) as (F1 & F2 & F3 & F4 & F5).
  assert (Ee : exists r, f_eps s = 2 ^ Z.of_nat r /\ (r <= 31)%nat /\ 2 * Z.of_nat (n + 1) * U <= 2 ^ Z.of_nat r /\ (r = 0%nat \/ 2 ^ Z.of_nat r < 4 * Z.of_nat (n + 1) * U)).
  { destruct (eps_loop_ok n U HU ltac:(rewrite Dn_eq; lia) ltac:(lia) 31 fuel 0 eq_refl F3) as (r & Er & R1 & R2 & R3).
    exists r. split; [|split; [lia|split; assumption]]. unfold flow_new in E. change (2 ^ Z.of_nat 0) with 1 in Er. rewrite Er in E. cbn [bind] in E.
    do 3 binv E. inversion E; subst. reflexivity. }
  destruct Ee as (r & Ee & R1 & R2 & R3).
  destruct (unlog_inv (min_cost_l one fuel s) _ (eq_trans (min_cost_unlog one fuel s) EM)) as [os HT].
  destruct (flow_new_nodes s E) as [Nn Nf].
  enough (X : exists c s1, good c os s s1 /\ f_nodes s2 = f_nodes s1 /\ Z.of_nat c <= min_cost_calls n m K U r).
  { destruct X as (c & s1 & (G1 & G2 & G3) & En & L).
    destruct (G1 forest0) as (f & outs & _ & HR & HCa).
    { rewrite Nn, Nf. split; [|split; [apply repeat_length|apply (rep_init one (n + 1))]]. split; [apply repeat_length|].
      intros i Hi. rewrite nth_error_repeat by lia. reflexivity. }
    assert (HE := settled_eager _ G2).
    destruct (lct_program_amort one (n + 1) fuel os f outs F1 HR HE) as (hx & cc & P1 & P2 & P3).
    rewrite Nn in HCa. assert (P4 : hx = f_nodes s2) by congruence. rewrite P4 in P1.
    exists s, s2, v, os, outs, f, cc, r. repeat (split; [assumption|]). rewrite Nn. split; [rewrite <- P4; exact P2|]. split; [exact P1|]. split; [exact R3|]. split; [lia|].
    assert (0 <= splay_turns (n + 1)) by (unfold splay_turns; assert (Y := Z.log2_nonneg (Z.of_nat (n + 1))); lia). unfold splay_turns in *.
    eapply Z.le_trans; [exact P3|]. apply Z.mul_le_mono_nonneg_r; [assumption|lia]. }
  unfold min_cost_l in HT. apply lbind_inv in HT. destruct HT as (s1 & i1 & j1 & T1 & HT & ->).
  apply lbind_inv in HT. destruct HT as ([s2' v2] & i2 & j2 & T2 & HT & ->). apply quiet_inv in T2. destruct T2 as [T2 ->]. apply quiet_inv in HT. destruct HT as [HT ->]. inversion HT; subst s2' v. clear HT.
  cbn [app]. rewrite app_nil_r.
  assert (Sn := sum_answer_nodes _ _ _ _ T2).
  enough (X : exists c, good c i1 s s1 /\ Z.of_nat c <= min_cost_calls n m K U r) by (destruct X as (c & G & L); exists c, s1; auto).
  destruct r as [|r].
  { exists 0%nat. cbn [min_cost_calls]. split; [|lia]. destruct fuel; cbn [scaling_loop_l] in T1; rewrite Ee in T1; cbn [quiet] in T1; inversion T1; apply good_nil; reflexivity. }
  destruct R3 as [|R3]; [discriminate|].
  assert (Hp := Z.pow_pos_nonneg 2 (Z.of_nat r) ltac:(lia) ltac:(lia)).
  assert (H2 : 2 ^ Z.of_nat (S r) = 2 * 2 ^ Z.of_nat r) by (rewrite Nat2Z.inj_succ, Z.pow_succ_r by lia; reflexivity).
  assert (HU0 : 0 < U) by nia.
  revert HJ. set (kap0 := 2 * Z.of_nat (n + 1) * K) in *. intro HJ.
  assert (H0 : 0 <= kap0) by (unfold kap0; nia).
  assert (FO : exists fu, fuel = S fu) by (destruct fuel; [lia|eauto]). destruct FO as [fu Ef].
  rewrite Ef in T1 at 2. cbn [scaling_loop_l] in T1. destruct (Z.ltb_spec (f_eps s) 2); [lia|].
  apply lbind_inv in T1. destruct T1 as (s3 & i & j & T1 & T3 & ->).
  destruct (J_calls kap0 s s3 i HJ ltac:(lia) T1) as (E4 & HJ' & c1 & G1 & L). cbv zeta in HJ', L.
  rewrite Ee, pow2_quot in L, HJ'. rewrite E4, Ee, pow2_quot in HJ', T3.
  assert (Hk0 : kap0 * U <= 2 * K * 2 ^ Z.of_nat r) by (unfold kap0; nia).
  destruct (first_le fuel n K U limits kap0 (2 ^ Z.of_nat r) HU0 Hp H0 Hk0) as [W0 W1].
  destruct (J_calls_all r (2 ^ Z.of_nat r) _ HJ' eq_refl ltac:(cbn [with_eps f_eps]; lia) _ _ _ T3) as (c2 & G2 & L2).
  exists (c1 + c2)%nat. split; [eapply good_app; [exact G1| |reflexivity]; eapply good_from; [| |exact G2]; reflexivity|].
  cbn [min_cost_calls].
  enough (round_calls n (Z.max 0 (step_bound n m (phase_work n m (2 ^ Z.of_nat r) kap0 + 1) (Z.of_nat n * (kap0 + 2 ^ Z.of_nat r) / 2 ^ Z.of_nat r))) <=
          round_calls n (first_round_steps n m K U)) by lia.
  apply round_calls_mono. apply Z.max_lub.
  - apply (steps_nonneg fuel); [rewrite iterations_eq; lia|]. apply Z.div_pos; nia.
  - apply (step_bound_mono fuel); [rewrite iterations_eq; lia|]. clear - HU0 Hp H0 Hk0.
    replace (Z.of_nat n * (kap0 + 2 ^ Z.of_nat r)) with (Z.of_nat n * kap0 + Z.of_nat n * 2 ^ Z.of_nat r) by ring. rewrite Z.div_add by lia.
    replace (Z.of_nat n * (2 * K + U)) with (Z.of_nat n * (2 * K) + Z.of_nat n * U) by ring. rewrite Z.div_add by lia.
    apply Z.add_le_mono_r. apply Z.div_le_lower_bound; [exact HU0|].
    assert (Y := Z.mul_div_le (Z.of_nat n * kap0) (2 ^ Z.of_nat r) Hp). set (a := Z.of_nat n * kap0 / 2 ^ Z.of_nat r) in *. clearbody a kap0.
    set (h := 2 ^ Z.of_nat r) in *. clearbody h.
    assert (U * a * h <= Z.of_nat n * (2 * K) * h); [|nia]. nia.
Qed.
End Total.

Theorem solve_calls (one : Z) n mus oms K fuel sv limits :
  0 < one -> admissible n mus oms K -> solver_fuel n (length oms) K <= Z.of_nat fuel ->
  @solver_new Z (exact_ops one) fuel (Z.of_nat n) mus oms = Ok sv -> s_n sv <> SIZE_MAX ->
  @merge_limits Z (exact_ops one) sv = Ok (Some limits) ->
  exists vmax M U s s' v os outs f c r,
    @calc Z (exact_ops one) fuel limits = Ok (vmax, M, U) /\
    @flow_new Z (exact_ops one) fuel n M U limits = Ok s /\
    min_cost_l one fuel s = Ok ((s', v), os) /\
    @min_cost Z (exact_ops one) fuel s = Ok (s', v) /\
    lct_run (n + 1) forest0 os f outs /\ eager os /\
    lct_calls one fuel (f_nodes s) os = Ok (f_nodes s', outs) /\
    lct_calls_s one fuel (f_nodes s) os = Ok (f_nodes s', outs, c) /\
    (length limits <= length oms + n)%nat /\
    (r = 0%nat \/ 2 ^ Z.of_nat r < 4 * Z.of_nat (n + 1) * U) /\ U <= 3 * K /\
    Z.of_nat (length os) <= min_cost_calls n (length limits) (2 * K) U r /\
    Z.of_nat c <= min_cost_calls n (length limits) (2 * K) U r * splay_turns (n + 1).
Proof.
  intros H1 HA Hfuel EN Hn EM.
  destruct (solver_network one H1 n mus oms K fuel sv limits HA Hfuel EN Hn EM) as (vmax & M & U & EC & HU & HW & HF & _ & HL & _).
  destruct (total_calls one fuel n M (2 * K) U limits HW HF) as (s & s' & v & os & outs & f & c & r & E1 & E2 & E3 & E4 & E5 & E6 & E6' & E7 & E8 & E9).
  exists vmax, M, U, s, s', v, os, outs, f, c, r. repeat (split; [assumption|]). assumption.
Qed.
