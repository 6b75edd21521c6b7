(** * The loop turns of [Flow::min_cost] altogether *)
From Verif Require Import Base BaseLemmas Data UniqueQueue LCT LCTOps ProblemDefine Flow ProblemSolver Spec FlowSpec.
From Verif Require Import Sums FlowNet FlowInv FlowPhase FlowChecked FlowRun FlowNew FlowOpt FlowFrame FlowStates FuelMono WorkSpec FlowTotal FlowSteps StepsTotal.
From Verif Require Import LCTTime LCTCount FlowTime FlowCount TimeSpec SolverProof PrimalSolve.
Local Open Scope Z_scope.

Ltac binv H := let a := fresh "a" in let E := fresh "E" in apply bind_inv in H; destruct H as (a & E & H); cbv beta zeta in H.

Section Total.
Variable one : Z.
#[local] Hint Extern 0 (DataOps Z) => exact (exact_ops one) : typeclass_instances.
Variables (fuel n : nat) (M K U : Z) (limits : list (OmegaLimit Z)).
Notation m := (length limits).
Hypothesis HW : network_wf n M K U limits.
Hypothesis Hfuel : flow_iterations n m K <= Z.of_nat fuel.

Lemma tree_turns_eq : Z.of_nat (call_turns (n + 1)) = tree_turns n.
Proof. unfold call_turns, tree_turns. lia. Qed.

Lemma J_shape kap s : J fuel n M limits kap s ->
  linked (n + 1) s /\ f_n s = n /\ length (f_edges s) = (2 * m)%nat /\ length (f_cur s) = (n + 1)%nat.
Proof.
  intros (E & Gl & k & p & x & P & W & HN & HE & HH & _). destruct (hd_st _ _ _ _ _ _ _ _ _ _ _ HH) as (par & val & cur & HS & _ & _).
  split; [exists par, val; split; [apply (st_fa _ _ _ _ _ _ _ _ _ _ _ _ _ HS)|split; [apply (st_len _ _ _ _ _ _ _ _ _ _ _ _ _ HS)|apply (st_rep _ _ _ _ _ _ _ _ _ _ _ _ _ HS)]]|].
  split; [apply (st_n _ _ _ _ _ _ _ _ _ _ _ _ _ HS)|]. split; [rewrite (st_E _ _ _ _ _ _ _ _ _ _ _ _ _ HS); apply (fn_len _ _ _ _ _ HN)|].
  apply (vec_len _ _ _ (st_cur _ _ _ _ _ _ _ _ _ _ _ _ _ HS)).
Qed.

(** ** One round *)
Lemma J_time kap s s3' t : J fuel n M limits kap s -> 2 <= f_eps s -> phase_t fuel s = Ok (s3', t) ->
  let h := Z.quot (f_eps s) 2 in
  phase fuel s = Ok s3' /\ f_eps s3' = f_eps s /\ J fuel n M limits h (with_eps s3' (Z.quot (f_eps s3') 2)) /\
  Z.of_nat t + 1 <= round_cost n m (Z.max 0 (step_bound n m (phase_work n m h kap + 1) (Z.of_nat n * (kap + h) / h))).
Proof.
  intros HJ He HT h.
  destruct (fuel_facts fuel n M K U limits HW Hfuel) as (F1 & _).
  destruct (J_steps one fuel n M K U limits HW Hfuel kap s HJ He) as (s1 & s2 & s3 & E1 & E2 & E3 & EP & E4 & HJ'). fold h in E2, HJ'.
  destruct (J_step one fuel n M K U limits HW Hfuel (fun _ => true) (fun _ _ => eq_refl) kap s HJ He) as (_ & _ & s3'' & _ & _ & HC & _).
  destruct (J_shape _ _ HJ) as (HI & Hn & HE & Hcur).
  assert (A := erased _ _ _ HT). rewrite phase_erase, EP in A. inversion A; subst s3'. clear A.
  assert (s3'' = s3) by (apply (phase_chk_sim (fun _ => true)) in HC; congruence). subst s3''.
  split; [exact EP|]. split; [exact E4|]. split; [exact HJ'|].
  unfold phase_t in HT. apply cbind_inv in HT. destruct HT as ([] & i0 & j0 & T0 & HT & ->). cbv beta zeta in HT. unfold turns in T0. inversion T0; subst i0.
  apply cbind_inv in HT. destruct HT as (s1' & i1 & j1 & T1 & HT & ->).
  destruct (push_all_time one (n + 1) fuel F1 _ _ _ T1) as (A1 & I1 & ->); [eapply linked_same; [| |exact HI]; reflexivity|].
  assert (s1' = s1) by congruence. subst s1'.
  unfold refine_t in HT. apply cbind_inv in HT. destruct HT as (s2' & i2 & j2 & T2 & HT & ->).
  unfold phase_chk in HC. binv HC. assert (a = s1) by (apply (push_all_chk_sim (fun _ => true)) in E; congruence). subst a.
  unfold refine_chk in HC. binv HC. rename a into s2''.
  destruct (refine_time one (fun _ => true) (n + 1) fuel F1 _ _ _ E2 _ _ _ _ _ E0 I1 T2) as (B1 & B2 & I2 & B3). subst s2' s2''.
  destruct (cut_all_time one (fun _ => true) (n + 1) fuel F1 _ _ _ _ HC I2 HT) as (_ & _ & B4).
  assert (N2 : f_n s2 = n).
  { apply (refine_loop_chk_sim (fun _ => true)) in E0. rewrite (ev_n _ _ (refine_loop_evolve _ _ _ _ E0)), (ev_n _ _ (push_all_evolve _ _ E1)). exact Hn. }
  rewrite N2 in B4. cbn [f_edges f_n initialization with_cur]. rewrite Hn, HE, Hcur.
  unfold round_cost, step_cost. rewrite <- tree_turns_eq. unfold step_turns in B3.
  set (TT := call_turns (n + 1)) in *. clearbody TT.
  revert B3. set (sb := step_bound _ _ _ _). intro B3.
  assert (Z.of_nat (Z.to_nat sb) = Z.max 0 sb) by lia. clearbody sb. clear - B3 B4 H. nia.
Qed.

Lemma round_cost_mono a b : a <= b -> round_cost n m a <= round_cost n m b.
Proof. intro H. unfold round_cost, step_cost, tree_turns. nia. Qed.

Lemma steps_nonneg i r : 0 <= i -> 0 <= r -> 0 <= step_bound n m i r.
Proof. intros. unfold step_bound. nia. Qed.

Lemma J_time_all : forall r kap s, J fuel n M limits kap s -> f_eps s = 2 ^ Z.of_nat r -> kap <= f_eps s ->
  forall k s' t, scaling_loop_t fuel k s = Ok (s', t) -> Z.of_nat t <= Z.of_nat r * round_cost n m (round_steps n m).
Proof.
  induction r as [|r IH]; intros kap s HJ He Hk k s' t HT.
  - destruct k; cbn [scaling_loop_t] in HT; rewrite He in HT; cbn [free] in HT; inversion HT; lia.
  - assert (Hp := Z.pow_pos_nonneg 2 (Z.of_nat r) ltac:(lia) ltac:(lia)).
    assert (H2 : 2 ^ Z.of_nat (S r) = 2 * 2 ^ Z.of_nat r) by (rewrite Nat2Z.inj_succ, Z.pow_succ_r by lia; reflexivity).
    assert (H0 : 0 <= kap) by (destruct HJ as (? & ? & ? & ? & ? & ? & ? & _ & _ & _ & X & _); exact X).
    destruct k; cbn [scaling_loop_t] in HT; (destruct (Z.ltb_spec (f_eps s) 2); [lia|]); [discriminate|].
    apply turn_inv in HT. destruct HT as (t0 & HT & ->). apply cbind_inv in HT. destruct HT as (s3 & i & j & T1 & HT & ->).
    destruct (J_time kap s s3 i HJ ltac:(lia) T1) as (EP & E4 & HJ' & L). cbv zeta in HJ', L.
    rewrite He, pow2_quot in L, HJ'. rewrite E4, He, pow2_quot in HJ', HT.
    destruct (work_le fuel n limits kap (2 ^ Z.of_nat r) Hp ltac:(lia)) as [W0 W1].
    assert (L2 := IH (2 ^ Z.of_nat r) _ HJ' eq_refl ltac:(cbn [with_eps f_eps]; lia) _ _ _ HT).
    assert (L3 : round_cost n m (Z.max 0 (step_bound n m (phase_work n m (2 ^ Z.of_nat r) kap + 1) (Z.of_nat n * (kap + 2 ^ Z.of_nat r) / 2 ^ Z.of_nat r))) <=
                 round_cost n m (round_steps n m)).
    { apply round_cost_mono. apply Z.max_lub.
      - apply steps_nonneg; [unfold round_iterations; nia|lia].
      - assert (RE := round_eq n limits). rewrite iterations_eq in RE. unfold round_steps. apply (step_bound_mono fuel); [lia|]. apply Z.div_le_upper_bound; [exact Hp|]. nia. }
    nia.
Qed.

(** ** The sum of the answer *)
Definition narrow (s : flow Z) : Prop := forall e o, nth_error (f_edges s) e = Some o -> o_l o <= o_u o < o_l o + 2 ^ 31.

Lemma sum_answer_time k s r t : narrow s -> sum_answer_t k s = Ok (r, t) -> Z.of_nat t <= 33 * Z.of_nat (length (f_edges s)).
Proof.
  unfold sum_answer_t. rewrite <- (seq_length (length (f_edges s)) 0) at 2. generalize (seq 0 (length (f_edges s))) as l. intro l.
  generalize (@dzero Z _) as v. revert s r t. induction l as [|e l IH]; intros s r t v HN H; cbn [for_each_t] in H.
  - apply free_inv in H. destruct H as [_ ->]. cbn [length]. lia.
  - apply turn_inv in H. destruct H as (t0 & H & ->). apply cbind_inv in H. destruct H as (s1 & i & j & T1 & H & ->).
    apply cbind_inv in T1. destruct T1 as (o & i1 & j1 & T2 & T1 & ->). apply free_inv in T2. destruct T2 as [T2 ->]. apply vget_inv in T2.
    apply cbind_inv in T1. destruct T1 as (x & i1 & j2 & T3 & T1 & ->). apply free_inv in T3. destruct T3 as [T3 ->]. cbv zeta in T1.
    apply cbind_inv in T1. destruct T1 as (es & i1 & j3 & T4 & T1 & ->). apply free_inv in T4. destruct T4 as [T4 ->]. apply vset_inv in T4. destruct T4 as [Hl ->].
    apply cbind_inv in T1. destruct T1 as (w & i4 & j4 & T5 & T1 & ->). apply free_inv in T1. destruct T1 as [T1 ->]. inversion T1; subst s1. clear T1.
    unfold limit_min_t in T5. apply cbind_inv in T5. destruct T5 as (mp & i5 & j5 & T6 & T5 & ->). apply free_inv in T5. destruct T5 as [_ ->].
    cbn [o_l o_u tilt] in T6. assert (L := partition_point_time 31 _ _ _ _ _ _ (HN _ _ T2) T6).
    apply IH in H; [cbn [length]; lia|].
    intros e' o' He'. cbn [f_edges with_edges] in He'. destruct (Nat.eq_dec e' e) as [->|Hn].
    + rewrite nth_error_upd_eq in He' by exact Hl. inversion He'; subst o'. cbn [o_l o_u tilt]. apply (HN _ _ T2).
    + rewrite nth_error_upd_neq in He' by auto. apply (HN _ _ He').
Qed.

Theorem total_turns : exists s s' v t r,
  flow_new fuel n M U limits = Ok s /\ min_cost_t fuel s = Ok ((s', v), t) /\ min_cost fuel s = Ok (s', v) /\
  (r = 0%nat \/ 2 ^ Z.of_nat r < 4 * Z.of_nat (n + 1) * U) /\
  Z.of_nat t <= min_cost_turns n m K U r.
Proof.
  destruct (J_first one fuel n M K U limits HW Hfuel) as (s & E & HJ & _).
  pose proof HW as (HM & HL & HU & HK & I1 & I2 & I3 & I4). destruct (fuel_facts fuel n M K U limits HW Hfuel) as (F1 & F2 & F3 & F4 & F5).
  assert (Ee : exists r, f_eps s = 2 ^ Z.of_nat r /\ (r <= 31)%nat /\ 2 * Z.of_nat (n + 1) * U <= 2 ^ Z.of_nat r /\ (r = 0%nat \/ 2 ^ Z.of_nat r < 4 * Z.of_nat (n + 1) * U)).
  { destruct (eps_loop_ok n U HU ltac:(rewrite Dn_eq; lia) ltac:(lia) 31 fuel 0 eq_refl F3) as (r & Er & R1 & R2 & R3).
    exists r. split; [|split; [lia|split; assumption]]. unfold flow_new in E. change (2 ^ Z.of_nat 0) with 1 in Er. rewrite Er in E. cbn [bind] in E.
    apply bind_inv in E. destruct E as (a2 & _ & E). apply bind_inv in E. destruct E as (a3 & _ & E). apply bind_inv in E. destruct E as (a4 & _ & E).
    inversion E; subst. reflexivity. }
  destruct Ee as (r & Ee & R1 & R2 & R3).
  assert (HF := Hfuel). rewrite flow_iterations_eq in HF.
  assert (HL' : forall o, In o limits -> limit_ok n M K o) by (intros o Ho; apply limit_wf_ok; auto).
  assert (I4' : 0 < U -> Z.of_nat n * (Dn n * K + 4 * bit_ceil (Z.of_nat (n + 1) * U)) <= INT_MAX) by (intro H0; rewrite Dn_eq; apply I4; exact H0).
  destruct (run_ok one n M K U limits HM HK HL' HU I1 ltac:(rewrite Dn_eq; lia) I3 I4' fuel HF) as (s0 & EE & Gl & s1 & x & E1 & HN & HE & Es & Eed & Hfl & _).
  assert (s0 = s) by congruence. subst s0.
  assert (HR := edge_range n M K U limits HL' I1 I3 fuel EE Gl HN HE).
  destruct (sum_answer_ok one n m M EE Gl HN fuel F3 HR s1 x Eed Hfl) as (s2 & Ea).
  assert (EM : min_cost fuel s = Ok (s2, dhalf (zsum (seq 0 (2 * m)) (part one EE fuel x)))) by (unfold min_cost; rewrite Es; cbn [bind]; rewrite Ea; reflexivity).
  destruct (erase_inv (min_cost_t fuel s) _ (eq_trans (min_cost_erase fuel s) EM)) as [t HT].
  exists s, s2, (dhalf (zsum (seq 0 (2 * m)) (part one EE fuel x))), t, r. split; [exact E|]. split; [exact HT|]. split; [exact EM|]. split; [exact R3|].
  unfold min_cost_t in HT. apply cbind_inv in HT. destruct HT as (s1' & i1 & j1 & T1 & HT & ->).
  assert (s1' = s1) by (apply erased in T1; rewrite scaling_loop_erase in T1; congruence). subst s1'.
  apply cbind_inv in HT. destruct HT as ([s2' v2] & i2 & j2 & T2 & HT & ->). apply free_inv in HT. destruct HT as [_ ->].
  apply sum_answer_time in T2.
  2:{ intros e o He. rewrite Eed in He.
      assert (Hlt : (e < 2 * m)%nat) by (rewrite <- (fn_len _ _ _ _ _ HN); apply nth_error_Some; congruence).
      assert (Eo : edge EE e = o) by (unfold edge; apply nth_error_nth; exact He).
      specialize (HR e Hlt). rewrite Eo in HR. assert (Hok := fn_ok _ _ _ _ _ HN e Hlt). rewrite Eo in Hok.
      unfold PDProof.int_range, INT_MAX in HR. destruct Hok as [Hlu _ _ _]. split; [exact Hlu|]. change (2 ^ 31) with 2147483648. lia. }
  rewrite Eed, (fn_len _ _ _ _ _ HN) in T2.
  enough (Z.of_nat i1 <= rounds_cost n m K U r) by (unfold min_cost_turns; lia). clear T2.
  destruct r as [|r].
  { destruct fuel; cbn [scaling_loop_t] in T1; rewrite Ee in T1; cbn [free] in T1; inversion T1; cbn [rounds_cost]; lia. }
  destruct R3 as [|R3]; [discriminate|].
  assert (Hp := Z.pow_pos_nonneg 2 (Z.of_nat r) ltac:(lia) ltac:(lia)).
  assert (H2 : 2 ^ Z.of_nat (S r) = 2 * 2 ^ Z.of_nat r) by (rewrite Nat2Z.inj_succ, Z.pow_succ_r by lia; reflexivity).
  assert (HU0 : 0 < U) by nia.
  revert HJ. set (kap0 := 2 * Z.of_nat (n + 1) * K) in *. intro HJ.
  assert (H0 : 0 <= kap0) by (unfold kap0; nia).
  assert (FO : exists fu, fuel = S fu) by (destruct fuel; [lia|eauto]). destruct FO as [fu Ef].
  rewrite Ef in T1 at 2. cbn [scaling_loop_t] in T1. destruct (Z.ltb_spec (f_eps s) 2); [lia|].
  apply turn_inv in T1. destruct T1 as (t0 & T1 & ->). apply cbind_inv in T1. destruct T1 as (s3 & i & j & T1 & T3 & ->).
  destruct (J_time kap0 s s3 i HJ ltac:(lia) T1) as (EP & E4 & HJ' & L). cbv zeta in HJ', L.
  rewrite Ee, pow2_quot in L, HJ'. rewrite E4, Ee, pow2_quot in HJ', T3.
  assert (Hk0 : kap0 * U <= 2 * K * 2 ^ Z.of_nat r) by (unfold kap0; nia).
  destruct (first_le fuel n K U limits kap0 (2 ^ Z.of_nat r) HU0 Hp H0 Hk0) as [W0 W1].
  assert (L2 := J_time_all r (2 ^ Z.of_nat r) _ HJ' eq_refl ltac:(cbn [with_eps f_eps]; lia) _ _ _ T3).
  cbn [rounds_cost].
  enough (round_cost n m (Z.max 0 (step_bound n m (phase_work n m (2 ^ Z.of_nat r) kap0 + 1) (Z.of_nat n * (kap0 + 2 ^ Z.of_nat r) / 2 ^ Z.of_nat r))) <=
          round_cost n m (first_round_steps n m K U)) by lia.
  apply round_cost_mono. apply Z.max_lub.
  - apply steps_nonneg; [rewrite iterations_eq; lia|]. apply Z.div_pos; nia.
  - apply (step_bound_mono fuel); [rewrite iterations_eq; lia|]. clear - HU0 Hp H0 Hk0.
    replace (Z.of_nat n * (kap0 + 2 ^ Z.of_nat r)) with (Z.of_nat n * kap0 + Z.of_nat n * 2 ^ Z.of_nat r) by ring. rewrite Z.div_add by lia.
    replace (Z.of_nat n * (2 * K + U)) with (Z.of_nat n * (2 * K) + Z.of_nat n * U) by ring. rewrite Z.div_add by lia.
    apply Z.add_le_mono_r. apply Z.div_le_lower_bound; [exact HU0|].
    assert (Y := Z.mul_div_le (Z.of_nat n * kap0) (2 ^ Z.of_nat r) Hp). set (a := Z.of_nat n * kap0 / 2 ^ Z.of_nat r) in *. clearbody a kap0.
    set (h := 2 ^ Z.of_nat r) in *. clearbody h.
    assert (U * a * h <= Z.of_nat n * (2 * K) * h); [|nia]. nia.
Qed.
End Total.

Theorem solve_turns (one : Z) n mus oms K fuel sv limits :
  0 < one -> admissible n mus oms K -> solver_fuel n (length oms) K <= Z.of_nat fuel ->
  @solver_new Z (exact_ops one) fuel (Z.of_nat n) mus oms = Ok sv -> s_n sv <> SIZE_MAX ->
  @merge_limits Z (exact_ops one) sv = Ok (Some limits) ->
  exists vmax M U s s' v t r,
    @calc Z (exact_ops one) fuel limits = Ok (vmax, M, U) /\
    @flow_new Z (exact_ops one) fuel n M U limits = Ok s /\
    @min_cost_t Z (exact_ops one) fuel s = Ok ((s', v), t) /\
    @min_cost Z (exact_ops one) fuel s = Ok (s', v) /\
    (length limits <= length oms + n)%nat /\
    (r = 0%nat \/ 2 ^ Z.of_nat r < 4 * Z.of_nat (n + 1) * U) /\ U <= 3 * K /\
    Z.of_nat t <= min_cost_turns n (length limits) (2 * K) U r.
Proof.
  intros H1 HA Hfuel EN Hn EM.
  destruct (solver_network one H1 n mus oms K fuel sv limits HA Hfuel EN Hn EM) as (vmax & M & U & EC & HU & HW & HF & _ & HL & _).
  destruct (total_turns one fuel n M (2 * K) U limits HW HF) as (s & s' & v & t & r & E1 & E2 & E3 & E4 & E5).
  exists vmax, M, U, s, s', v, t, r. repeat (split; [assumption|]). assumption.
Qed.
