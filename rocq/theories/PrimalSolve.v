(** * Optimal values of the variables from the state of the flow solver *)
From Verif Require Import Base BaseLemmas Data ProblemDefine Flow ProblemSolver.
From Verif Require Import Sums Spec FlowSpec Convex FlowNet PDProof FlowPhase FlowOpt FlowStates FlowProps SolverNet SolverProof SolverSafe PrimalSpec FlowPrimal.
Local Open Scope Z_scope.

Section Solve.
Variable one : Z.
#[local] Hint Extern 0 (DataOps Z) => exact (exact_ops one) : typeclass_instances.
Hypothesis H1 : 0 < one.

(** the limits given to [calc] and [Flow] *)
Lemma solver_limits n mus oms K fuel sv limits :
  admissible n mus oms K -> solver_fuel n (length oms) K <= Z.of_nat fuel ->
  solver_new fuel (Z.of_nat n) mus oms = Ok sv -> s_n sv <> SIZE_MAX -> merge_limits sv = Ok (Some limits) ->
  s_n sv = Z.of_nat n /\ (length limits <= length oms + n)%nat /\ forall o, In o limits -> lgood n (2 * K) (3 * K) o.
Proof.
  intros ((Hlen & Hmu & Hom) & (BM & BO) & HK & HI) Hfuel EN Hn0 EM.
  assert (HK3 : 3 * K <= INT_MAX) by nia.
  assert (Hn : Z.of_nat n < INT_MAX) by (unfold INT_MAX in *; nia).
  unfold solver_fuel in Hfuel.
  assert (HFF : 2 * Z.of_nat (n + 1) + 33 <= flow_fuel n (length oms + n) (2 * K)).
  { unfold flow_fuel, phase_work. rewrite Z.div_1_r. assert (HD2 := Dn_pos n). nia. }
  assert (Hf1 : (n + 1 < fuel)%nat) by lia. assert (Hf2 : (31 < fuel)%nat) by lia.
  unfold solver_new in EN.
  rewrite Z.mod_small in EN by (unfold SIZE_MAX, INT_MAX in *; lia).
  destruct (Z.eqb_spec (Z.of_nat (length mus)) (Z.of_nat n + 1)) in EN; [|lia]. cbn [negb] in EN.
  destruct (check_mus_ok n mus Hlen n 1 fuel ltac:(lia) ltac:(lia)) as (b & Eb & Hb). rewrite Eb in EN. cbn [bind] in EN.
  assert (b = true). { apply Hb. intros k m Hk Hm. apply (Hmu k m); auto. }
  subst b. cbn [negb] in EN.
  destruct (check_omegas_ok one n mus K fuel ltac:(lia) HK3 Hf2 Hlen Hmu BM oms Hom BO) as (r & Er & Hr). rewrite Er in EN. cbn [bind] in EN.
  destruct r as [oms'|].
  2:{ inversion EN; subst sv. cbn [invalid s_n] in Hn0. congruence. }
  destruct Hr as [HF2 HG'].
  assert (HlenO : length oms' = length oms) by (clear - HF2; induction HF2; simpl; auto).
  inversion EN; subst sv. clear EN. cbn [s_n]. split; [reflexivity|].
  set (s := mkSolver (Z.of_nat n) mus oms') in *.
  destruct (merge_limits_ok one n (2 * K) (3 * K) ltac:(lia) s) as [(L & EL & HGL & HLL & _)|[EL _]];
    cbn [s s_n s_mus s_oms] in *; try rewrite !Nat2Z.id in *; auto; try lia.
  2:{ rewrite EL in EM. discriminate. }
  rewrite EL in EM. inversion EM; subst limits. split.
  - rewrite app_length, map_length, seq_length. lia.
  - intros o Ho. apply in_app_or in Ho. destruct Ho as [Ho|Ho]; [auto|].
    apply in_map_iff in Ho. destruct Ho as (i & <- & Hi). apply in_seq in Hi. apply mu_limit_good; auto; lia.
Qed.

(** the network given to [Flow] *)
Lemma solver_network n mus oms K fuel sv limits :
  admissible n mus oms K -> solver_fuel n (length oms) K <= Z.of_nat fuel ->
  solver_new fuel (Z.of_nat n) mus oms = Ok sv -> s_n sv <> SIZE_MAX -> merge_limits sv = Ok (Some limits) ->
  exists vmax M U, calc fuel limits = Ok (vmax, M, U) /\ U <= 3 * K /\
    network_wf n M (2 * K) U limits /\ flow_iterations n (length limits) (2 * K) <= Z.of_nat fuel /\
    s_n sv = Z.of_nat n /\ (length limits <= length oms + n)%nat /\
    (forall nu, satisfied limits nu -> network_cost M limits nu = true_cost limits nu) /\
    (forall nu, ~ satisfied limits nu -> vmax < network_cost M limits nu).
Proof.
  intros HA Hfuel EN Hn0 EM. pose proof HA as (HWf & HB & HK & HI).
  assert (HK28 : 28 * K <= INT_MAX) by (assert (1 <= Z.of_nat (n + 1)) by lia; nia).
  assert (HK3 : 3 * K <= INT_MAX) by nia.
  assert (Hn : Z.of_nat n < INT_MAX) by (unfold INT_MAX in *; nia).
  assert (HFF : 2 * Z.of_nat (n + 1) + 33 <= flow_fuel n (length oms + n) (2 * K)).
  { unfold flow_fuel, phase_work. rewrite Z.div_1_r. assert (HD2 := Dn_pos n). nia. }
  pose proof Hfuel as Hfuel'. unfold solver_fuel in Hfuel'.
  destruct (solver_limits n mus oms K fuel sv limits HA Hfuel EN Hn0 EM) as (Esn & Hlen & HG).
  assert (HRW : forall o, In o limits -> range_wf n (2 * K) o).
  { intros o Ho. destruct (HG o Ho). repeat split; auto. }
  destruct (calc_separates one fuel n (2 * K) limits H1 ltac:(lia)) as (vmax & M & U & EC & HM & HUb & HUo & HL & HS & HV); auto; try lia.
  assert (HU3 : U <= 3 * K).
  { destruct (calc_ok one fuel ltac:(lia) n (2 * K) (3 * K) limits ltac:(lia) ltac:(lia) HG) as (U2 & EC2 & B2 & _).
    rewrite EC in EC2. inversion EC2; subst U2. lia. }
  exists vmax, M, U. split; [exact EC|]. split; [exact HU3|]. split.
  { split; [exact HM|]. split; [exact HL|].
    repeat split; try lia; try (unfold INT_MAX in *; nia).
    intros ?. assert (X := bit_ceil_lt (Z.of_nat (n + 1) * U) ltac:(nia)).
    assert (Y : bit_ceil (Z.of_nat (n + 1) * U) <= 6 * Z.of_nat (n + 1) * K) by nia.
    set (B := bit_ceil (Z.of_nat (n + 1) * U)) in *. clearbody B. unfold INT_MAX in *. nia. }
  split; [rewrite flow_iterations_eq; eapply Z.le_trans; [|exact Hfuel]; apply flow_fuel_mono; lia|].
  split; [exact Esn|]. split; [exact Hlen|]. split; [intros nu Sat; apply (HS nu Sat)|exact HV].
Qed.

Theorem primal_solve n mus oms K fuel v :
  admissible n mus oms K -> solver_fuel n (length oms) K <= Z.of_nat fuel ->
  run_solver fuel (Z.of_nat n) mus oms = Ok (Some v) ->
  exists sv limits vmax M U s s',
    solver_new fuel (Z.of_nat n) mus oms = Ok sv /\ merge_limits sv = Ok (Some limits) /\
    calc fuel limits = Ok (vmax, M, U) /\ flow_new fuel n M U limits = Ok s /\ min_cost fuel s = Ok (s', v) /\
    (0 < U -> forall theta, offset_free n theta s' ->
       exists om, feasible n mus oms (fun i => rounded n theta s' i - rounded n theta s' 0) om /\
         total_cost n mus oms (fun i => rounded n theta s' i - rounded n theta s' 0) om = v).
Proof.
  intros HA Hfuel ER. pose proof HA as (HWf & HB & HK & HI).
  assert (HK28 : 28 * K <= INT_MAX) by (assert (1 <= Z.of_nat (n + 1)) by lia; nia).
  assert (HK3 : 3 * K <= INT_MAX) by nia.
  assert (Hn : Z.of_nat n < INT_MAX) by (unfold INT_MAX in *; nia).
  assert (HFF : 2 * Z.of_nat (n + 1) + 33 <= flow_fuel n (length oms + n) (2 * K)).
  { unfold flow_fuel, phase_work. rewrite Z.div_1_r. assert (HD2 := Dn_pos n). nia. }
  pose proof Hfuel as Hfuel'. unfold solver_fuel in Hfuel'.
  destruct (network_preserves one n mus oms K fuel HWf HB HK HK3 Hn ltac:(lia)) as (sv & EN & _ & HP).
  unfold run_solver in ER. rewrite EN in ER. cbn [bind] in ER. unfold solve in ER.
  destruct (Z.eqb_spec (s_n sv) SIZE_MAX) as [|Hn0]; [discriminate|].
  destruct (HP Hn0) as (r & EM & Hr). rewrite EM in ER. cbn [bind] in ER. destruct r as [limits|]; [|discriminate].
  destruct (solver_network n mus oms K fuel sv limits HA Hfuel EN Hn0 EM) as (vmax & M & U & EC & _ & HW & HF & Esn & _ & HS & HV).
  rewrite EC in ER. cbn [bind] in ER.
  rewrite Esn, Nat2Z.id in ER. apply bind_inv in ER. destruct ER as (s & EF & ER).
  apply bind_inv in ER. destruct ER as ([s' mc] & EMC & ER). cbn [dlt exact_ops] in ER.
  destruct (Z.ltb_spec vmax mc) as [|Hmc]; [discriminate|]. inversion ER; subst mc. clear ER.
  exists sv, limits, vmax, M, U, s, s'. split; [exact EN|]. split; [exact EM|]. split; [exact EC|]. split; [exact EF|]. split; [exact EMC|].
  intros HU theta HT.
  destruct (primal_read one fuel n M (2 * K) U limits HW HF HU s EF) as (s2 & v2 & E2 & _ & _ & HR).
  rewrite EMC in E2. inversion E2; subst s2 v2. specialize (HR theta HT).
  set (nu := rounded n theta s') in *.
  assert (Sat : satisfied limits nu).
  { destruct (sat_or fuel ltac:(lia) limits nu) as [S0|(o & O1 & O2)]; [exact S0|].
    exfalso. assert (vmax < network_cost M limits nu); [|lia]. apply HV. intros S0. apply O2, (S0 o O1). }
  assert (C1 := HS nu Sat).
  destruct (Hr (fun i => nu i - nu 0%nat) ltac:(lia)) as [_ Q].
  destruct Q as [(om & F1 & F2) _].
  { intros o Ho. specialize (Sat o Ho). lia. }
  exists om. split; [exact F1|]. rewrite F2, <- HR, C1. unfold true_cost. f_equal. apply map_ext. intros o. f_equal. lia.
Qed.
End Solve.
