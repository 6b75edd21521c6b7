(** * How the parameters M and U of Flow matter *)
From Verif Require Import Base Data BaseLemmas ProblemDefine Flow ProblemSolver Spec FlowSpec SolverNet SolverProof ExampleData FlowProps.
Local Open Scope Z_scope.

Lemma cost_mono M M' limits nu : M <= M' -> network_cost M limits nu <= network_cost M' limits nu.
Proof.
  intro H. unfold network_cost. induction limits as [|o l IH]; cbn [map sumZ]; [lia|]. unfold penalised at 1 3.
  assert (M * Z.abs (nu (o_i o) - nu (o_j o) - clamp (o_l o) (o_u o) (nu (o_i o) - nu (o_j o))) <= M' * Z.abs (nu (o_i o) - nu (o_j o) - clamp (o_l o) (o_u o) (nu (o_i o) - nu (o_j o))))
    by (apply Z.mul_le_mono_nonneg_r; lia). lia.
Qed.
Lemma cost_satisfied M M' limits nu : satisfied limits nu -> network_cost M limits nu = network_cost M' limits nu.
Proof.
  intro H. unfold network_cost. f_equal. apply map_ext_in. intros o Ho. specialize (H o Ho). unfold penalised, clamp.
  replace (Z.max (o_l o) (Z.min (o_u o) (nu (o_i o) - nu (o_j o)))) with (nu (o_i o) - nu (o_j o)) by lia. rewrite Z.sub_diag. cbn [Z.abs]. lia.
Qed.

Lemma any_parameters one fuel n K limits vmax M U M' U' :
  0 < one -> (forall o, In o limits -> range_wf n K o) ->
  @calc Z (exact_ops one) fuel limits = Ok (vmax, M, U) -> M <= M' -> 0 < U' -> flow_fits n K U' ->
  flow_iterations n (length limits) K <= Z.of_nat fuel ->
  exists s s' v, @flow_new Z (exact_ops one) fuel n M' U' limits = Ok s /\ @min_cost Z (exact_ops one) fuel s = Ok (s', v) /\
    (vmax < v <-> forall nu, ~ satisfied limits nu) /\
    (v <= vmax -> (exists nu, satisfied limits nu /\ true_cost limits nu = v) /\
                  forall nu, satisfied limits nu -> v <= true_cost limits nu).
Proof.
  intros H1 HR EC HM HU HFi Hfuel. assert (HC : consistent U' limits) by (intro; lia). pose proof HFi as (A1 & A2 & A3 & A4 & A5 & A6).
  assert (Hf : (32 <= fuel)%nat).
  { unfold flow_iterations in Hfuel. assert (0 <= phase_iterations n (length limits) (2 * Z.of_nat (n + 1) * K) 1); [|lia].
    unfold phase_iterations. rewrite Z.div_1_r. nia. }
  destruct (calc_separates one fuel n K limits H1 ltac:(lia) A3 HR Hf) as (vmax' & M1 & U1 & EC' & HM0 & HU0 & HUo & HL & HS & HV).
  rewrite EC' in EC. inversion EC; subst vmax' M1 U1. clear EC.
  destruct (flow_min one fuel n M' K U' limits) as (s & s' & v & E1 & E2 & [(nu0 & N1) N2]); auto.
  { split; [lia|]. split; [|exact HFi]. intros o Ho. destruct (HL o Ho) as (B1 & B2 & B3 & B4 & B5). split; [exact B1|]. split; [exact B2|]. split; [exact B3|].
    split; [|exact B5]. intros t Ht. specialize (B4 t Ht). lia. }
  assert (HS' : forall nu, satisfied limits nu -> network_cost M' limits nu = true_cost limits nu /\ true_cost limits nu <= vmax).
  { intros nu Hn. destruct (HS nu Hn). rewrite (cost_satisfied M' M limits nu Hn). split; assumption. }
  exists s, s', v. split; [exact E1|]. split; [exact E2|]. split.
  - split.
    + intros Hv nu Hn. destruct (HS' nu Hn). specialize (N2 nu). lia.
    + intros Hno. rewrite <- N1. specialize (HV nu0 (Hno nu0)). assert (X := cost_mono M M' limits nu0 HM). lia.
  - intros Hv. split.
    + exists nu0. destruct (sat_or fuel ltac:(lia) limits nu0) as [S0|(o & O1 & O2)].
      * destruct (HS' nu0 S0). split; [exact S0|lia].
      * exfalso. assert (vmax < network_cost M limits nu0) by (apply HV; intros S0; apply O2, (S0 o O1)).
        assert (X := cost_mono M M' limits nu0 HM). lia.
    + intros nu Hs. destruct (HS' nu Hs). specialize (N2 nu). lia.
Qed.

(** ** An M that is only as large as the slopes is too small *)
Definition pulled : list (OmegaLimit Z) :=
  [mkOm 0 6 (lin 1) 1 2; mkOm 0 6 (lin 1) 1 3; mkOm 5 6 (lin 0) 1 0; mkOm 0 1 (lin 0) 2 0; mkOm 0 1 (lin 0) 3 0].
Lemma pulled_wf : network_wf 3 1 6 6 pulled.
Proof.
  split; [lia|]. split.
  - intros o Ho. unfold pulled in Ho. cbn [In] in Ho. destruct Ho as [<-|[<-|[<-|[<-|[<-|[]]]]]];
      unfold limit_wf; cbn [o_l o_u o_fn o_i o_j]; (split; [lia|]); (split; [apply lin_wf|]); (split; [apply lin_wf|]);
      (split; [intros t Ht; unfold cost, lin; lia|]); repeat split; lia.
  - unfold flow_fits, INT_MAX. repeat split; try lia. intros _. vm_compute. discriminate.
Qed.
Lemma slopes_too_small : exists (n : nat) (M K U : Z) (limits : list (OmegaLimit Z)) (s s' : flow Z) (v : Z),
  network_wf n M K U limits /\ 0 < U /\ (forall o, In o limits -> o_u o - o_l o <= U) /\
  @flow_new Z (exact_ops 1) (Z.to_nat 3000) n M U limits = Ok s /\ @min_cost Z (exact_ops 1) (Z.to_nat 3000) s = Ok (s', v) /\
  (exists nu, satisfied limits nu) /\ forall nu, satisfied limits nu -> v < true_cost limits nu.
Proof.
  destruct (flow_result_ok (Z.to_nat 3000) 3 1 6 pulled 4 ltac:(vm_compute; reflexivity)) as (s & s' & E1 & E2).
  exists 3%nat, 1, 6, 6, pulled, s, s', 4. split; [exact pulled_wf|]. split; [lia|]. split.
  { intros o Ho. unfold pulled in Ho. cbn [In] in Ho. destruct Ho as [<-|[<-|[<-|[<-|[<-|[]]]]]]; cbn [o_l o_u]; lia. }
  split; [exact E1|]. split; [exact E2|]. split.
  - exists (fun i => nth i [0; 5; 1; 1] 0). intros o Ho. unfold pulled in Ho. cbn [In] in Ho. destruct Ho as [<-|[<-|[<-|[<-|[<-|[]]]]]]; cbn; lia.
  - intros nu H. unfold true_cost, pulled. cbn [map sumZ o_i o_j o_fn]. unfold cost, lin.
    assert (A1 := H (mkOm 5 6 (lin 0) 1 0) ltac:(unfold pulled; cbn; auto)). assert (A2 := H (mkOm 0 1 (lin 0) 2 0) ltac:(unfold pulled; cbn; auto)).
    assert (A3 := H (mkOm 0 1 (lin 0) 3 0) ltac:(unfold pulled; cbn; auto 7)). cbn [o_i o_j o_l o_u] in *. lia.
Qed.
