(** * Concrete cases for CostScaling and SimpleSolver *)
From Verif Require Import Base BaseLemmas Data ProblemDefine ProblemSolver Oracles CostScaling Spec SpecLemmas Sums FlowOpt.
From Verif Require Import SolverProof SolverProps OracleProof ScaleSpec ScaleProof SimpleProof ExampleData FloatExample.
Local Open Scope Z_scope.

(** the three solvers of the test-suite agree *)
Lemma solvers_agree one n mus oms K S s f1 f2 f3 :
  0 < one -> admissible n mus oms K -> spread_within n mus oms S -> S < 1000000000 * one ->
  (2 ^ Z.of_nat s | one) -> 4 * K * Z.of_nat (n + 1) <= 2 ^ Z.of_nat s ->
  solver_fuel n (length oms) K <= Z.of_nat f1 -> 2 * K + 32 <= Z.of_nat f2 -> simple_fuel n (length oms) K <= Z.of_nat f3 ->
  exists r, @run_solver Z (exact_ops one) f1 (Z.of_nat n) mus oms = Ok r /\
    @bf_solve Z (exact_ops one) f2 n mus oms = Ok r /\ @simple_solve Z (exact_ops one) f3 n mus oms = Ok r.
Proof.
  intros H1 HA HS HS1 Hd Hs F1 F2 F3. destruct (solve_bf one H1 n mus oms K f1 f2 HA F1 F2) as (r & E1 & E2).
  destruct (solve_solution one H1 n mus oms K f1 HA F1) as (r1 & E1' & S1).
  destruct HA as (W & B & I1 & I2).
  destruct (simple_solve_ok one n mus oms K S s f3) as (r2 & E3 & S2); auto; try nia.
  exists r. split; auto. split; auto. rewrite E3. f_equal. assert (r1 = r) by congruence. subst r1.
  eapply solution_unique; eauto.
Qed.

Lemma spread_of_costs n mus oms A : costs_within n mus oms A -> spread_within n mus oms (2 * A).
Proof.
  intros (wm & wo & H1 & H2 & H3). exists (fun i => 2 * wm i), (fun k => 2 * wo k). split; [|split].
  - intros i m x y Hi Em Hx Hy. assert (X := H1 i m x Hi Em Hx). assert (Y := H1 i m y Hi Em Hy). lia.
  - intros k o x y Ek Hx Hy. assert (X := H2 k o x Ek Hx). assert (Y := H2 k o y Ek Hy). lia.
  - rewrite !sumZ_zsum in *. rewrite !zsum_scale. lia.
Qed.

Definition simple_steps : nat := Z.to_nat 700000.

Lemma ex_simple_fuel : simple_fuel 3 4 3 <= Z.of_nat simple_steps.
Proof. vm_compute. discriminate. Qed.

Lemma ex_spread : spread_within 3 ex_mus ex_oms 190.
Proof. apply (spread_of_costs 3 ex_mus ex_oms 95), ex_costs. Qed.

(** ** MinCost *)
(** a cycle with negative cost through 0, 1, 2 and an expensive way back *)
Definition ex_arcs : list (InputEdge Z) :=
  [mkIn 0 1 (-3) 128; mkIn 1 2 1 320; mkIn 2 0 1 64; mkIn 1 0 4 320].

Lemma ex_arcs_wf : arcs_wf 3 ex_arcs 4.
Proof. intros a Ha. unfold ex_arcs in Ha. cbn [In] in Ha. destruct Ha as [<-|[<-|[<-|[<-|[]]]]]; cbn; lia. Qed.

Lemma ex_arcs_covered : costs_covered ex_arcs.
Proof.
  intros a Ha _ Hn. exists (mkIn 1 0 4 320). split; [unfold ex_arcs; simpl; auto|].
  unfold ex_arcs in Ha. cbn [In] in Ha. destruct Ha as [<-|[<-|[<-|[<-|[]]]]]; cbn in *; lia.
Qed.

Lemma ex_arcs_run : @cs_min_cost Z (exact_ops 64) simple_steps 3 ex_arcs = Ok (true, 64).
Proof. vm_compute. reflexivity. Qed.

(** one arc of cost -1000: the only circulation is zero, but Refine gives up *)
Definition bad_arcs : list (InputEdge Z) := [mkIn 0 1 (-1000) 1].

Lemma bad_arcs_wf : arcs_wf 2 bad_arcs 1000.
Proof. intros a [<-|[]]. cbn. lia. Qed.

Lemma bad_arcs_least : least_cost 2 bad_arcs 0.
Proof.
  split.
  - exists (fun _ => 0). split; [|reflexivity]. split.
    + intros [|k] Hk; cbn in *; lia.
    + intros [|[|v]] Hv; [reflexivity|reflexivity|lia].
  - intros y [_ H]. assert (H0 := H 0%nat ltac:(lia)). cbn in *. lia.
Qed.

Lemma bad_arcs_refute : exists one N A K s fuel, 0 < one /\ 1 <= K <= INT_MAX /\ arcs_wf N A K /\
  (2 ^ Z.of_nat s | one) /\ 2 * K * Z.of_nat N <= 2 ^ Z.of_nat s /\ scaling_fuel N (length A) K <= Z.of_nat fuel /\
  least_cost N A 0 /\ @cs_min_cost Z (exact_ops one) fuel N A = Ok (false, 0).
Proof.
  exists 4096, 2%nat, bad_arcs, 1000, 12%nat, (Z.to_nat 4000).
  split; [lia|]. split; [unfold INT_MAX; lia|]. split; [exact bad_arcs_wf|].
  split; [exists 1; reflexivity|]. split; [vm_compute; discriminate|]. split; [vm_compute; discriminate|].
  split; [exact bad_arcs_least|vm_compute; reflexivity].
Qed.

(** ** A spread above 10^9: mu_1 - mu_2 = 1 is not <= 0, but mu_3 is expensive *)
Definition big_mus : list (MuLimit Z) :=
  [mkMu 0 0 (lin 0); mkMu 1 1 (lin 0); mkMu 0 0 (lin 0); mkMu 0 3 (lin 51200000000)].
Definition big_oms : list (OmegaLimit Z) := [mkOm 0 0 (lin 0) 1 2].

Lemma big_admissible : admissible 3 big_mus big_oms 3.
Proof.
  split; [|split].
  - split; [reflexivity|]. split.
    + intros i m Hi E. destruct i as [|[|[|[|i]]]]; try lia; cbn [big_mus nth_error] in E; injection E as <-;
        unfold mu_wf; cbn [m_l m_u m_fn]; (split; [lia|]); apply lin_wf.
    + intros o [<-|[]]. om_wf_tac.
  - split.
    + intros i m Hi E. destruct i as [|[|[|[|i]]]]; try lia; cbn [big_mus nth_error] in E; injection E as <-; cbn [m_l m_u]; lia.
    + intros o [<-|[]]. cbn; lia.
  - unfold int_fits, INT_MAX. lia.
Qed.

Lemma big_spread : spread_within 3 big_mus big_oms (2400000000 * 64).
Proof.
  exists (fun i => if Nat.eqb i 3 then 2400000000 * 64 else 0), (fun _ => 0). split; [|split].
  - intros i m x y Hi E Hx Hy. destruct i as [|[|[|[|i]]]]; try lia; cbn [big_mus nth_error] in E; injection E as <-;
      cbn [m_l m_u m_fn Nat.eqb] in *; unfold cost, lin; lia.
  - intros k o x y E _ _. destruct k as [|[|k]]; try discriminate. injection E as <-. unfold cost, lin. cbn [o_fn]. lia.
  - vm_compute. discriminate.
Qed.

Lemma big_infeasible : infeasible 3 big_mus big_oms.
Proof.
  intros mu om [H1 H2]. destruct (H1 1%nat ltac:(lia)) as (a & Ea & Ba). destruct (H1 2%nat ltac:(lia)) as (b & Eb & Bb).
  cbn in Ea, Eb. injection Ea as <-. injection Eb as <-. cbn in Ba, Bb.
  assert (H := H2 0%nat _ eq_refl). cbn in H. lia.
Qed.

Lemma big_refute : exists one n mus oms K S s fuel v, 0 < one /\ admissible n mus oms K /\ spread_within n mus oms S /\
  (2 ^ Z.of_nat s | one) /\ 4 * K * Z.of_nat (n + 1) <= 2 ^ Z.of_nat s /\ simple_fuel n (length oms) K <= Z.of_nat fuel /\
  infeasible n mus oms /\ @run_solver Z (exact_ops one) fuel (Z.of_nat n) mus oms = Ok None /\
  @simple_solve Z (exact_ops one) fuel n mus oms = Ok (Some v).
Proof.
  exists 64, 3%nat, big_mus, big_oms, 3, (2400000000 * 64), 6%nat, simple_steps, (1000000000 * 64).
  split; [lia|]. split; [exact big_admissible|]. split; [exact big_spread|]. split; [exists 1; reflexivity|].
  split; [vm_compute; discriminate|]. split; [vm_compute; discriminate|]. split; [exact big_infeasible|].
  split; vm_compute; reflexivity.
Qed.
