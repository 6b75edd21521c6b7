(** * Optimal values move in one direction *)
From Verif Require Import Base BaseLemmas Data ProblemDefine Sums Spec FracSpec SpecLemmas SolverProof SolverProps ProblemSolver Convex FlowOpt LatticeProof Client ClientProof MonotoneSpec ExampleData.
Local Open Scope Z_scope.

Lemma steps_less F G a b : (forall x, a <= x < b -> G (x + 1) - G x <= F (x + 1) - F x) -> a <= b -> G b - G a <= F b - F a.
Proof.
  intros H Hab. assert (X : forall k : nat, a + Z.of_nat k <= b -> G (a + Z.of_nat k) - G a <= F (a + Z.of_nat k) - F a).
  { induction k as [|k IH]; intro Hk; [rewrite Z.add_0_r; lia|].
    assert (Y := H (a + Z.of_nat k) ltac:(lia)). assert (IH' := IH ltac:(lia)).
    replace (a + Z.of_nat (S k)) with (a + Z.of_nat k + 1) by lia. lia. }
  specialize (X (Z.to_nat (b - a)) ltac:(lia)). replace (a + Z.of_nat (Z.to_nat (b - a))) with b in X by lia. exact X.
Qed.

Section Two.
Variables (n : nat) (mus mus' : list (MuLimit Z)) (oms : list (OmegaLimit Z)).
Hypothesis HW : well_formed n mus oms.
Hypothesis HD : drawn_up n mus mus'.

Lemma submodular_two mu om mu' om' : feasible n mus oms mu om -> feasible n mus' oms mu' om' ->
  exists c d, feasible n mus' oms (fun i => Z.max (mu i) (mu' i)) c /\ feasible n mus oms (fun i => Z.min (mu i) (mu' i)) d /\
    total_cost n mus' oms (fun i => Z.max (mu i) (mu' i)) c + total_cost n mus oms (fun i => Z.min (mu i) (mu' i)) d <=
    total_cost n mus oms mu om + total_cost n mus' oms mu' om'.
Proof.
  intros [A1 A2] [B1 B2]. destruct HW as (HL & HM & HO).
  destruct (choose_omegas (fun k c d => forall o, nth_error oms k = Some o -> o_l o <= c <= o_u o /\ o_l o <= d <= o_u o /\
    Z.max (mu (o_i o)) (mu' (o_i o)) - Z.max (mu (o_j o)) (mu' (o_j o)) <= c /\ Z.min (mu (o_i o)) (mu' (o_i o)) - Z.min (mu (o_j o)) (mu' (o_j o)) <= d /\
    cost (o_fn o) c + cost (o_fn o) d <= cost (o_fn o) (om k) + cost (o_fn o) (om' k)) (length oms)) as (c & d & HCD).
  { intros k Hk. destruct (nth_error oms k) as [o|] eqn:E; [|apply nth_error_None in E; lia].
    destruct (A2 k o E) as [Ha Da]. destruct (B2 k o E) as [Hb Db].
    destruct (split_omega n o _ _ _ _ _ _ (HO o (nth_error_In _ _ E)) Ha Hb Da Db) as (x & y & HX). exists x, y. intros o' Eo. injection Eo as <-. exact HX. }
  exists c, d. assert (X : forall k o, nth_error oms k = Some o -> (k < length oms)%nat) by (intros k o E; apply nth_error_Some; congruence).
  split; [|split].
  - split.
    + intros i Hi. destruct (A1 i Hi) as (m & Em & Hm). destruct (B1 i Hi) as (m' & Em' & Hm'). destruct (HD i m m' Hi Em Em') as (D1 & D2 & _). exists m'. split; [exact Em'|lia].
    + intros k o E. destruct (HCD k (X k o E) o E) as (H1 & H2 & H3 & H4 & H5). split; assumption.
  - split.
    + intros i Hi. destruct (A1 i Hi) as (m & Em & Hm). destruct (B1 i Hi) as (m' & Em' & Hm'). destruct (HD i m m' Hi Em Em') as (D1 & D2 & _). exists m. split; [exact Em|lia].
    + intros k o E. destruct (HCD k (X k o E) o E) as (H1 & H2 & H3 & H4 & H5). split; assumption.
  - unfold total_cost. rewrite !sumZ_zsum.
    assert (P1 : zsum (seq 1 n) (mu_cost mus' (fun i => Z.max (mu i) (mu' i))) + zsum (seq 1 n) (mu_cost mus (fun i => Z.min (mu i) (mu' i))) <=
                 zsum (seq 1 n) (mu_cost mus mu) + zsum (seq 1 n) (mu_cost mus' mu')).
    { rewrite <- !zsum_add. apply zsum_le. intros i Hi. apply in_seq in Hi. unfold mu_cost.
      destruct (A1 i ltac:(lia)) as (m & Em & Hm). destruct (B1 i ltac:(lia)) as (m' & Em' & Hm'). destruct (HD i m m' ltac:(lia) Em Em') as (D1 & D2 & D3). rewrite Em, Em'.
      destruct (Z.le_ge_cases (mu i) (mu' i)) as [Hle|Hge]; [rewrite Z.max_r, Z.min_l by lia; lia|rewrite Z.max_l, Z.min_r by lia].
      assert (Y := steps_less (cost (m_fn m)) (cost (m_fn m')) (mu' i) (mu i) ltac:(intros x Hx; apply D3; lia) Hge). lia. }
    assert (P2 : zsum (seq 0 (length oms)) (om_cost oms c) + zsum (seq 0 (length oms)) (om_cost oms d) <=
                 zsum (seq 0 (length oms)) (om_cost oms om) + zsum (seq 0 (length oms)) (om_cost oms om')).
    { rewrite <- !zsum_add. apply zsum_le. intros k Hk. apply in_seq in Hk. unfold om_cost. destruct (nth_error oms k) as [o|] eqn:E; [|lia].
      destruct (HCD k ltac:(lia) o E) as (_ & _ & _ & _ & H5). exact H5. }
    lia.
Qed.

Lemma optima_two v v' mu mu' : optimum n mus oms v -> optimum n mus' oms v' -> solves n mus oms v mu -> solves n mus' oms v' mu' ->
  solves n mus oms v (fun i => Z.min (mu i) (mu' i)) /\ solves n mus' oms v' (fun i => Z.max (mu i) (mu' i)).
Proof.
  intros [_ HV] [_ HV'] (om & F & E) (om' & F' & E'). destruct (submodular_two mu om mu' om' F F') as (c & d & Fc & Fd & Hle).
  assert (Vc := HV' _ _ Fc). assert (Vd := HV _ _ Fd). split; [exists d|exists c]; (split; [assumption|lia]).
Qed.
End Two.

Theorem run_two one n mus mus' oms K fuel v v' : 0 < one -> admissible n mus oms K -> admissible n mus' oms K ->
  solver_fuel n (length oms) K <= Z.of_nat fuel -> drawn_up n mus mus' ->
  @run_solver Z (exact_ops one) fuel (Z.of_nat n) mus oms = Ok (Some v) ->
  @run_solver Z (exact_ops one) fuel (Z.of_nat n) mus' oms = Ok (Some v') ->
  forall mu mu', solves n mus oms v mu -> solves n mus' oms v' mu' ->
  solves n mus oms v (fun i => Z.min (mu i) (mu' i)) /\ solves n mus' oms v' (fun i => Z.max (mu i) (mu' i)).
Proof.
  intros H1 HA HA' HF HD E E' mu mu' S S'.
  destruct (solve_solution one H1 n mus oms K fuel HA HF) as (r & Er & Hr). rewrite E in Er. injection Er as <-.
  destruct (solve_solution one H1 n mus' oms K fuel HA' HF) as (r' & Er' & Hr'). rewrite E' in Er'. injection Er' as <-.
  exact (optima_two n mus mus' oms (proj1 HA) HD v v' mu mu' Hr Hr' S S').
Qed.

Theorem find_two one n mus mus' oms K fuel k v v' xs xs' : 0 < one -> admissible n mus oms K -> admissible n mus' oms K ->
  solver_fuel n (length oms) K <= Z.of_nat fuel -> 2 * K < 2 ^ Z.of_nat k -> drawn_up n mus mus' ->
  @find_solution (exact_ops one) (S k) fuel n mus oms = Ok (Some (v, xs)) ->
  @find_solution (exact_ops one) (S k) fuel n mus' oms = Ok (Some (v', xs')) ->
  forall i, (1 <= i <= n)%nat -> values xs i <= values xs' i.
Proof.
  intros H1 HA HA' HF HK HD E E' i Hi.
  destruct (find_ok one n mus oms K fuel k H1 HA HF HK) as (r & Er & Hr). rewrite E in Er. injection Er as <-. destruct Hr as (_ & O & S & L).
  destruct (find_ok one n mus' oms K fuel k H1 HA' HF HK) as (r & Er & Hr). rewrite E' in Er. injection Er as <-. destruct Hr as (_ & O' & S' & L').
  destruct (optima_two n mus mus' oms (proj1 HA) HD v v' _ _ O O' S S') as [X _].
  assert (Y := L _ X i Hi). cbv beta in Y. lia.
Qed.

(** ** Example *)
Definition up_mus : list (MuLimit Z) :=
  [mkMu 1 0 (fun _ => Err BadCall); mkMu (-1) 2 (sq 2 2); mkMu (-1) 3 (sq 3 3); mkMu 0 3 (sq 1 3)].

Lemma up_admissible : admissible 3 up_mus ex_oms 3.
Proof.
  destruct ex_admissible as ((_ & _ & HO) & (_ & HB) & HI).
  assert (X : forall i m, (1 <= i <= 3)%nat -> nth_error up_mus i = Some m -> mu_wf m /\ - 3 <= m_l m /\ m_u m <= 3).
  { intros i m Hi E. destruct i as [|[|[|[|i]]]]; try lia; cbn [up_mus nth_error] in E; injection E as <-; unfold mu_wf; cbn [m_l m_u m_fn]; (split; [|lia]; split; [lia|apply sq_wf; lia]). }
  split; [|split; [|exact HI]].
  - split; [reflexivity|]. split; [intros i m Hi E; apply (X i m Hi E)|exact HO].
  - split; [intros i m Hi E; apply (X i m Hi E)|exact HB].
Qed.
