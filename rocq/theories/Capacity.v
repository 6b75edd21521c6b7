(** * How large an int has to be for [ProblemSolver::solve] *)
From Verif Require Import Base BaseLemmas Data ProblemDefine Flow ProblemSolver.
From Verif Require Import Spec FlowSpec FlowOpt FlowStates SolverProof FuelMono ExampleData.
Local Open Scope Z_scope.

Theorem solve_capacity (one : Z) n mus oms B K U fuel :
  0 < one -> well_formed n mus oms -> bounded_by n mus oms B -> 0 <= B -> 3 * B <= INT_MAX ->
  near n mus oms K U -> flow_fits n K U -> flow_iterations n (length oms + n) K <= Z.of_nat fuel ->
  (exists v, @run_solver Z (exact_ops one) fuel (Z.of_nat n) mus oms = Ok (Some v) /\ optimum n mus oms v) \/
  (@run_solver Z (exact_ops one) fuel (Z.of_nat n) mus oms = Ok None /\ infeasible n mus oms).
Proof.
  intros H1 HW HB HB0 HB3 HN HF Hfuel. rewrite flow_iterations_eq in Hfuel.
  destruct (run_solver_gen one n mus oms B K U fuel H1 HW HB HB0 HB3 HN HF Hfuel) as ([v|] & E & S); [left; exists v|right]; auto.
Qed.

Theorem solve_documented (one : Z) n mus oms U fuel :
  0 < one -> well_formed n mus oms -> 0 <= U ->
  6 * Z.of_nat (n + 1) * bit_ceil (Z.of_nat (n + 1) * U) <= INT_MAX ->
  (forall i m, (1 <= i <= n)%nat -> nth_error mus i = Some m -> m_l m <= 0 <= m_u m /\ m_u m - m_l m <= U) ->
  (forall o a b, In o oms -> nth_error mus (o_i o) = Some a -> nth_error mus (o_j o) = Some b ->
     0 <= o_u o /\ o_u o - (m_l a - m_u b) <= U /\ - INT_MAX <= 3 * o_l o) ->
  flow_iterations n (length oms + n) (Z.max 1 U) <= Z.of_nat fuel ->
  (exists v, @run_solver Z (exact_ops one) fuel (Z.of_nat n) mus oms = Ok (Some v) /\ optimum n mus oms v) \/
  (@run_solver Z (exact_ops one) fuel (Z.of_nat n) mus oms = Ok None /\ infeasible n mus oms).
Proof.
  intros H1 HW HU HD HM HO Hfuel. pose proof HW as (Hlen & Hmu & Hom).
  destruct (bit_ceil_ge (Z.of_nat (n + 1) * U)) as [B1 B2]. set (b := bit_ceil (Z.of_nat (n + 1) * U)) in *.
  assert (HN1 : 1 <= Z.of_nat (n + 1)) by lia. assert (HUb : U <= b) by nia. assert (Hb : 6 * b <= INT_MAX) by nia.
  assert (HO' : forall o, In o oms -> exists a b, nth_error mus (o_i o) = Some a /\ nth_error mus (o_j o) = Some b /\ m_l a - m_u b <= 0).
  { intros o Ho. destruct (Hom o Ho) as (_ & _ & _ & W4 & W5 & _).
    destruct (nth_error mus (o_i o)) as [x|] eqn:Ex; [|apply nth_error_None in Ex; lia].
    destruct (nth_error mus (o_j o)) as [y|] eqn:Ey; [|apply nth_error_None in Ey; lia].
    assert (A := HM _ _ W4 Ex). assert (C := HM _ _ W5 Ey). exists x, y. repeat split; lia. }
  apply (solve_capacity one n mus oms 715827882 (Z.max 1 U) U fuel); auto.
  - split.
    + intros i m Hi Em. assert (A := HM i m Hi Em). unfold INT_MAX in *. lia.
    + intros o Ho. destruct (HO' o Ho) as (x & y & Ex & Ey & L). assert (A := HO o x y Ho Ex Ey). unfold INT_MAX in *. lia.
  - unfold INT_MAX; lia.
  - unfold INT_MAX; lia.
  - split.
    + intros i m Hi Em. assert (A := HM i m Hi Em). lia.
    + intros o x y Ho Ex Ey. destruct (HO' o Ho) as (x' & y' & Ex' & Ey' & L). assert (x' = x) by congruence. assert (y' = y) by congruence. subst.
      assert (A := HO o x y Ho Ex Ey). lia.
  - unfold flow_fits. split; [lia|]. split; [lia|]. split; [unfold INT_MAX in *; lia|]. split; [unfold INT_MAX in *; nia|]. split; [nia|].
    intros HU0. rewrite Z.max_r by lia. fold b. nia.
Qed.

(** one variable between 700000000 and 767108864, no cost, no omega limit *)
Definition distant_mus : list (MuLimit Z) := [mkMu 0 0 (lin 0); mkMu 700000000 767108864 (lin 0)].

Theorem distant_overflows : exists n mus U,
  well_formed n mus [] /\ bounded_by n mus [] 767108864 /\
  (forall i m, (1 <= i <= n)%nat -> nth_error mus i = Some m -> m_u m - m_l m <= U) /\
  6 * Z.of_nat (n + 1) * bit_ceil (Z.of_nat (n + 1) * U) <= INT_MAX /\
  optimum n mus [] 0 /\
  forall fuel, (1000 <= fuel)%nat -> @run_solver Z (exact_ops 1) fuel (Z.of_nat n) mus [] = Err IntOverflow.
Proof.
  exists 1%nat, distant_mus, (2 ^ 26).
  split; [|split; [|split; [|split; [|split]]]].
  - split; [reflexivity|]. split; [|intros o []]. intros i m Hi E. destruct i as [|[|i]]; try lia. cbn [distant_mus nth_error] in E. injection E as <-.
    unfold mu_wf. cbn [m_l m_u m_fn]. split; [lia|]. split; apply lin_wf.
  - split; [|intros o []]. intros i m Hi E. destruct i as [|[|i]]; try lia. cbn [distant_mus nth_error] in E. injection E as <-. cbn [m_l m_u]. lia.
  - intros i m Hi E. destruct i as [|[|i]]; try lia. cbn [distant_mus nth_error] in E. injection E as <-. cbn [m_l m_u]. lia.
  - vm_compute. discriminate.
  - split.
    + exists (fun _ => 700000000), (fun _ => 0). split; [split|].
      * intros i Hi. destruct i as [|[|i]]; try lia. eexists. split; [reflexivity|]. cbn [m_l m_u]. lia.
      * intros [|k] o E; discriminate.
      * reflexivity.
    + intros mu om _. unfold total_cost, distant_mus. simpl. unfold mu_cost, cost, lin. simpl. lia.
  - intros fuel Hf. assert (E : @run_solver Z (exact_ops 1) (Z.to_nat 1000) 1 distant_mus [] = Err IntOverflow) by (vm_compute; reflexivity).
    change (1000%nat) with (Z.to_nat 1000) in Hf.
    destruct (@run_solver_later _ (exact_ops 1) (Z.to_nat 1000) fuel Hf 1 distant_mus []) as [X|X]; [congruence|]. change (Z.of_nat 1) with 1. rewrite <- X. exact E.
Qed.

(** a problem inside the documented capacity for which [int_fits] fails *)
Definition wide_mus : list (MuLimit Z) := [mkMu 0 0 (lin 0); mkMu (-10000000) 12000000 (sq 1 12345); mkMu (-10000000) 0 (lin (-7))].
Definition wide_oms : list (OmegaLimit Z) := [mkOm 0 1000 (lin 3) 1 2].

Lemma wide_near : well_formed 2 wide_mus wide_oms /\ 6 * Z.of_nat (2 + 1) * bit_ceil (Z.of_nat (2 + 1) * 22000000) <= INT_MAX /\
  (forall i m, (1 <= i <= 2)%nat -> nth_error wide_mus i = Some m -> m_l m <= 0 <= m_u m /\ m_u m - m_l m <= 22000000) /\
  (forall o a b, In o wide_oms -> nth_error wide_mus (o_i o) = Some a -> nth_error wide_mus (o_j o) = Some b ->
     0 <= o_u o /\ o_u o - (m_l a - m_u b) <= 22000000 /\ - INT_MAX <= 3 * o_l o) /\
  near 2 wide_mus wide_oms 12000000 22000000 /\ flow_fits 2 12000000 22000000.
Proof.
  split; [|split; [vm_compute; discriminate|split; [|split; [|split]]]].
  - split; [reflexivity|]. split.
    + intros i m Hi E. destruct i as [|[|[|i]]]; try lia; cbn [wide_mus nth_error] in E; injection E as <-; unfold mu_wf; cbn [m_l m_u m_fn];
        (split; [lia|]); split; (apply sq_wf; lia) || apply lin_wf.
    + intros o [<-|[]]. unfold om_wf. cbn [o_l o_u o_fn o_i o_j]. repeat split; try lia; apply lin_wf.
  - intros i m Hi E. destruct i as [|[|[|i]]]; try lia; cbn [wide_mus nth_error] in E; injection E as <-; cbn [m_l m_u]; lia.
  - intros o a b [<-|[]] Ea Eb. cbn in Ea, Eb. injection Ea as <-. injection Eb as <-. cbn [m_l m_u o_u o_l]. unfold INT_MAX. lia.
  - split.
    + intros i m Hi E. destruct i as [|[|[|i]]]; try lia; cbn [wide_mus nth_error] in E; injection E as <-; cbn [m_l m_u]; lia.
    + intros o a b [<-|[]] Ea Eb. cbn in Ea, Eb. injection Ea as <-. injection Eb as <-. cbn [m_l m_u o_u o_l]. lia.
  - unfold flow_fits, INT_MAX. repeat split; try lia. intros _. vm_compute. discriminate.
Qed.
