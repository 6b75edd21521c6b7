(** * The library on machine integers *)
From Verif Require Import Base BaseLemmas Data ProblemDefine ProblemSolver Sums Spec FlowOpt FlowSpec MachSpec.
From Verif Require Import Sim SolverChecked SolverSim SolverProof SolverSize SolverProps FloatRun ExampleData.
Local Open Scope Z_scope.

Definition RM (B z y : Z) : Prop := y = z /\ fits B z.

Lemma within_fits B z : within B z = true -> fits B z.
Proof. unfold within, fits. intros H. apply Z.leb_le in H. exact H. Qed.

Theorem run_solver_mach B ops (HO : machine_ops B ops) (HB : 0 <= B) fuel n mus oms mus' oms' :
  musR (RM B) mus mus' -> Forall2 (omR (RM B)) oms oms' ->
  sim (optR (RM B)) (@run_solver_chk Z (exact_ops 1) (within B) fuel n mus oms) (@run_solver Z ops fuel n mus' oms').
Proof.
  intros H1 H2. apply (@run_solver_sim Z Z (exact_ops 1) ops (within B) (RM B)); auto; unfold RM; cbn [dzero done dadd dsub dopp dmuli dhalf dlt dle deq exact_ops].
  - split; [apply (mach_zero _ _ HO)|unfold fits; lia].
  - intros H. split; [apply (mach_one _ _ HO)|apply within_fits; exact H].
  - intros a b a' b' [-> Ha] [-> Hb] H. apply within_fits in H. split; [apply (mach_add _ _ HO); auto|exact H].
  - intros a b a' b' [-> Ha] [-> Hb] H. apply within_fits in H. split; [apply (mach_sub _ _ HO); auto|exact H].
  - intros a b [-> Ha]. split; [apply (mach_opp _ _ HO); auto|unfold fits in *; lia].
  - intros a b w [-> Ha] Hw H. apply within_fits in H. split; [apply (mach_mul _ _ HO); auto|exact H].
  - intros a b [-> Ha] He. apply Z.eqb_eq in He. remember (Z.quot a 2) as h eqn:Eh. assert (E : a = 2 * h) by lia. clear Eh He. subst a.
    split; [apply (mach_half _ _ HO); exact Ha|unfold fits in *; lia].
  - intros a b a' b' [-> Ha] [-> Hb]. symmetry. apply (mach_lt _ _ HO); auto.
  - intros a b a' b' [-> Ha] [-> Hb]. symmetry. apply (mach_le _ _ HO); auto.
  - intros a b a' b' [-> Ha] [-> Hb]. symmetry. apply (mach_eq _ _ HO); auto.
Qed.

Lemma self_related B n mus oms A : well_formed n mus oms -> costs_within n mus oms A -> A <= B ->
  musR (RM B) mus mus /\ Forall2 (omR (RM B)) oms oms.
Proof.
  intros HW HA HB. destruct (costs_le n mus oms A HW HA) as (_ & C1 & C2). destruct HW as (Hlen & _ & _). split.
  - split; [auto|]. intros i m Hi Em. exists m. split; [exact Em|].
    assert (Hin : (i < length mus)%nat) by (apply nth_error_Some; congruence). assert (HC := C1 i m).
    destruct m as [l u fz]. cbn [m_l m_u m_fn] in *. constructor. intros x Hx z Ez. exists z. split; [exact Ez|]. split; [reflexivity|].
    assert (X := HC x ltac:(lia) Em Hx). rewrite (cost_of _ _ _ Ez) in X. unfold fits. lia.
  - clear Hlen C1 HA. induction oms as [|o oms IH]; constructor.
    + assert (HC := C2 o). destruct o as [l u fz i j]. cbn [o_l o_u o_fn o_i o_j] in *.
      constructor. intros x Hx z Ez. exists z. split; [exact Ez|]. split; [reflexivity|].
      assert (X := HC x ltac:(simpl; auto) Hx). rewrite (cost_of _ _ _ Ez) in X. unfold fits. lia.
    + apply IH. intros; apply C2; simpl; auto.
Qed.

Lemma machine_le B B' ops : B' <= B -> machine_ops B ops -> machine_ops B' ops.
Proof.
  intros H [o0 o1 oa os oo om oh ol oe oq]. assert (L : forall x, fits B' x -> fits B x) by (unfold fits; lia). constructor; intros; auto.
Qed.

Theorem machine_exact B ops n mus oms K A fuel :
  machine_ops B ops -> admissible n mus oms K -> costs_within n mus oms A ->
  run_bound n (length oms) K 1 A <= B -> solver_fuel n (length oms) K <= Z.of_nat fuel ->
  (exists v, @run_solver Z ops fuel (Z.of_nat n) mus oms = Ok (Some v) /\ optimum n mus oms v) \/
  (@run_solver Z ops fuel (Z.of_nat n) mus oms = Ok None /\ infeasible n mus oms).
Proof.
  intros HO (HW & HBd & HK & HI) HA HB Hf. assert (H1 : 0 < 1) by lia.
  destruct (costs_le n mus oms A HW HA) as (HA0 & _).
  assert (HAB := run_bound_ge n (length oms) K 1 A HK H1 HA0).
  destruct (self_related (run_bound n (length oms) K 1 A) n mus oms A HW HA HAB) as [HR1 HR2].
  destruct (run_solver_chk_ok 1 n mus oms K A fuel H1 HW HBd HK HI HA Hf) as (r & Er).
  destruct (run_solver_ok 1 n mus oms K fuel H1 HW HBd HK HI Hf) as (r' & Er' & Hs).
  rewrite (run_solver_chk_eq _ _ _ _ _ _ _ Er) in Er'. injection Er' as <-.
  assert (HO' : machine_ops (run_bound n (length oms) K 1 A) ops).
  { exact (machine_le _ _ ops HB HO). }
  destruct (run_solver_mach _ ops HO' ltac:(lia) fuel (Z.of_nat n) mus oms mus oms HR1 HR2 _ Er) as (rf & Ef & HRf).
  destruct r as [v|], rf as [f|]; cbn [optR] in HRf; try contradiction.
  - left. destruct HRf as [-> _]. exists v. split; [exact Ef|exact Hs].
  - right. split; [exact Ef|exact Hs].
Qed.

(** ** Two's complement *)
Lemma wrap_id w x : 1 <= w -> fits (2 ^ (w - 1) - 1) x -> wrap w x = x.
Proof.
  unfold wrap, fits. intros Hw Hx. assert (E : 2 ^ w = 2 * 2 ^ (w - 1)) by (rewrite <- Z.pow_succ_r by lia; f_equal; lia).
  rewrite Z.mod_small by lia. lia.
Qed.

Lemma wrap_machine w : 1 < w -> machine_ops (2 ^ (w - 1) - 1) (wrap_ops w).
Proof.
  intros Hw. constructor; cbn [dzero done dadd dsub dopp dmuli dhalf dlt dle deq wrap_ops]; intros; try reflexivity; try (apply wrap_id; [lia|]; solve [assumption|unfold fits in *; lia]).
  - rewrite (Z.mul_comm 2 a), Z.quot_mul by lia. apply wrap_id; [lia|]. unfold fits in *. lia.
Qed.

(** three variables in 0..1 with costs 10^9 * x: every cost and the optimum 0 are
    32-bit numbers *)
Definition steep : list (MuLimit Z) := mkMu 0 0 (lin 0) :: repeat (mkMu 0 1 (lin (10 ^ 9))) 3.

Lemma steep_mu i m : (1 <= i <= 3)%nat -> nth_error steep i = Some m -> m = mkMu 0 1 (lin (10 ^ 9)).
Proof. intros Hi E. destruct i as [|[|[|[|i]]]]; try lia; cbn in E; injection E as <-; reflexivity. Qed.

Lemma steep_admissible : admissible 3 steep [] 1.
Proof.
  split; [|split].
  - split; [reflexivity|]. split; [|intros o []]. intros i m Hi E. rewrite (steep_mu i m Hi E). unfold mu_wf. cbn [m_l m_u m_fn]. split; [lia|apply lin_wf].
  - split; [|intros o []]. intros i m Hi E. rewrite (steep_mu i m Hi E). cbn [m_l m_u]. lia.
  - unfold int_fits, INT_MAX. lia.
Qed.

Lemma machine_wrong : exists n mus oms K fuel,
  admissible n mus oms K /\ solver_fuel n (length oms) K <= Z.of_nat fuel /\ optimum n mus oms 0 /\
  (forall i m x, (1 <= i <= n)%nat -> nth_error mus i = Some m -> m_l m <= x <= m_u m -> fits (2 ^ 31 - 1) (cost (m_fn m) x)) /\ oms = [] /\
  @run_solver Z (wrap_ops 32) fuel (Z.of_nat n) mus oms = Ok None.
Proof.
  assert (F : solver_fuel 3 (@length (OmegaLimit Z) []) 1 <= Z.of_nat ex_steps) by (vm_compute; discriminate).
  exists 3%nat, steep, [], 1, ex_steps. split; [exact steep_admissible|]. split; [exact F|]. split; [|split; [|split; [reflexivity|]]].
  - apply (solve_optimum 1 ltac:(lia) 3 steep [] 1 ex_steps 0 steep_admissible F). vm_compute. reflexivity.
  - intros i m x Hi E Hx. rewrite (steep_mu i m Hi E) in *. cbn [m_l m_u m_fn] in *. unfold fits, cost, lin. lia.
  - vm_compute. reflexivity.
Qed.
