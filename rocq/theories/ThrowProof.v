(** * Throwing costs that are convex where they do not throw *)
From Verif Require Import Base Data ProblemDefine Flow ProblemSolver Spec FlowSpec SolverProof SolverProps SolverSafe ExampleData ThrowSpec Throw.
Local Open Scope Z_scope.

Theorem throwing_answers one (n : nat) (mus mus' : list (MuLimit Z)) (oms oms' : list (OmegaLimit Z)) K fuel : 0 < one ->
  Forall2 mu_patched mus mus' -> Forall2 om_patched oms oms' -> admissible n mus' oms' K -> solver_fuel n (length oms) K <= Z.of_nat fuel ->
  @run_solver Z (exact_ops one) fuel (Z.of_nat n) mus oms = Err BadCall \/
  (exists v, @run_solver Z (exact_ops one) fuel (Z.of_nat n) mus oms = Ok (Some v) /\ optimum n mus' oms' v) \/
  (@run_solver Z (exact_ops one) fuel (Z.of_nat n) mus oms = Ok None /\ infeasible n mus' oms').
Proof.
  intros H1 HM HO HA HF. rewrite (forall2_len _ _ _ HO) in HF. destruct (@run_solver_thr Z (exact_ops one) fuel (Z.of_nat n) mus mus' oms oms' HM HO) as [E|E]; [auto|]. right.
  assert (N := solve_no_error one H1 n mus' oms' K fuel). assert (O := fun v => solve_optimum one H1 n mus' oms' K fuel v HA HF). assert (U := solve_nullopt one H1 n mus' oms' K fuel HA HF).
  rewrite E in N, O, U. destruct (run_solver fuel (Z.of_nat n) mus oms) as [[v|]|e].
  - left. exists v. auto.
  - right. split; [reflexivity|]. apply U. reflexivity.
  - exfalso. apply (N e HA HF). reflexivity.
Qed.

(** [f] with an exception at [p] *)
Definition thrown (p : Z) (f : Fn Z) : Fn Z := fun x => if x =? p then Err BadCall else f x.
(** one variable in [-8, 8] *)
Definition wide (f : Fn Z) : list (MuLimit Z) := [mkMu 1 0 (lin 0); mkMu (-8) 8 f].

Lemma wide_patched p : Forall2 mu_patched (wide (thrown p (sq 1 2))) (wide (sq 1 2)).
Proof.
  constructor; [split; [reflexivity|]; split; [reflexivity|]; intro; right; reflexivity|]. constructor; [|constructor].
  split; [reflexivity|]. split; [reflexivity|]. intro x. cbn [m_fn]. unfold thrown. destruct (x =? p); auto.
Qed.

Lemma wide_admissible : admissible 1 (wide (sq 1 2)) [] 8.
Proof.
  assert (X : forall i m, (1 <= i <= 1)%nat -> nth_error (wide (sq 1 2)) i = Some m -> mu_wf m /\ - 8 <= m_l m /\ m_u m <= 8).
  { intros i m Hi E. destruct i as [|[|i]]; try lia. cbn [wide nth_error] in E. injection E as <-.
    unfold mu_wf. cbn [m_l m_u m_fn]. split; [|lia]. split; [lia|apply sq_wf; lia]. }
  split; [|split].
  - split; [reflexivity|]. split; [intros i m Hi E; apply (X i m Hi E)|]. intros o [].
  - split; [intros i m Hi E; apply (X i m Hi E)|]. intros o [].
  - unfold int_fits, INT_MAX. lia.
Qed.
