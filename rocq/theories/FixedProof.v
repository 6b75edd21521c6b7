(** * The fixed tests pass, and what they compute is right *)
From Coq Require Import Floats.SpecFloat.
From Verif Require Import Base BaseLemmas Data ProblemDefine ProblemSolver Oracles CostScaling Generator TestSuite FixedTests FuelMono.
From Verif Require Import Spec FloatSpec Decide.
Local Open Scope Z_scope.

(** ** The tests *)
Notation exact_test := (fixed_test Z).
Definition exact_tests : list exact_test := @int_tests Z (exact_ops 1).

Lemma exact_tests_ok : forallb (fun t => problem_okb (x_n t) (x_mus t) (x_oms t) 20) exact_tests = true.
Proof. vm_compute. reflexivity. Qed.

Lemma exact_tests_admissible t : In t exact_tests -> admissible (x_n t) (x_mus t) (x_oms t) 20.
Proof. intro H. apply problem_okb_ok. assert (X := exact_tests_ok). rewrite forallb_forall in X. apply X, H. Qed.

Definition fixed_steps : nat := 1000.

Lemma later_done {A} (m1 m2 : res A) a : later m1 m2 -> m1 = Ok a -> m2 = Ok a.
Proof. intros [->|H] E; congruence. Qed.

Definition is_done (r : res unit) : bool := match r with Ok _ => true | Err _ => false end.

Lemma fixed_tests_done : forallb (fun t => is_done (@run_fixed_test _ f64_ops fixed_steps t)) fixed_tests = true.
Proof. vm_compute. reflexivity. Qed.

Lemma run_fixed_test_later {D} {ops : DataOps D} f1 f2 t : (f1 <= f2)%nat -> later (run_fixed_test f1 t) (run_fixed_test f2 t).
Proof.
  intro H. assert (H1 := @run_solver_later D ops f1 f2 H). assert (H2 := @bf_solve_later D ops f1 f2 H).
  unfold run_fixed_test, fixed_bf, fixed_fast. later_tac.
Qed.

Theorem fixed_test_passes t fuel : In t fixed_tests -> (fixed_steps <= fuel)%nat -> @run_fixed_test _ f64_ops fuel t = Ok tt.
Proof.
  intros H Hf. assert (X := fixed_tests_done). rewrite forallb_forall in X. specialize (X t H).
  apply (later_done _ _ tt (run_fixed_test_later _ _ t Hf)). destruct (run_fixed_test fixed_steps t) as [[]|]; [reflexivity|discriminate].
Qed.

(** the answers of the tests with int costs *)
Definition expected : list (option Z) := [Some 0; Some 1; Some (-3); Some 3; Some 6; Some 358; None; None; None; None].

Lemma exact_bf : forallb (fun p => same_answer (@fixed_bf _ (exact_ops 1) 100 (fst p)) (snd p)) (combine exact_tests expected) = true.
Proof. vm_compute. reflexivity. Qed.

Lemma fixed_problems : forallb (fun p : fixed_test spec_float * fixed_test Z => problem_isb 0 (x_mus (fst p)) (x_oms (fst p)) (x_mus (snd p)) (x_oms (snd p)))
  (combine (@int_tests _ f64_ops) exact_tests) = true.
Proof. vm_compute. reflexivity. Qed.

Lemma f64_fast : forallb (fun p => f64_answerb 0 (@fixed_fast _ f64_ops fixed_steps (fst p)) (snd p)) (combine (@int_tests _ f64_ops) expected) = true.
Proof. vm_compute. reflexivity. Qed.

Theorem fixed_answers i t tz e fuel : nth_error (@int_tests _ f64_ops) i = Some t -> nth_error (@int_tests _ (exact_ops 1)) i = Some tz ->
  nth_error expected i = Some e -> (fixed_steps <= fuel)%nat ->
  problem_is 0 (x_mus t) (x_oms t) (x_mus tz) (x_oms tz) /\
  admissible (x_n tz) (x_mus tz) (x_oms tz) 20 /\ solution (x_n tz) (x_mus tz) (x_oms tz) e /\ f64_answer 0 (@fixed_fast _ f64_ops fuel t) e.
Proof.
  intros E1 E2 E3 Hf. fold exact_tests in E2. split.
  { apply problem_isb_ok. assert (X := fixed_problems). rewrite forallb_forall in X. exact (X _ (combine_nth_error _ _ _ _ _ E1 E2)). }
  assert (HA := exact_tests_admissible tz (nth_error_In _ _ E2)). split; [exact HA|]. split.
  - assert (X := exact_bf). rewrite forallb_forall in X. specialize (X _ (combine_nth_error _ _ _ _ _ E2 E3)). apply same_answer_ok in X.
    refine (bf_decides 100 _ _ _ 20 e HA _ X). lia.
  - assert (X := f64_fast). rewrite forallb_forall in X. specialize (X _ (combine_nth_error _ _ _ _ _ E1 E3)). apply f64_answerb_ok in X. cbn [fst snd] in X.
    assert (L := @run_solver_later _ f64_ops fixed_steps fuel Hf (Z.of_nat (x_n t)) (x_mus t) (x_oms t)). fold (@fixed_fast _ f64_ops fixed_steps t) in L. fold (@fixed_fast _ f64_ops fuel t) in L.
    destruct e as [v|]; cbn [f64_answer] in *.
    + destruct X as (f & X & Hv). exists f. split; [|exact Hv]. eapply later_done; eauto.
    + eapply later_done; eauto.
Qed.
