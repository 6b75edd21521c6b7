(** * Doubles: a feasible problem answered with nullopt *)
From Coq Require Import Floats.SpecFloat.
From Verif Require Import Base Data ProblemDefine ProblemSolver Spec FloatSpec FloatEndless FuelMono ExampleData.
Local Open Scope Z_scope.

(** the callback [[](int) { return c; }] *)
Definition always {D} (c : D) : Fn D := fun _ => Ok c.

(** x1 and x2 in 0..3, costs 0.5 and 0.1 whatever their values *)
Definition const_mus : list (MuLimit spec_float) := [mkMu 0 0 no_fn; mkMu 0 3 (always (fdiv 1 2)); mkMu 0 3 (always (fdiv 1 10))].

(** in units of 2^-55 *)
Definition const_exact : list (MuLimit Z) := [mkMu 0 0 (lin 0); mkMu 0 3 (always 18014398509481984); mkMu 0 3 (always 3602879701896397)].

Lemma const_problem : problem_is 55 const_mus [] const_exact [].
Proof.
  split; [reflexivity|]. split; [|constructor]. intros i mf mz Hi Ef Ez.
  destruct i as [|[|[|i]]]; [lia| | |destruct i; discriminate]; cbn [const_mus const_exact nth_error] in Ef, Ez; injection Ef as <-; injection Ez as <-;
    (split; [reflexivity|]); (split; [reflexivity|]); cbn [m_l m_u m_fn]; intros x Hx; eexists; eexists; (split; [reflexivity|]); (split; [reflexivity|]);
    vm_compute; auto.
Qed.

Lemma always_wf c l u : defined_on (always c) l u /\ convex_on (cost (always c)) l u.
Proof. split; [intros x _; eexists; reflexivity|]. intros x _. unfold cost, always. lia. Qed.

Lemma const_admissible : admissible 2 const_exact [] 3.
Proof.
  split; [|split].
  - split; [reflexivity|]. split; [|intros o []].
    intros i m Hi E. destruct i as [|[|[|i]]]; try lia; cbn [const_exact nth_error] in E; injection E as <-;
      unfold mu_wf; cbn [m_l m_u m_fn]; (split; [lia|apply always_wf]).
  - split; [|intros o []].
    intros i m Hi E. destruct i as [|[|[|i]]]; try lia; cbn [const_exact nth_error] in E; injection E as <-; cbn [m_l m_u]; lia.
  - unfold int_fits, INT_MAX. lia.
Qed.

Lemma const_feasible : feasible 2 const_exact [] (fun _ => 0) (fun _ => 0).
Proof.
  split.
  - intros i Hi. destruct i as [|[|[|i]]]; try lia; eexists; (split; [reflexivity|]); cbn [m_l m_u]; lia.
  - intros [|k] o E; discriminate.
Qed.

Theorem const_null fuel : (500 <= fuel)%nat -> @run_solver spec_float f64_ops fuel 2 const_mus [] = Ok None.
Proof.
  intro H. assert (E : @run_solver spec_float f64_ops 500 2 const_mus [] = Ok None) by (vm_compute; reflexivity).
  destruct (@run_solver_later _ f64_ops 500 fuel H 2 const_mus []) as [X|X]; [congruence|]. rewrite <- X. exact E.
Qed.

Theorem null_feasible : exists k n musf omsf mus oms K mu om,
  problem_is k musf omsf mus oms /\ admissible n mus oms K /\ feasible n mus oms mu om /\
  forall fuel, (500 <= fuel)%nat -> @run_solver spec_float f64_ops fuel (Z.of_nat n) musf omsf = Ok None.
Proof.
  exists 55, 2%nat, const_mus, [], const_exact, [], 3, (fun _ => 0), (fun _ => 0).
  split; [exact const_problem|]. split; [exact const_admissible|]. split; [exact const_feasible|exact const_null].
Qed.

(** ** A cost that is infinite at the end of its range: 1, 0, +infinity *)
Definition inf_fn : Fn spec_float := fun x =>
  Ok (if x =? 0 then f64_of_Z 1 else if x =? 1 then f64_of_Z 0 else S754_infinity false).
Definition inf_mus : list (MuLimit spec_float) := [mkMu 0 0 no_fn; mkMu 0 2 inf_fn].

Theorem inf_nan : exists (f : Fn spec_float) (l u : Z),
  (forall y, l <= y <= u -> exists w, f y = Ok w /\ w <> S754_nan) /\
  (exists x, l <= x <= u /\ f x = Ok (f64_of_Z 0) /\ forall y w, l <= y <= u -> f y = Ok w -> SFleb (f64_of_Z 0) w = true) /\
  forall fuel, (500 <= fuel)%nat -> @run_solver spec_float f64_ops fuel 1 [mkMu 0 0 no_fn; mkMu l u f] [] = Ok (Some S754_nan).
Proof.
  exists inf_fn, 0, 2. split; [|split].
  - intros y Hy. eexists. split; [reflexivity|]. destruct (y =? 0); [discriminate|]. destruct (y =? 1); discriminate.
  - exists 1. split; [lia|]. split; [reflexivity|]. intros y w Hy E. unfold inf_fn in E. injection E as <-. destruct (y =? 0); [reflexivity|]. destruct (y =? 1); reflexivity.
  - intros fuel H. assert (E : @run_solver spec_float f64_ops 500 1 inf_mus [] = Ok (Some S754_nan)) by (vm_compute; reflexivity).
    destruct (@run_solver_later _ f64_ops 500 fuel H 1 inf_mus []) as [X|X]; [congruence|]. unfold inf_mus in X, E. rewrite <- X. exact E.
Qed.
