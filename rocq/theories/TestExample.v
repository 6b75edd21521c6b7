(** * Examples and counterexamples for the tests on doubles *)
From Coq Require Import Floats.SpecFloat.
From Verif Require Import Base BaseLemmas Data ProblemDefine Flow ProblemSolver Oracles CostScaling Generator TestSuite FixedTests Spec FlowSpec FloatSpec ScaleSpec.
From Verif Require Import FloatExample ScaleExample ExampleData Decide SimpleProof FloatOracles.
Local Open Scope Z_scope.

(** ** MinCost *)
Definition dbl_arcs (k : Z) (A : list (InputEdge Z)) : list (InputEdge spec_float) :=
  map (fun a => mkIn (in_u a) (in_v a) (in_cost a) (dbl k (in_cap a))) A.

Lemma ex_arcs_dbl : Forall2 (arc_is 6) (dbl_arcs 6 ex_arcs) ex_arcs.
Proof. repeat constructor; apply dbl_is; lia. Qed.

(** 2^53 and 1 more *)
Definition wide_arcs : list (InputEdge Z) := [mkIn 0 1 (-1) (2 ^ 53); mkIn 1 0 0 (2 ^ 53); mkIn 0 1 (-1) 1; mkIn 1 0 0 1].

Lemma wide_arcs_wf : arcs_wf 2 wide_arcs 1.
Proof. intros a Ha. unfold wide_arcs in Ha. cbn [In] in Ha. destruct Ha as [<-|[<-|[<-|[<-|[]]]]]; cbn; lia. Qed.

Lemma wide_arcs_dbl : Forall2 (arc_is 0) (dbl_arcs 0 wide_arcs) wide_arcs.
Proof. repeat constructor. Qed.

Lemma wide_arcs_least : least_cost 2 wide_arcs (- (2 ^ 53 + 1)).
Proof.
  split.
  - exists (fun k => nth k [2 ^ 53; 2 ^ 53; 1; 1] 0). split; [|reflexivity]. split.
    + intros [|[|[|[|k]]]] Hk; cbn in *; lia.
    + intros [|[|v]] Hv; [reflexivity|reflexivity|lia].
  - intros y [H1 H2]. assert (A0 := H1 0%nat ltac:(cbn; lia)). assert (A2 := H1 2%nat ltac:(cbn; lia)). cbn in A0, A2 |- *. lia.
Qed.

Lemma wide_arcs_refute : exists k N AD A K fuel b f v,
  0 <= k <= 52 /\ (1 <= N)%nat /\ 1 <= K <= INT_MAX /\ arcs_wf N A K /\ Forall2 (arc_is k) AD A /\
  scaling_fuel N (length A) K <= Z.of_nat fuel /\ least_cost N A (- v) /\
  @cs_min_cost spec_float f64_ops fuel N AD = Ok (b, f) /\ ~ f64_is k f v.
Proof.
  exists 0, 2%nat, (dbl_arcs 0 wide_arcs), wide_arcs, 1, simple_steps, true, (S754_finite false 4503599627370496 1), (2 ^ 53 + 1).
  split; [lia|]. split; [lia|]. split; [unfold INT_MAX; lia|]. split; [exact wide_arcs_wf|]. split; [exact wide_arcs_dbl|].
  split; [vm_compute; discriminate|]. split; [exact wide_arcs_least|]. split; [vm_compute; reflexivity|].
  vm_compute. intros [_ H]. discriminate.
Qed.

(** ** SimpleSolver *)
Lemma ex_simple_sizes : simple_sizes 2 3 4 3 95.
Proof. split; vm_compute; reflexivity. Qed.

(** the callback [[](int x) { return c * x; }] with a double c *)
Definition slope (c : spec_float) : Fn spec_float := fun x => Ok (SFmul f64_prec f64_emax c (f64_of_Z x)).

(** 0.3 * x1 - 0.2 * x2, and 0.3 times the distance in both directions *)
Definition tilt_mus : list (MuLimit spec_float) := [no_node; mkMu 0 2 (slope (literal 3 10)); mkMu 0 2 (slope (literal (-2) 10))].
Definition tilt_oms : list (OmegaLimit spec_float) := [mkOm 0 1 (slope (literal 3 10)) 1 2; mkOm 0 1 (slope (literal 3 10)) 2 1].
Definition tilt_mus_exact : list (MuLimit Z) := [mkMu 0 0 (lin 0); mkMu 0 2 (lin 10808639105689190); mkMu 0 2 (lin (-7205759403792794))].
Definition tilt_oms_exact : list (OmegaLimit Z) := [mkOm 0 1 (lin 10808639105689190) 1 2; mkOm 0 1 (lin 10808639105689190) 2 1].

Lemma tilt_problem : problem_is 55 tilt_mus tilt_oms tilt_mus_exact tilt_oms_exact.
Proof. apply problem_isb_ok. vm_compute. reflexivity. Qed.

Lemma tilt_admissible : admissible 2 tilt_mus_exact tilt_oms_exact 2.
Proof. apply problem_okb_ok. vm_compute. reflexivity. Qed.

Lemma tilt_optimum : optimum 2 tilt_mus_exact tilt_oms_exact 0.
Proof. refine (bf_decides 100 _ _ _ 2 (Some 0) tilt_admissible _ _); [lia|vm_compute; reflexivity]. Qed.

Definition tilt_steps : nat := Z.to_nat 500000.

(** the answer -0.4 lies below the minimum 0 *)
Lemma tilt_refute : exists k n musf omsf mus oms K fuel f v w,
  problem_is k musf omsf mus oms /\ admissible n mus oms K /\ simple_fuel n (length oms) K <= Z.of_nat fuel /\ optimum n mus oms v /\
  @simple_solve spec_float f64_ops fuel n musf omsf = Ok (Some f) /\ f64_is k f w /\ w < v.
Proof.
  exists 55, 2%nat, tilt_mus, tilt_oms, tilt_mus_exact, tilt_oms_exact, 2, tilt_steps, (S754_finite true 7205759403792794 (-54)), 0, (-14411518807585588).
  split; [exact tilt_problem|]. split; [exact tilt_admissible|]. split; [vm_compute; discriminate|]. split; [exact tilt_optimum|].
  split; [vm_compute; reflexivity|]. split; [vm_compute; auto|lia].
Qed.
