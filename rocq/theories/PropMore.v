(** * Properties C57-C59: certificates, nearby problems, cost of the tree lookups;
    the end of the run of C55 *)
From Coq Require Import Floats.SpecFloat.
From Verif Require Import Base Data LCT LCTSpec LCTRun LCTLinear ProblemDefine Flow ProblemSolver.
From Verif Require Import Spec FlowOpt SolverNet SolverProof CertSpec SolverCert ExampleData.
From Verif Require Import FloatSpec FloatEndless FloatOverflow.
Local Open Scope Z_scope.

(** C57: nullopt exactly when some limits around a cycle contradict each other. *)
Theorem C57_nullopt_iff_negative_cycle :
  forall (one : Z) (n : nat) (mus : list (MuLimit Z)) (oms : list (OmegaLimit Z)) (K : Z) (fuel : nat),
    0 < one ->
    admissible n mus oms K ->
    solver_fuel n (length oms) K <= Z.of_nat fuel ->
    (@run_solver Z (exact_ops one) fuel (Z.of_nat n) mus oms = Ok None <-> negative_cycle n mus oms).
Proof. exact (fun one n mus oms K fuel H => nullopt_cycle one H n mus oms K fuel). Qed.
Print Assumptions C57_nullopt_iff_negative_cycle.

Example C57_example : admissible 3 ex_mus cyc_oms 3 /\ walk 3 ex_mus cyc_oms 1 1 (-3) /\
  admissible 3 ex_mus ex_oms 3 /\ ~ negative_cycle 3 ex_mus ex_oms.
Proof.
  split; [exact cyc_admissible|]. split; [|split; [exact ex_admissible|]].
  - change (-3) with (-1 + (-1 + (-1 + 0))).
    apply (walk_step _ _ _ 1 2), (walk_step _ _ _ 2 3), (walk_step _ _ _ 3 1), walk_stay.
    all: match goal with |- link _ _ _ ?a ?b _ => apply (link_omega 3 ex_mus cyc_oms (mkOm (-3) (-1) absf a b)); cbn; auto end.
  - intro H. apply (nullopt_cycle 1 eq_refl 3 ex_mus ex_oms 3 ex_steps ex_admissible ex_fuel) in H.
    revert H. vm_compute. discriminate.
Qed.

(** C58: changing costs by at most so much changes the answer by at most the sum. *)
Theorem C58_nearby_problems :
  forall (one : Z) (n : nat) (mus mus' : list (MuLimit Z)) (oms oms' : list (OmegaLimit Z)) (K : Z) (dm dk : nat -> Z) (fuel : nat),
    0 < one ->
    admissible n mus oms K -> admissible n mus' oms' K ->
    nearby n mus mus' oms oms' dm dk ->
    solver_fuel n (length oms) K <= Z.of_nat fuel ->
    exists r r',
      @run_solver Z (exact_ops one) fuel (Z.of_nat n) mus oms = Ok r /\
      @run_solver Z (exact_ops one) fuel (Z.of_nat n) mus' oms' = Ok r' /\
      ((r = None /\ r' = None) \/
       exists v v', r = Some v /\ r' = Some v' /\ Z.abs (v' - v) <= total_change n (length oms) dm dk).
Proof. exact (fun one n mus mus' oms oms' K dm dk fuel H => solve_nearby one H n mus mus' oms oms' K dm dk fuel). Qed.
Print Assumptions C58_nearby_problems.

(** one unit on the cost of limit 1; the bound is reached *)
Example C58_example :
  nearby 3 ex_mus near_mus ex_oms ex_oms (fun i => if Nat.eqb i 1 then 1 else 0) (fun _ => 0) /\
  total_change 3 4 (fun i => if Nat.eqb i 1 then 1 else 0) (fun _ => 0) = 1 /\
  @run_solver Z (exact_ops 1) ex_steps 3 ex_mus ex_oms = Ok (Some 2) /\
  @run_solver Z (exact_ops 1) ex_steps 3 near_mus ex_oms = Ok (Some 3).
Proof.
  split; [|repeat split; vm_compute; reflexivity]. split; [reflexivity|]. split.
  - intros i m m' Hi E E'. destruct i as [|[|[|[|i]]]]; try lia; cbn in E, E'; injection E as <-; injection E' as <-; cbn [m_l m_u m_fn Nat.eqb];
      (split; [reflexivity|]); (split; [reflexivity|]); intros x _; [|rewrite Z.sub_diag; reflexivity|rewrite Z.sub_diag; reflexivity].
    unfold cost, sq. rewrite Z.add_simpl_l. reflexivity.
  - intros k o o' E E'. rewrite E in E'. injection E' as <-. repeat (split; [reflexivity|]). intros x _. rewrite Z.sub_diag. reflexivity.
Qed.

(** C59: find_root and get_min_wtrbnr are not amortised logarithmic: after 2n + 1
    permitted calls each of them walks n + 1 nodes and leaves the tree as it was,
    so every further call costs the same.  [k] bounds the iterations of each
    loop. *)
Theorem C59_lookup_linear :
  forall (one : Z) (N n : nat),
    (0 < n < N)%nat ->
    exists os outs f h, length os = S (2 * n) /\ lct_run N forest0 os f outs /\
      (forall fuel, (n < fuel)%nat -> lct_calls one fuel (repeat (@node0 Z (exact_ops one)) N) os = Ok (h, outs)) /\
      (forall k, (k <= n)%nat -> @find_root Z (exact_ops one) k h n = Err OutOfFuel /\
                                 @get_min_wtrbnr Z (exact_ops one) k h n = Err OutOfFuel) /\
      (forall k, (n < k)%nat -> @find_root Z (exact_ops one) k h n = Ok (h, 0%nat) /\
                                @get_min_wtrbnr Z (exact_ops one) k h n = Ok (h, (0, Some 1%nat))) /\
      (forall fuel m, (n < fuel)%nat -> lct_calls one fuel h (repeat (FindRoot n) m) = Ok (h, repeat (ONode 0) m)).
Proof. exact chain_linear. Qed.
Print Assumptions C59_lookup_linear.

Example C59_example : chain_ops 2 = [FindRoot 0; SetFa 1 0; FindRoot 1; SetFa 2 1; FindRoot 2] /\
  match lct_calls 1 10 (repeat (@node0 Z (exact_ops 1)) 9) (chain_ops 8) with
  | Ok (h, _) => @find_root Z (exact_ops 1) 8 h 8 = Err OutOfFuel /\ @find_root Z (exact_ops 1) 9 h 8 = Ok (h, 0%nat)
  | Err _ => False
  end.
Proof. vm_compute. auto. Qed.

(** C55: the problem with double costs on which solve() returns no value: the run
    ends in an int overflow, which is undefined behaviour. *)
Theorem C55_doubles_overflow :
  exists (k : Z) (n : nat) (musf : list (MuLimit spec_float)) (omsf : list (OmegaLimit spec_float))
         (mus : list (MuLimit Z)) (oms : list (OmegaLimit Z)) (K v : Z),
    problem_is k musf omsf mus oms /\ admissible n mus oms K /\ optimum n mus oms v /\
    forall fuel, 6000000000 <= Z.of_nat fuel ->
      @run_solver spec_float f64_ops fuel (Z.of_nat n) musf omsf = Err IntOverflow.
Proof. exact tenths_refute_overflow. Qed.
Print Assumptions C55_doubles_overflow.

(** its problem: x1 in 0..1, x2 in 0..2, two nodes and no omega limit *)
Example C55_overflow_example : problem_is 55 tenths_mus [] tenths_exact [] /\
  map (fun m => (m_l m, m_u m)) tenths_mus = [(0, 0); (0, 1); (0, 2)].
Proof. split; [exact tenths_problem|reflexivity]. Qed.
