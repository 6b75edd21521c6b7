(** * Properties C60-C65: work of the solver, printing, convexity, ordinary and
    infinite double costs; depth of the recursion in the tree lookups (C59) *)
From Coq Require Import Strings.String Strings.Ascii Floats.SpecFloat.
From Verif Require Import Base Data LCT LCTSpec LCTRun LCTLinear ProblemDefine Flow ProblemSolver.
From Verif Require Import Spec FlowSpec WorkSpec FlowTotal FlowFar SolverProof WorkSolve StepsTotal NonConvex Printing PrintProof ExampleData.
From Verif Require Import WrappedDouble FloatSpec FloatEndless FloatNull.
Local Open Scope Z_scope.

(** C59: the recursion of find_root and the other lookups is not logarithmic
    either: after 2n + 1 permitted calls push_down_from_root calls itself n + 1
    times.  [k] bounds the depth of the recursion. *)
Theorem C59_recursion_depth :
  forall (one : Z) (N n : nat),
    (0 < n < N)%nat ->
    exists os outs f h, length os = S (2 * n) /\ lct_run N forest0 os f outs /\
      (forall fuel, (n < fuel)%nat -> lct_calls one fuel (repeat (@node0 Z (exact_ops one)) N) os = Ok (h, outs)) /\
      (forall k, (k <= n)%nat -> @push_down_from_root Z (exact_ops one) k h 0 = Err OutOfFuel /\
                                 @find_root Z (exact_ops one) k h 0 = Err OutOfFuel) /\
      (forall k, (n < k)%nat -> @push_down_from_root Z (exact_ops one) k h 0 = Ok h).
Proof. exact chain_depth. Qed.
Print Assumptions C59_recursion_depth.

Example C59_depth_example :
  match lct_calls 1 10 (repeat (@node0 Z (exact_ops 1)) 9) (chain_ops 8) with
  | Ok (h, _) => @push_down_from_root Z (exact_ops 1) 8 h 0 = Err OutOfFuel /\ @push_down_from_root Z (exact_ops 1) 9 h 0 = Ok h
  | Err _ => False
  end.
Proof. vm_compute. auto. Qed.

(** C60: if no limit is further from 0 than the widest range is wide, min_cost()
    does r < 2 + log2((n + 1) U) rounds, each with at most 
    [round_iterations n m] iterations of the loop of refine(). *)
Theorem C60_total_work :
  forall (one : Z) (fuel n : nat) (M K U : Z) (limits : list (OmegaLimit Z)),
    network_wf n M K U limits ->
    flow_iterations n (length limits) K <= Z.of_nat fuel ->
    K <= U ->
    exists s s' r,
      @flow_new Z (exact_ops one) fuel n M U limits = Ok s /\
      2 ^ Z.of_nat r < 4 * Z.of_nat (n + 1) * U /\
      @phases_run (exact_ops one) fuel (repeat (Z.to_nat (round_iterations n (length limits))) r) s s' /\
      @scaling_loop Z (exact_ops one) fuel fuel s = Ok s'.
Proof. exact total_work. Qed.
Print Assumptions C60_total_work.

Example C60_example : network_wf 2 20 2 3 ex_limits /\ flow_iterations 2 4 2 <= Z.of_nat ex_steps /\ round_iterations 2 4 = 277.
Proof. split; [exact ex_network_wf|]. split; [exact ex_flow_fuel|reflexivity]. Qed.

(** C60 with no condition on the limits: only the first round depends on how far
    they are from 0, and it does so linearly, through K / U. *)
Theorem C60_total_work_far :
  forall (one : Z) (fuel n : nat) (M K U : Z) (limits : list (OmegaLimit Z)),
    network_wf n M K U limits ->
    flow_iterations n (length limits) K <= Z.of_nat fuel ->
    exists s s' r,
      @flow_new Z (exact_ops one) fuel n M U limits = Ok s /\
      (r = 0%nat \/ 2 ^ Z.of_nat r < 4 * Z.of_nat (n + 1) * U) /\
      @phases_run (exact_ops one) fuel
        (firstn r (Z.to_nat (phase_iterations n (length limits) (2 * K) U + 1) ::
                   repeat (Z.to_nat (round_iterations n (length limits))) r)) s s' /\
      @scaling_loop Z (exact_ops one) fuel fuel s = Ok s'.
Proof. exact total_work_far. Qed.
Print Assumptions C60_total_work_far.

(** the network of C63: its first round takes between 2 L - 1 and 28 L + 53 iterations *)
Example C60_far_example : network_wf 1 1 101 1 (far_limit 100) /\
  phase_iterations 1 1 (2 * 101) 1 + 1 = 28 * 100 + 53 /\
  firstn 2 (Z.to_nat (28 * 100 + 53) :: repeat (Z.to_nat (round_iterations 1 1)) 2) = [2853%nat; 53%nat].
Proof. split; [exact (far_wf 1 eq_refl 100 ltac:(lia))|]. split; reflexivity. Qed.

(** C60 for solve(): whenever it gets as far as the flow solver. *)
Theorem C60_solve_work :
  forall (one : Z) (n : nat) (mus : list (MuLimit Z)) (oms : list (OmegaLimit Z)) (K : Z) (fuel : nat) (sv : solver Z) (limits : list (OmegaLimit Z)),
    0 < one -> admissible n mus oms K -> solver_fuel n (length oms) K <= Z.of_nat fuel ->
    @solver_new Z (exact_ops one) fuel (Z.of_nat n) mus oms = Ok sv -> s_n sv <> SIZE_MAX ->
    @merge_limits Z (exact_ops one) sv = Ok (Some limits) ->
    exists vmax M U s s' r,
      @calc Z (exact_ops one) fuel limits = Ok (vmax, M, U) /\
      @flow_new Z (exact_ops one) fuel n M U limits = Ok s /\
      @scaling_loop Z (exact_ops one) fuel fuel s = Ok s' /\
      (length limits <= length oms + n)%nat /\
      (r = 0%nat \/ 2 ^ Z.of_nat r < 4 * Z.of_nat (n + 1) * U) /\ U <= 3 * K /\
      @phases_run (exact_ops one) fuel
        (firstn r (Z.to_nat (phase_iterations n (length limits) (4 * K) U + 1) ::
                   repeat (Z.to_nat (round_iterations n (length limits))) r)) s s'.
Proof. exact solve_work. Qed.
Print Assumptions C60_solve_work.

Example C60_solve_example : admissible 3 ex_mus ex_oms 3 /\ solver_fuel 3 4 3 <= Z.of_nat ex_steps /\
  match @solver_new Z (exact_ops 1) ex_steps 3 ex_mus ex_oms with
  | Ok sv => s_n sv = 3 /\ match @merge_limits Z (exact_ops 1) sv with Ok (Some l) => length l = 5%nat | _ => False end
  | Err _ => False
  end.
Proof. split; [exact ex_admissible|]. split; [exact ex_fuel|]. vm_compute. auto. Qed.

(** C60 with the steps inside the iterations: the iterations of the loops of
    refine(), choice_operator(), send() and update_scaling() together. *)
Theorem C60_total_steps :
  forall (one : Z) (fuel n : nat) (M K U : Z) (limits : list (OmegaLimit Z)),
    network_wf n M K U limits ->
    flow_iterations n (length limits) K <= Z.of_nat fuel ->
    exists s s' r,
      @flow_new Z (exact_ops one) fuel n M U limits = Ok s /\
      (r = 0%nat \/ 2 ^ Z.of_nat r < 4 * Z.of_nat (n + 1) * U) /\
      @phases_steps (exact_ops one) fuel
        (firstn r (Z.to_nat (first_round_steps n (length limits) K U) ::
                   repeat (Z.to_nat (round_steps n (length limits))) r)) s s' /\
      @scaling_loop Z (exact_ops one) fuel fuel s = Ok s'.
Proof. exact total_steps. Qed.
Print Assumptions C60_total_steps.

(** what is counted are steps of the model: a loop that may take as many gives
    the same state *)
Theorem C60_steps_are_runs :
  forall (ops : DataOps Z) (fuel : nat) (ks : list nat) (s s' : flow Z),
    @phases_steps ops fuel ks s s' -> (forall k, In k ks -> (k <= fuel)%nat) ->
    forall k, (length ks <= k)%nat -> @scaling_loop Z ops fuel k s = Ok s'.
Proof. exact (@phases_steps_loop). Qed.
Print Assumptions C60_steps_are_runs.

Theorem C60_solve_steps :
  forall (one : Z) (n : nat) (mus : list (MuLimit Z)) (oms : list (OmegaLimit Z)) (K : Z) (fuel : nat) (sv : solver Z) (limits : list (OmegaLimit Z)),
    0 < one -> admissible n mus oms K -> solver_fuel n (length oms) K <= Z.of_nat fuel ->
    @solver_new Z (exact_ops one) fuel (Z.of_nat n) mus oms = Ok sv -> s_n sv <> SIZE_MAX ->
    @merge_limits Z (exact_ops one) sv = Ok (Some limits) ->
    exists vmax M U s s' r,
      @calc Z (exact_ops one) fuel limits = Ok (vmax, M, U) /\
      @flow_new Z (exact_ops one) fuel n M U limits = Ok s /\
      @scaling_loop Z (exact_ops one) fuel fuel s = Ok s' /\
      (length limits <= length oms + n)%nat /\
      (r = 0%nat \/ 2 ^ Z.of_nat r < 4 * Z.of_nat (n + 1) * U) /\ U <= 3 * K /\
      @phases_steps (exact_ops one) fuel
        (firstn r (Z.to_nat (first_round_steps n (length limits) (2 * K) U) ::
                   repeat (Z.to_nat (round_steps n (length limits))) r)) s s'.
Proof. exact solve_steps. Qed.
Print Assumptions C60_solve_steps.

(** the hypotheses of [C60_total_steps] and [C60_solve_steps] hold for the
    examples above *)
Example C60_steps_example : network_wf 2 20 2 3 ex_limits /\ flow_iterations 2 4 2 <= Z.of_nat ex_steps /\
  first_round_steps 2 4 2 3 = 855 /\ round_steps 2 4 = 1215.
Proof. split; [exact ex_network_wf|]. split; [exact ex_flow_fuel|]. vm_compute. auto. Qed.

(** C63: limits far from 0 cost time in proportion to the distance, however
    narrow the ranges are: one variable in {L, L + 1}, no cost, no omega limit. *)
Theorem C63_far_ranges_slow :
  forall (one L : Z),
    0 < one -> 1 <= L <= 19000000 ->
    admissible 1 (far_mus L) [] (L + 1) /\
    (forall fuel, Z.of_nat fuel < 2 * L - 1 -> @run_solver Z (exact_ops one) fuel 1 (far_mus L) [] = Err OutOfFuel) /\
    (forall fuel k s s1 s2,
       @flow_new Z (exact_ops one) fuel 1 one 1 (far_limit L) = Ok s ->
       @push_all_admissible_edge Z (exact_ops one) (initialization s) = Ok s1 ->
       @refine_loop Z (exact_ops one) fuel k s1 = Ok s2 ->
       2 * L - 1 <= Z.of_nat k).
Proof.
  exact (fun one L H HL => conj (far_admissible L HL) (conj (far_solve one H L HL) (far_flow one H L HL))).
Qed.
Print Assumptions C63_far_ranges_slow.

(** for the same range at 0, 6 iterations of every loop are enough; at 100, 198 are not *)
Example C63_example :
  map (fun m => (m_l m, m_u m)) (far_mus 100) = [(0, 0); (100, 101)] /\
  @run_solver Z (exact_ops 1) 6 1 (far_mus 0) [] = Ok (Some 0) /\
  @run_solver Z (exact_ops 1) 198 1 (far_mus 100) [] = Err OutOfFuel /\
  @run_solver Z (exact_ops 1) 300 1 (far_mus 100) [] = Ok (Some 0).
Proof. vm_compute. auto. Qed.

(** C61: what Graph::prettyPrint appends; without [info] it determines n, m and
    the numbers of all limits. *)
Theorem C61_print_appends :
  forall (D : Type) (info : list ascii) (n m : Z) (nodes : list (MuLimit D)) (edges : list (OmegaLimit D)) (out : list ascii),
    exists text, text <> [] /\ (info <> [] -> text = info) /\
      forall o, pretty_print info n m nodes edges (out ++ o) = out ++ o ++ text.
Proof. exact (@print_appends). Qed.
Print Assumptions C61_print_appends.

Theorem C61_print_determines :
  forall (D : Type) (n m n' m' : Z) (nodes nodes' : list (MuLimit D)) (edges edges' : list (OmegaLimit D)) (out : list ascii),
    pretty_print [] n m nodes edges out = pretty_print [] n' m' nodes' edges' out ->
    n = n' /\ m = m' /\
    map (fun x => (m_l x, m_u x)) nodes = map (fun x => (m_l x, m_u x)) nodes' /\
    map (fun x => (o_i x, o_j x, o_l x, o_u x)) edges = map (fun x => (o_i x, o_j x, o_l x, o_u x)) edges'.
Proof. exact (@print_determines). Qed.
Print Assumptions C61_print_determines.

Example C61_example :
  pretty_print [] 1 1 [mkMu (-3) 12 (lin 1)] [mkOm 0 7 absf 2 1] [] =
  list_ascii_of_string "{n: 1; {{l:-3,u:12,F:#},}; m: 1; {{i:2,j:1,l:0,u:7,B:#},}; }" /\
  pretty_print (list_ascii_of_string "seed 5") 1 1 [mkMu (-3) 12 (lin 1)] [] (list_ascii_of_string "test: ") = list_ascii_of_string "test: seed 5".
Proof. vm_compute. auto. Qed.

(** C62: without convexity solve() may return a number that is the cost of no
    choice of values, and one below the optimum; it reports no error. *)
Theorem C62_convexity_dropped_refuted :
  (exists n mus oms K v, admissible_but_convex n mus oms K /\
     @run_solver Z (exact_ops 1) (Z.to_nat 3000) (Z.of_nat n) mus oms = Ok (Some v) /\
     (exists w, optimum n mus oms w /\ w < v) /\
     forall mu om, feasible n mus oms mu om -> total_cost n mus oms mu om <> v) /\
  (exists n mus oms K v, admissible_but_convex n mus oms K /\
     @run_solver Z (exact_ops 1) (Z.to_nat 3000) (Z.of_nat n) mus oms = Ok (Some v) /\
     exists w, optimum n mus oms w /\ v < w).
Proof. exact convex_needed. Qed.
Print Assumptions C62_convexity_dropped_refuted.

Example C62_example : admissible_but_convex 1 hump_mus [] 2 /\ ~ convex_on (cost (table [0; 5; -3])) 0 2.
Proof. split; [exact hump_wf|]. intro H. specialize (H 1 ltac:(lia)). revert H. vm_compute. auto. Qed.

(** C64: with double costs solve() reports a feasible problem as infeasible. *)
Theorem C64_feasible_doubles_refuted :
  exists (k : Z) (n : nat) (musf : list (MuLimit spec_float)) (omsf : list (OmegaLimit spec_float))
         (mus : list (MuLimit Z)) (oms : list (OmegaLimit Z)) (K : Z) (mu om : nat -> Z),
    problem_is k musf omsf mus oms /\ admissible n mus oms K /\ feasible n mus oms mu om /\
    forall fuel, (500 <= fuel)%nat -> @run_solver spec_float f64_ops fuel (Z.of_nat n) musf omsf = Ok None.
Proof. exact null_feasible. Qed.
Print Assumptions C64_feasible_doubles_refuted.

(** its costs are the constants 0.5 and 0.1; WrappedDouble answers it *)
Example C64_example : problem_is 55 const_mus [] const_exact [] /\
    map (fun m => (m_l m, m_u m)) const_mus = [(0, 0); (0, 3); (0, 3)] /\
    map (fun m => m_fn m 0) const_mus = [Err BadCall; Ok (fdiv 1 2); Ok (fdiv 1 10)] /\
    exists v, @run_solver spec_float wd64_ops 500 2 const_mus [] = Ok (Some v).
Proof. split; [exact const_problem|]. split; [reflexivity|]. split; [reflexivity|]. eexists. vm_compute. reflexivity. Qed.

(** C65: a cost that is infinite somewhere in its range: solve() answers NaN
    although the least cost is 0. *)
Theorem C65_infinite_cost_refuted :
  exists (f : Fn spec_float) (l u : Z),
    (forall y, l <= y <= u -> exists w, f y = Ok w /\ w <> S754_nan) /\
    (exists x, l <= x <= u /\ f x = Ok (f64_of_Z 0) /\ forall y w, l <= y <= u -> f y = Ok w -> SFleb (f64_of_Z 0) w = true) /\
    forall fuel, (500 <= fuel)%nat -> @run_solver spec_float f64_ops fuel 1 [mkMu 0 0 no_fn; mkMu l u f] [] = Ok (Some S754_nan).
Proof. exact inf_nan. Qed.
Print Assumptions C65_infinite_cost_refuted.

Example C65_example : map inf_fn [0; 1; 2] = [Ok (f64_of_Z 1); Ok (f64_of_Z 0); Ok (S754_infinity false)].
Proof. reflexivity. Qed.
