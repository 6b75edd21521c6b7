(** * Property C76: how many turns all loops make *)
From Verif Require Import Base Data LCT LCTSpec LCTRun LCTLinear ProblemDefine Flow ProblemSolver Spec FlowSpec SolverProof.
From Verif Require Import LCTTime LCTCount FlowTime TimeSpec TimeTotal SolverTime SolverCount ExampleData.
Local Open Scope Z_scope.

(** C76: every permitted program of calls of a link-cut tree with N nodes makes at
    most 8N + 3 loop turns per call. *)
Theorem C76_tree_program :
  forall (one : Z) (N fuel : nat) (os : list lct_op) (f : forest) (outs : list lct_out),
    (N < fuel)%nat -> lct_run N forest0 os f outs ->
    exists h c, lct_calls_t one fuel (repeat (@node0 Z (exact_ops one)) N) os = Ok (h, outs, c) /\
      lct_calls one fuel (repeat (@node0 Z (exact_ops one)) N) os = Ok (h, outs) /\
      (c <= length os * (8 * N + 3))%nat.
Proof. exact lct_program_time. Qed.
Print Assumptions C76_tree_program.

(** no single call after such a program makes more *)
Theorem C76_tree_call :
  forall (one : Z) (N fuel : nat) (os : list lct_op) (f : forest) (outs : list lct_out) (h : heap Z)
         (op : lct_op) (f' : forest) (o : lct_out),
    (N < fuel)%nat -> lct_run N forest0 os f outs ->
    lct_calls one fuel (repeat (@node0 Z (exact_ops one)) N) os = Ok (h, outs) ->
    lct_step N f op f' o ->
    exists h' c, lct_call_t one fuel h op = Ok (h', o, c) /\ lct_call one fuel h op = Ok (h', o) /\ (c <= 8 * N + 3)%nat.
Proof. exact lct_next_call_time. Qed.
Print Assumptions C76_tree_call.

(** 8 links of 9 nodes in a row, then a lookup from the other end *)
Example C76_tree_example :
  (exists f, lct_run 9 forest0 (chain_ops 8) f (chain_outs 8)) /\
  match lct_calls_t 1 10 (repeat (@node0 Z (exact_ops 1)) 9) (chain_ops 8) with
  | Ok (h, _, c) => c = 146%nat /\ length (chain_ops 8) = 17%nat /\
                    match lct_call_t 1 10 h (FindRoot 0) with Ok (_, o, c) => c = 18%nat /\ o = ONode 0 | Err _ => False end
  | Err _ => False
  end.
Proof.
  split; [destruct (chain_run 9 8) as (f & HR & _); [lia|]; exists f; exact HR|]. vm_compute. auto.
Qed.

(** C76: constructing a ProblemSolver and solving makes a number of turns of all
    loops that is polynomial in n, the number of omega limits and K. *)
Theorem C76_run_turns :
  forall (one : Z) (n : nat) (mus : list (MuLimit Z)) (oms : list (OmegaLimit Z)) (K : Z) (fuel : nat),
    0 < one -> admissible n mus oms K -> solver_fuel n (length oms) K <= Z.of_nat fuel ->
    exists v t, @run_solver_t Z (exact_ops one) fuel (Z.of_nat n) mus oms = Ok (v, t) /\
      @run_solver Z (exact_ops one) fuel (Z.of_nat n) mus oms = Ok v /\
      Z.of_nat t <= solver_turns n (length oms) K.
Proof. exact run_solver_time. Qed.
Print Assumptions C76_run_turns.

Example C76_run_example :
  admissible 3 ex_mus ex_oms 3 /\ solver_fuel 3 (length ex_oms) 3 <= Z.of_nat ex_steps /\
  match @run_solver_t Z (exact_ops 1) ex_steps 3 ex_mus ex_oms with
  | Ok (v, t) => v = Some 2 /\ Z.of_nat t = 1184
  | Err _ => False
  end /\ solver_turns 3 4 3 = 4156148.
Proof. split; [exact ex_admissible|]. split; [exact ex_fuel|]. vm_compute. auto. Qed.

(** C76: min_cost() ends after a number of turns of all its loops, those of the
    link-cut tree and of the final searches included, that is polynomial in n, m,
    log U and K / U. *)
Theorem C76_min_cost_turns :
  forall (one : Z) (fuel n : nat) (M K U : Z) (limits : list (OmegaLimit Z)),
    network_wf n M K U limits ->
    flow_iterations n (length limits) K <= Z.of_nat fuel ->
    exists s s' v t r,
      @flow_new Z (exact_ops one) fuel n M U limits = Ok s /\
      @min_cost_t Z (exact_ops one) fuel s = Ok ((s', v), t) /\
      @min_cost Z (exact_ops one) fuel s = Ok (s', v) /\
      (r = 0%nat \/ 2 ^ Z.of_nat r < 4 * Z.of_nat (n + 1) * U) /\
      Z.of_nat t <= min_cost_turns n (length limits) K U r.
Proof. exact total_turns. Qed.
Print Assumptions C76_min_cost_turns.

(** the same inside solve() *)
Theorem C76_solve_turns :
  forall (one : Z) (n : nat) (mus : list (MuLimit Z)) (oms : list (OmegaLimit Z)) (K : Z) (fuel : nat)
         (sv : solver Z) (limits : list (OmegaLimit Z)),
    0 < one -> admissible n mus oms K -> solver_fuel n (length oms) K <= Z.of_nat fuel ->
    @solver_new Z (exact_ops one) fuel (Z.of_nat n) mus oms = Ok sv -> s_n sv <> SIZE_MAX ->
    @merge_limits Z (exact_ops one) sv = Ok (Some limits) ->
    exists vmax M U s s' v t r,
      @calc Z (exact_ops one) fuel limits = Ok (vmax, M, U) /\
      @flow_new Z (exact_ops one) fuel n M U limits = Ok s /\
      @min_cost_t Z (exact_ops one) fuel s = Ok ((s', v), t) /\
      @min_cost Z (exact_ops one) fuel s = Ok (s', v) /\
      (length limits <= length oms + n)%nat /\
      (r = 0%nat \/ 2 ^ Z.of_nat r < 4 * Z.of_nat (n + 1) * U) /\ U <= 3 * K /\
      Z.of_nat t <= min_cost_turns n (length limits) (2 * K) U r.
Proof. exact solve_turns. Qed.
Print Assumptions C76_solve_turns.

Example C76_flow_example :
  network_wf 2 20 2 3 ex_limits /\ flow_iterations 2 4 2 <= Z.of_nat ex_steps /\
  match @flow_new Z (exact_ops 1) ex_steps 2 20 3 ex_limits with
  | Ok s => match @min_cost_t Z (exact_ops 1) ex_steps s with Ok (_, v, t) => v = 8 /\ Z.of_nat t = 973 | Err _ => False end
  | Err _ => False
  end.
Proof. split; [exact ex_network_wf|]. split; [exact ex_flow_fuel|]. vm_compute. auto. Qed.
