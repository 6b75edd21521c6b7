(** * Property C93: how min_cost() uses the link-cut tree *)
From Verif Require Import Base Data LCT LCTSpec LCTRun LCTTime LCTAmortRun ProblemDefine Flow ProblemSolver Spec FlowSpec SolverProof.
From Verif Require Import FlowLog CallSpec CallTotal ExampleData.
Local Open Scope Z_scope.

(** C93: all calls of methods of the link-cut tree made by min_cost() form a permitted
    program in which every linked node is accessed right after the link.  Replayed
    alone, this program leads from the nodes of the new solver to its final nodes.
    Its length is polynomial, and it makes at most 91 log2 (n + 1) + 14 turns of
    splaying per call. *)
Theorem C93_min_cost_calls :
  forall (one : Z) (fuel n : nat) (M K U : Z) (limits : list (OmegaLimit Z)),
    network_wf n M K U limits ->
    flow_iterations n (length limits) K <= Z.of_nat fuel ->
    exists s s' v os outs f c r,
      @flow_new Z (exact_ops one) fuel n M U limits = Ok s /\
      min_cost_l one fuel s = Ok ((s', v), os) /\
      @min_cost Z (exact_ops one) fuel s = Ok (s', v) /\
      lct_run (n + 1) forest0 os f outs /\ eager os /\
      lct_calls one fuel (f_nodes s) os = Ok (f_nodes s', outs) /\
      lct_calls_s one fuel (f_nodes s) os = Ok (f_nodes s', outs, c) /\
      (r = 0%nat \/ 2 ^ Z.of_nat r < 4 * Z.of_nat (n + 1) * U) /\
      Z.of_nat (length os) <= min_cost_calls n (length limits) K U r /\
      Z.of_nat c <= min_cost_calls n (length limits) K U r * splay_turns (n + 1).
Proof. exact total_calls. Qed.
Print Assumptions C93_min_cost_calls.

(** the same inside solve() *)
Theorem C93_solve_calls :
  forall (one : Z) (n : nat) (mus : list (MuLimit Z)) (oms : list (OmegaLimit Z)) (K : Z) (fuel : nat)
         (sv : solver Z) (limits : list (OmegaLimit Z)),
    0 < one -> admissible n mus oms K -> solver_fuel n (length oms) K <= Z.of_nat fuel ->
    @solver_new Z (exact_ops one) fuel (Z.of_nat n) mus oms = Ok sv -> s_n sv <> SIZE_MAX ->
    @merge_limits Z (exact_ops one) sv = Ok (Some limits) ->
    exists vmax M U s s' v os outs f c r,
      @calc Z (exact_ops one) fuel limits = Ok (vmax, M, U) /\
      @flow_new Z (exact_ops one) fuel n M U limits = Ok s /\
      min_cost_l one fuel s = Ok ((s', v), os) /\
      @min_cost Z (exact_ops one) fuel s = Ok (s', v) /\
      lct_run (n + 1) forest0 os f outs /\ eager os /\
      lct_calls one fuel (f_nodes s) os = Ok (f_nodes s', outs) /\
      lct_calls_s one fuel (f_nodes s) os = Ok (f_nodes s', outs, c) /\
      (length limits <= length oms + n)%nat /\
      (r = 0%nat \/ 2 ^ Z.of_nat r < 4 * Z.of_nat (n + 1) * U) /\ U <= 3 * K /\
      Z.of_nat (length os) <= min_cost_calls n (length limits) (2 * K) U r /\
      Z.of_nat c <= min_cost_calls n (length limits) (2 * K) U r * splay_turns (n + 1).
Proof. exact solve_calls. Qed.
Print Assumptions C93_solve_calls.

(** 140 calls, 568 turns of splaying *)
Example C93_example :
  network_wf 2 20 2 3 ex_limits /\ flow_iterations 2 4 2 <= Z.of_nat ex_steps /\
  match @flow_new Z (exact_ops 1) ex_steps 2 20 3 ex_limits with
  | Ok s =>
      match min_cost_l 1 ex_steps s with
      | Ok (s', v, os) =>
          v = 8 /\ length os = 140%nat /\
          firstn 8 os = [SetVal 1 23; SetFa 1 0; FindRoot 1; GetMin 1; AddPath 1 (-1); Cut 1; GetVal 1; SetVal 0 1] /\
          match lct_calls_s 1 ex_steps (f_nodes s) os with
          | Ok (h, outs, c) => h = f_nodes s' /\ c = 568%nat
          | Err _ => False
          end
      | Err _ => False
      end
  | Err _ => False
  end.
Proof. split; [exact ex_network_wf|]. split; [exact ex_flow_fuel|]. vm_compute. auto 10. Qed.
