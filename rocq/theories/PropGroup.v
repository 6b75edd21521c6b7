(** * Property C104: any ordered group as Data *)
From Coq Require Import QArith Qcanon.
From Verif Require Import Base Data ProblemDefine ProblemSolver Spec SolverProof GroupSpec GroupProof GroupInst GroupExample.
Local Open Scope Z_scope.

(** C104: solve() needs nothing from [Data] but the laws of a totally ordered abelian group,
    with a division by two that undoes x + x: for all such types it returns the optimum, or
    nullopt exactly if there is no solution, within the same number of steps. *)
Theorem C104_ordered_group :
  forall (G : Type) (ops : DataOps G), ordered_group ops ->
  forall (n : nat) (mus : list (MuLimit G)) (oms : list (OmegaLimit G)) (K : Z) (fuel : nat),
    gadmissible n mus oms K ->
    solver_fuel n (length oms) K <= Z.of_nat fuel ->
    (exists v, run_solver fuel (Z.of_nat n) mus oms = Ok (Some v) /\ goptimum n mus oms v) \/
    (run_solver fuel (Z.of_nat n) mus oms = Ok None /\ ginfeasible n mus oms).
Proof. exact @group_solve. Qed.
Print Assumptions C104_ordered_group.

(** So pairs of costs compared lexicographically may be used to minimize one cost and among
    the optimal solutions another one; each of the two has to be convex. *)
Theorem C104_lexicographic :
  forall (A B : Type) (opsA : DataOps A) (opsB : DataOps B), ordered_group opsA -> ordered_group opsB ->
  forall (n : nat) (mus : list (MuLimit (A * B))) (oms : list (OmegaLimit (A * B))) (K : Z) (fuel : nat),
    gadmissible n (map (on_mu fst) mus) (map (on_om fst) oms) K ->
    gadmissible n (map (on_mu snd) mus) (map (on_om snd) oms) K ->
    solver_fuel n (length oms) K <= Z.of_nat fuel ->
    (exists a b mu om, @run_solver (A * B) lex_ops fuel (Z.of_nat n) mus oms = Ok (Some (a, b)) /\
      goptimum n (map (on_mu fst) mus) (map (on_om fst) oms) a /\
      gfeasible n mus oms mu om /\
      gtotal_cost n (map (on_mu fst) mus) (map (on_om fst) oms) mu om = a /\ gtotal_cost n (map (on_mu snd) mus) (map (on_om snd) oms) mu om = b /\
      (forall mu om, gfeasible n mus oms mu om -> gtotal_cost n (map (on_mu fst) mus) (map (on_om fst) oms) mu om = a ->
        dle b (gtotal_cost n (map (on_mu snd) mus) (map (on_om snd) oms) mu om) = true)) \/
    (@run_solver (A * B) lex_ops fuel (Z.of_nat n) mus oms = Ok None /\ ginfeasible n mus oms).
Proof. exact @lex_solve. Qed.
Print Assumptions C104_lexicographic.

(** Integers and rational numbers are ordered groups, and so are pairs of ordered groups.  In the example
    mu_1 is to be at least 1 at first (cost 0 instead of 1); then mu_2 = 1 is cheapest, 1/3. *)
Example C104_example :
  (forall one, 0 < one -> ordered_group (exact_ops one)) /\ ordered_group rat_ops /\ (forall A B (opsA : DataOps A) (opsB : DataOps B), ordered_group opsA -> ordered_group opsB -> ordered_group (@lex_ops A B opsA opsB)) /\
  @gadmissible _ rat_ops 2 (map (on_mu fst) lx_mus) (map (on_om fst) lx_oms) 2 /\
  @gadmissible _ rat_ops 2 (map (on_mu snd) lx_mus) (map (on_om snd) lx_oms) 2 /\
  rat_run (fun v => [this (fst v); this (snd v)]) (@run_solver (Qc * Qc) (@lex_ops _ _ rat_ops rat_ops) lx_fuel 2 lx_mus lx_oms) = Ok (Some [0; 1 # 3]%Q) /\
  rat_run (fun v => [this v]) (@run_solver Qc rat_ops lx_fuel 2 (map (on_mu snd) lx_mus) (map (on_om snd) lx_oms)) = Ok (Some [0]%Q).
Proof.
  split; [exact int_group|]. split; [exact rat_group|]. split; [intros A B opsA opsB; exact lex_group|]. split; [apply lx_admissible; auto|]. split; [apply lx_admissible; auto|].
  split; vm_compute; reflexivity.
Qed.
