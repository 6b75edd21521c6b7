(** * Fractional solutions; problems halfway; the set of optimal solutions *)
From Verif Require Import Base Data ProblemDefine ProblemSolver Spec FracSpec SolverProof ExampleData FracProof LatticeProof FracExamples.
Local Open Scope Z_scope.

(** C82: allowing fractional values (with costs continued linearly between the
    integers) changes neither feasibility nor the optimum, for any denominator. *)
Theorem C82_fractional :
  forall (one : Z) (n : nat) (mus : list (MuLimit Z)) (oms : list (OmegaLimit Z)) (K : Z) (fuel : nat) (q : Z),
    0 < one ->
    admissible n mus oms K ->
    solver_fuel n (length oms) K <= Z.of_nat fuel ->
    0 < q ->
    exists r, @run_solver Z (exact_ops one) fuel (Z.of_nat n) mus oms = Ok r /\ frac_solution q n mus oms r.
Proof. exact run_frac. Qed.
Print Assumptions C82_fractional.

(** the values 3/2, 1/2, 3/2 with omegas 1, -1, 1, 1 cost 18,
    more than the optimum 2 *)
Example C82_example :
  admissible 3 ex_mus ex_oms 3 /\ solver_fuel 3 (length ex_oms) 3 <= Z.of_nat ex_steps /\
  frac_feasible 2 3 ex_mus ex_oms (fun i => nth i [0; 3; 1; 3] 0) (fun k => nth k [2; -2; 2; 2] 0) /\
  frac_cost 2 3 ex_mus ex_oms (fun i => nth i [0; 3; 1; 3] 0) (fun k => nth k [2; -2; 2; 2] 0) = 2 * 18 /\
  @run_solver Z (exact_ops 1) ex_steps 3 ex_mus ex_oms = Ok (Some 2) /\
  admissible 3 ex_mus cyc_oms 3 /\ @run_solver Z (exact_ops 1) ex_steps 3 ex_mus cyc_oms = Ok None.
Proof.
  split; [exact ex_admissible|]. split; [vm_compute; discriminate|].
  split; [split|split; [vm_compute; reflexivity|split; [vm_compute; reflexivity|split; [exact cyc_admissible|vm_compute; reflexivity]]]].
  - intros i Hi. destruct i as [|[|[|[|i]]]]; try lia; cbn [ex_mus nth_error nth]; eexists; (split; [reflexivity|cbn [m_l m_u]; lia]).
  - intros [|[|[|[|k]]]] o E; cbn [ex_oms nth_error] in E; try (destruct k; discriminate); injection E as <-; cbn [o_l o_u o_i o_j nth]; lia.
Qed.

(** C83: the answer is a convex function of the bounds. *)
Theorem C83_halfway :
  forall (one : Z) (n : nat) (musa mus musb : list (MuLimit Z)) (omsa oms omsb : list (OmegaLimit Z)) (K : Z) (fuel : nat) (va vb : Z),
    0 < one ->
    admissible n musa omsa K ->
    admissible n mus oms K ->
    admissible n musb omsb K ->
    halfway n musa mus musb omsa oms omsb ->
    solver_fuel n (length oms) K <= Z.of_nat fuel ->
    @run_solver Z (exact_ops one) fuel (Z.of_nat n) musa omsa = Ok (Some va) ->
    @run_solver Z (exact_ops one) fuel (Z.of_nat n) musb omsb = Ok (Some vb) ->
    exists v, @run_solver Z (exact_ops one) fuel (Z.of_nat n) mus oms = Ok (Some v) /\ 2 * v <= va + vb.
Proof. exact halfway_answers. Qed.
Print Assumptions C83_halfway.

Example C83_example :
  admissible 2 (shifted 0 0) gap_om 6 /\ admissible 2 (shifted 2 1) gap_om 6 /\ admissible 2 (shifted 4 2) gap_om 6 /\
  halfway 2 (shifted 0 0) (shifted 2 1) (shifted 4 2) gap_om gap_om gap_om /\
  solver_fuel 2 1 6 <= Z.of_nat ex_steps /\
  map (fun p => @run_solver Z (exact_ops 1) ex_steps 2 (shifted (fst p) (snd p)) gap_om) [(0, 0); (2, 1); (4, 2)] =
    [Ok (Some 4); Ok (Some 5); Ok (Some 17)].
Proof.
  split; [apply shifted_admissible; lia|]. split; [apply shifted_admissible; lia|]. split; [apply shifted_admissible; lia|].
  split; [exact shifted_halfway|]. split; [vm_compute; discriminate|vm_compute; reflexivity].
Qed.

(** C84: the optimal solutions are closed under taking the larger and the smaller
    value of each variable *)
Theorem C84_lattice :
  forall (one : Z), 0 < one ->
  forall (n : nat) (mus : list (MuLimit Z)) (oms : list (OmegaLimit Z)) (K : Z) (fuel : nat) (v : Z),
    admissible n mus oms K ->
    solver_fuel n (length oms) K <= Z.of_nat fuel ->
    @run_solver Z (exact_ops one) fuel (Z.of_nat n) mus oms = Ok (Some v) ->
    forall mu mu', solves n mus oms v mu -> solves n mus oms v mu' ->
    solves n mus oms v (fun i => Z.max (mu i) (mu' i)) /\ solves n mus oms v (fun i => Z.min (mu i) (mu' i)).
Proof. exact run_lattice. Qed.
Print Assumptions C84_lattice.

(** there are a least and a greatest one *)
Theorem C84_extremes :
  forall (one : Z), 0 < one ->
  forall (n : nat) (mus : list (MuLimit Z)) (oms : list (OmegaLimit Z)) (K : Z) (fuel : nat) (v : Z),
    admissible n mus oms K ->
    solver_fuel n (length oms) K <= Z.of_nat fuel ->
    @run_solver Z (exact_ops one) fuel (Z.of_nat n) mus oms = Ok (Some v) ->
    exists lo hi, solves n mus oms v lo /\ solves n mus oms v hi /\
      forall mu, solves n mus oms v mu -> forall i, (1 <= i <= n)%nat -> lo i <= mu i <= hi i.
Proof. exact run_extremes. Qed.
Print Assumptions C84_extremes.

(** and calls with narrower limits find their values: the answer stays the same
    iff some optimal solution lies in the narrower range *)
Theorem C84_narrowed :
  forall (one : Z), 0 < one ->
  forall (n : nat) (mus : list (MuLimit Z)) (oms : list (OmegaLimit Z)) (K : Z) (fuel : nat) (v : Z),
    admissible n mus oms K ->
    solver_fuel n (length oms) K <= Z.of_nat fuel ->
    @run_solver Z (exact_ops one) fuel (Z.of_nat n) mus oms = Ok (Some v) ->
    forall (i : nat) (l u : Z), subrange mus i l u -> (1 <= i <= n)%nat ->
    (@run_solver Z (exact_ops one) fuel (Z.of_nat n) (narrowed mus i l u) oms = Ok (Some v) <->
     exists mu, solves n mus oms v mu /\ l <= mu i <= u).
Proof. exact narrowed_run. Qed.
Print Assumptions C84_narrowed.

Example C84_example :
  admissible 3 loose_mus loose_oms 2 /\ solver_fuel 3 1 2 <= Z.of_nat ex_steps /\
  @run_solver Z (exact_ops 1) ex_steps 3 loose_mus loose_oms = Ok (Some 0) /\
  solves 3 loose_mus loose_oms 0 (vals [0; 1; 1]) /\ solves 3 loose_mus loose_oms 0 (vals [1; 1; 0]) /\
  subrange loose_mus 1 1 2 /\ subrange loose_mus 1 2 2 /\
  @run_solver Z (exact_ops 1) ex_steps 3 (narrowed loose_mus 1 1 2) loose_oms = Ok (Some 0) /\
  @run_solver Z (exact_ops 1) ex_steps 3 (narrowed loose_mus 1 2 2) loose_oms = Ok (Some 1).
Proof.
  split; [exact loose_admissible|]. split; [vm_compute; discriminate|]. split; [vm_compute; reflexivity|].
  split; [apply loose_solves; lia|]. split; [apply loose_solves; lia|].
  split; [eexists; split; [reflexivity|cbn [m_l m_u]; lia]|]. split; [eexists; split; [reflexivity|cbn [m_l m_u]; lia]|].
  split; vm_compute; reflexivity.
Qed.
