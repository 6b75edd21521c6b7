(** * Properties of [ProblemSolver(n, Mus, Omegas).solve()]

    [run_solver fuel n mus oms] is the constructor followed by [solve()].  [one]
    is the integer that represents [Data(1)]; costs are multiples of 1/[one].
    [Ok] means: no int overflow, no access outside an object, no null
    dereference, no failing assert, no empty queue, no call of a callback where
    it is undefined, and every loop finished within [fuel] iterations. *)
From Coq Require Import Sorting.Permutation.
From Verif Require Import Base Data ProblemDefine ProblemSolver Oracles Spec.
From Verif Require Import SolverProof SolverProps SolverSafe OracleProof ExampleData.
Local Open Scope Z_scope.

(** C01: a returned value is the exact optimum. *)
Theorem C01_solve_optimum :
  forall (one : Z) (n : nat) (mus : list (MuLimit Z)) (oms : list (OmegaLimit Z)) (K : Z) (fuel : nat) (v : Z),
    0 < one ->
    admissible n mus oms K ->
    solver_fuel n (length oms) K <= Z.of_nat fuel ->
    @run_solver Z (exact_ops one) fuel (Z.of_nat n) mus oms = Ok (Some v) ->
    optimum n mus oms v.
Proof. exact (fun one n mus oms K fuel v H => solve_optimum one H n mus oms K fuel v). Qed.
Print Assumptions C01_solve_optimum.

Example C01_example :
  admissible 3 ex_mus ex_oms 3 /\ @run_solver Z (exact_ops 1) ex_steps 3 ex_mus ex_oms = Ok (Some 2).
Proof. split; [exact ex_admissible|vm_compute; reflexivity]. Qed.

(** C02: nullopt exactly when the problem is infeasible. *)
Theorem C02_solve_nullopt :
  forall (one : Z) (n : nat) (mus : list (MuLimit Z)) (oms : list (OmegaLimit Z)) (K : Z) (fuel : nat),
    0 < one ->
    admissible n mus oms K ->
    solver_fuel n (length oms) K <= Z.of_nat fuel ->
    (@run_solver Z (exact_ops one) fuel (Z.of_nat n) mus oms = Ok None <-> infeasible n mus oms).
Proof. exact (fun one n mus oms K fuel H => solve_nullopt one H n mus oms K fuel). Qed.
Print Assumptions C02_solve_nullopt.

Example C02_example :
  admissible 3 ex_mus cyc_oms 3 /\ @run_solver Z (exact_ops 1) ex_steps 3 ex_mus cyc_oms = Ok None.
Proof. split; [exact cyc_admissible|vm_compute; reflexivity]. Qed.

(** C03: [solve()] terminates; [solver_fuel] is an explicit bound on the number
    of iterations of every single loop. *)
Theorem C03_solve_terminates :
  forall (one : Z) (n : nat) (mus : list (MuLimit Z)) (oms : list (OmegaLimit Z)) (K : Z) (fuel : nat),
    0 < one ->
    admissible n mus oms K ->
    solver_fuel n (length oms) K <= Z.of_nat fuel ->
    @run_solver Z (exact_ops one) fuel (Z.of_nat n) mus oms <> Err OutOfFuel.
Proof. exact (fun one n mus oms K fuel H A F => solve_no_error one H n mus oms K fuel OutOfFuel A F). Qed.
Print Assumptions C03_solve_terminates.

Example C03_example : solver_fuel 3 4 3 = 10079.
Proof. vm_compute. reflexivity. Qed.

(** C04: no undefined behaviour, no failing assertion. *)
Theorem C04_solve_no_ub :
  forall (one : Z) (n : nat) (mus : list (MuLimit Z)) (oms : list (OmegaLimit Z)) (K : Z) (fuel : nat) (e : err),
    0 < one ->
    admissible n mus oms K ->
    solver_fuel n (length oms) K <= Z.of_nat fuel ->
    @run_solver Z (exact_ops one) fuel (Z.of_nat n) mus oms <> Err e.
Proof. exact (fun one n mus oms K fuel e H => solve_no_error one H n mus oms K fuel e). Qed.
Print Assumptions C04_solve_no_ub.

(** the same functions do report an overflow when the numbers are too big *)
Example C04_example :
  @run_solver Z (exact_ops 1) 100 1 [mkMu 0 0 (lin 0); mkMu (-1500000000) 1500000000 (lin 1)] [] = Err IntOverflow.
Proof. vm_compute. reflexivity. Qed.

(** C06: malformed arguments give nullopt.  [K] bounds the given numbers. *)
Theorem C06_malformed_rejected :
  forall (one : Z) (n : Z) (mus : list (MuLimit Z)) (oms : list (OmegaLimit Z)) (K : Z) (fuel : nat),
    0 <= n < SIZE_MAX -> 3 * K <= INT_MAX -> 32 <= Z.of_nat fuel -> n <= Z.of_nat fuel ->
    (forall i m, 1 <= Z.of_nat i <= n -> nth_error mus i = Some m -> - K <= m_l m <= K /\ - K <= m_u m <= K) ->
    (forall o, In o oms -> o_l o <= o_u o -> - K <= o_l o /\ o_u o <= K /\ defined_on (o_fn o) (o_l o) (o_u o)) ->
    malformed n mus oms ->
    @run_solver Z (exact_ops one) fuel n mus oms = Ok None.
Proof. exact malformed_rejected. Qed.
Print Assumptions C06_malformed_rejected.

Example C06_example :
  malformed 3 ex_mus (ex_oms ++ [mkOm 0 1 absf 2 4]) /\
  malformed 3 (upd ex_mus 2 (mkMu 2 (-2) absf)) ex_oms /\ malformed 4 ex_mus ex_oms.
Proof. exact ex_malformed. Qed.

(** C06, the remaining value of n: with n = 2^64 - 1 the sum n + 1 wraps to 0, an
    empty vector of mu limits passes the size test and is then read. *)
Theorem C06_size_max_refuted :
  exists (n : Z) (mus : list (MuLimit Z)) (oms : list (OmegaLimit Z)),
    malformed n mus oms /\ 0 <= n <= SIZE_MAX /\
    forall fuel, (1 <= fuel)%nat -> @run_solver Z (exact_ops 1) fuel n mus oms = Err OutOfBounds.
Proof. exact malformed_size_max. Qed.
Print Assumptions C06_size_max_refuted.

(** C07: callbacks are only called inside their range: replacing them by ones
    that fail outside changes nothing. *)
Theorem C07_calls_in_range :
  forall (one : Z) (n : nat) (mus : list (MuLimit Z)) (oms : list (OmegaLimit Z)) (K : Z) (fuel : nat),
    0 < one ->
    admissible n mus oms K ->
    solver_fuel n (length oms) K <= Z.of_nat fuel ->
    exists r,
      @run_solver Z (exact_ops one) fuel (Z.of_nat n) mus oms = Ok r /\
      @run_solver Z (exact_ops one) fuel (Z.of_nat n) (map guard_mu mus) (map guard_om oms) = Ok r.
Proof. exact (fun one n mus oms K fuel H => solve_guarded one H n mus oms K fuel). Qed.
Print Assumptions C07_calls_in_range.

Example C07_example :
  @run_solver Z (exact_ops 1) ex_steps 3 (map guard_mu ex_mus) (map guard_om ex_oms) = Ok (Some 2) /\
  m_fn (guard_mu (mkMu 0 3 (sq 1 3))) 4 = Err BadCall.
Proof. split; vm_compute; reflexivity. Qed.

(** C08: the order of the omega limits does not matter. *)
Theorem C08_omega_order :
  forall (one : Z) (n : nat) (mus : list (MuLimit Z)) (oms oms' : list (OmegaLimit Z)) (K : Z) (fuel : nat),
    0 < one ->
    admissible n mus oms K ->
    Permutation oms oms' ->
    solver_fuel n (length oms) K <= Z.of_nat fuel ->
    exists r,
      @run_solver Z (exact_ops one) fuel (Z.of_nat n) mus oms = Ok r /\
      @run_solver Z (exact_ops one) fuel (Z.of_nat n) mus oms' = Ok r.
Proof. exact (fun one n mus oms oms' K fuel H => solve_perm one H n mus oms oms' K fuel). Qed.
Print Assumptions C08_omega_order.

Example C08_example :
  Permutation ex_oms (rev ex_oms) /\ @run_solver Z (exact_ops 1) ex_steps 3 ex_mus (rev ex_oms) = Ok (Some 2).
Proof. split; [exact ex_perm|vm_compute; reflexivity]. Qed.

(** C09: two omega limits on the same ordered pair with the same range and
    nondecreasing costs act like one with the summed cost. *)
Theorem C09_parallel_limits :
  forall (one : Z) (n : nat) (mus : list (MuLimit Z)) (a b : OmegaLimit Z) (oms : list (OmegaLimit Z)) (K : Z) (fuel : nat),
    0 < one ->
    admissible n mus (a :: b :: oms) K ->
    solver_fuel n (length (a :: b :: oms)) K <= Z.of_nat fuel ->
    o_i a = o_i b -> o_j a = o_j b -> o_l a = o_l b -> o_u a = o_u b ->
    nondecreasing_on (cost (o_fn a)) (o_l a) (o_u a) ->
    nondecreasing_on (cost (o_fn b)) (o_l b) (o_u b) ->
    exists r,
      @run_solver Z (exact_ops one) fuel (Z.of_nat n) mus (a :: b :: oms) = Ok r /\
      @run_solver Z (exact_ops one) fuel (Z.of_nat n) mus (om_sum a b :: oms) = Ok r.
Proof. exact (fun one n mus a b oms K fuel H => solve_om_sum one H n mus a b oms K fuel). Qed.
Print Assumptions C09_parallel_limits.

(** Without monotonicity this fails: each limit has its own omega. *)
Theorem C09_not_monotone_refuted :
  exists (n : nat) (mus : list (MuLimit Z)) (a b : OmegaLimit Z) (K : Z) (fuel : nat),
    admissible n mus [a; b] K /\ solver_fuel n 2 K <= Z.of_nat fuel /\
    o_i a = o_i b /\ o_j a = o_j b /\ o_l a = o_l b /\ o_u a = o_u b /\
    @run_solver Z (exact_ops 1) fuel (Z.of_nat n) mus [a; b] <>
    @run_solver Z (exact_ops 1) fuel (Z.of_nat n) mus [om_sum a b].
Proof. exact om_sum_not_monotone. Qed.
Print Assumptions C09_not_monotone_refuted.

Example C09_example :
  @run_solver Z (exact_ops 1) ex_steps 3 ex_mus (mkOm 0 3 (lin 2) 2 3 :: mkOm 0 3 (sq 1 0) 2 3 :: ex_oms) =
  @run_solver Z (exact_ops 1) ex_steps 3 ex_mus (om_sum (mkOm 0 3 (lin 2) 2 3) (mkOm 0 3 (sq 1 0) 2 3) :: ex_oms).
Proof. vm_compute. reflexivity. Qed.

(** C10: adding a constant to one cost. *)
Theorem C10_add_constant_mu :
  forall (one : Z) (n : nat) (mus : list (MuLimit Z)) (oms : list (OmegaLimit Z)) (K : Z) (fuel i : nat) (m : MuLimit Z) (c : Z),
    0 < one ->
    admissible n mus oms K ->
    solver_fuel n (length oms) K <= Z.of_nat fuel ->
    (1 <= i <= n)%nat -> nth_error mus i = Some m ->
    exists r,
      @run_solver Z (exact_ops one) fuel (Z.of_nat n) mus oms = Ok r /\
      @run_solver Z (exact_ops one) fuel (Z.of_nat n) (upd mus i (mu_add c m)) oms = Ok (option_map (fun v => v + c) r).
Proof. exact (fun one n mus oms K fuel i m c H => solve_add_mu one H n mus oms K fuel i m c). Qed.
Print Assumptions C10_add_constant_mu.

Theorem C10_add_constant_omega :
  forall (one : Z) (n : nat) (mus : list (MuLimit Z)) (oms : list (OmegaLimit Z)) (K : Z) (fuel k : nat) (o : OmegaLimit Z) (c : Z),
    0 < one ->
    admissible n mus oms K ->
    solver_fuel n (length oms) K <= Z.of_nat fuel ->
    nth_error oms k = Some o ->
    exists r,
      @run_solver Z (exact_ops one) fuel (Z.of_nat n) mus oms = Ok r /\
      @run_solver Z (exact_ops one) fuel (Z.of_nat n) mus (upd oms k (om_add c o)) = Ok (option_map (fun v => v + c) r).
Proof. exact (fun one n mus oms K fuel k o c H => solve_add_om one H n mus oms K fuel k o c). Qed.
Print Assumptions C10_add_constant_omega.

Example C10_example :
  @run_solver Z (exact_ops 1) ex_steps 3 (upd ex_mus 2 (mu_add (-7) (mkMu (-2) 2 (sq 3 (-1))))) ex_oms = Ok (Some (-5)).
Proof. vm_compute. reflexivity. Qed.

(** C11: relaxing never raises the answer. *)
Theorem C11_drop_limit :
  forall (one : Z) (n : nat) (mus : list (MuLimit Z)) (l1 : list (OmegaLimit Z)) (o : OmegaLimit Z) (l2 : list (OmegaLimit Z)) (K : Z) (fuel : nat),
    0 < one ->
    admissible n mus (l1 ++ o :: l2) K ->
    solver_fuel n (length (l1 ++ o :: l2)) K <= Z.of_nat fuel ->
    (forall x, o_l o <= x <= o_u o -> 0 <= cost (o_fn o) x) ->
    exists r r',
      @run_solver Z (exact_ops one) fuel (Z.of_nat n) mus (l1 ++ o :: l2) = Ok r /\
      @run_solver Z (exact_ops one) fuel (Z.of_nat n) mus (l1 ++ l2) = Ok r' /\
      forall v, r = Some v -> exists v', r' = Some v' /\ v' <= v.
Proof. exact (fun one n mus l1 o l2 K fuel H => solve_drop one H n mus l1 o l2 K fuel). Qed.
Print Assumptions C11_drop_limit.

Theorem C11_relax :
  forall (one : Z) (n : nat) (mus : list (MuLimit Z)) (oms : list (OmegaLimit Z))
         (mus' : list (MuLimit Z)) (oms' : list (OmegaLimit Z)) (K K' : Z) (fuel fuel' : nat),
    0 < one ->
    admissible n mus oms K -> solver_fuel n (length oms) K <= Z.of_nat fuel ->
    admissible n mus' oms' K' -> solver_fuel n (length oms') K' <= Z.of_nat fuel' ->
    Forall2 mu_relaxed mus mus' -> Forall2 om_relaxed oms oms' ->
    exists r r',
      @run_solver Z (exact_ops one) fuel (Z.of_nat n) mus oms = Ok r /\
      @run_solver Z (exact_ops one) fuel' (Z.of_nat n) mus' oms' = Ok r' /\
      forall v, r = Some v -> exists v', r' = Some v' /\ v' <= v.
Proof. exact (fun one n mus oms mus' oms' K K' fuel fuel' H => solve_relax one H n mus oms mus' oms' K K' fuel fuel'). Qed.
Print Assumptions C11_relax.

Example C11_example :
  @run_solver Z (exact_ops 1) ex_steps 3 ex_mus ([mkOm (-1) 1 (sq 1 0) 1 2] ++ mkOm (-3) (-2) (sq 2 1) 2 3 :: [mkOm 0 2 (lin (-3)) 3 2]) = Ok (Some 19) /\
  @run_solver Z (exact_ops 1) ex_steps 3 ex_mus ([mkOm (-1) 1 (sq 1 0) 1 2] ++ [mkOm 0 2 (lin (-3)) 3 2]) = Ok (Some 1) /\
  Forall2 om_relaxed [mkOm 0 1 (sq 2 1) 1 2] [mkOm (-1) 2 (sq 1 1) 1 2].
Proof. exact ex_relax. Qed.

(** C12: agreement with the exhaustive search of the test-suite. *)
Theorem C12_agrees_with_exhaustive_search :
  forall (one : Z) (n : nat) (mus : list (MuLimit Z)) (oms : list (OmegaLimit Z)) (K : Z) (fuel fuel' : nat),
    0 < one ->
    admissible n mus oms K ->
    solver_fuel n (length oms) K <= Z.of_nat fuel ->
    2 * K + 32 <= Z.of_nat fuel' ->
    exists r,
      @run_solver Z (exact_ops one) fuel (Z.of_nat n) mus oms = Ok r /\
      @bf_solve Z (exact_ops one) fuel' n mus oms = Ok r.
Proof. exact (fun one n mus oms K fuel fuel' H => solve_bf one H n mus oms K fuel fuel'). Qed.
Print Assumptions C12_agrees_with_exhaustive_search.

Example C12_example :
  @bf_solve Z (exact_ops 1) 200 3 ex_mus ex_oms = Ok (Some 2) /\ @bf_solve Z (exact_ops 1) 200 3 ex_mus cyc_oms = Ok None.
Proof. split; vm_compute; reflexivity. Qed.

(** C28: the network means the same as the problem. *)
Theorem C28_network_preserves_problem :
  forall (one : Z) (n : nat) (mus : list (MuLimit Z)) (oms : list (OmegaLimit Z)) (K : Z) (fuel : nat),
    well_formed n mus oms -> bounded_by n mus oms K -> 1 <= K -> 3 * K <= INT_MAX -> Z.of_nat n < INT_MAX ->
    32 + Z.of_nat n <= Z.of_nat fuel ->
    exists s, @solver_new Z (exact_ops one) fuel (Z.of_nat n) mus oms = Ok s /\
      (s_n s = SIZE_MAX -> infeasible n mus oms) /\
      (s_n s <> SIZE_MAX -> exists r, @merge_limits Z (exact_ops one) s = Ok r /\
         match r with
         | None => infeasible n mus oms
         | Some limits => forall mu, mu 0%nat = 0 ->
             ((exists om, feasible n mus oms mu om) <->
                (forall o, In o limits -> o_l o <= mu (o_i o) - mu (o_j o) <= o_u o)) /\
             ((forall o, In o limits -> o_l o <= mu (o_i o) - mu (o_j o) <= o_u o) ->
                (exists om, feasible n mus oms mu om /\
                   total_cost n mus oms mu om = sumZ (map (fun o => cost (o_fn o) (mu (o_i o) - mu (o_j o))) limits)) /\
                (forall om, feasible n mus oms mu om ->
                   sumZ (map (fun o => cost (o_fn o) (mu (o_i o) - mu (o_j o))) limits) <= total_cost n mus oms mu om))
         end).
Proof. exact network_preserves. Qed.
Print Assumptions C28_network_preserves_problem.

Example C28_example :
  match @solver_new Z (exact_ops 1) 100 3 ex_mus ex_oms with
  | Ok s => match @merge_limits Z (exact_ops 1) s with
            | Ok (Some limits) => map (fun o => (o_i o, o_j o, o_l o, o_u o)) limits
            | _ => []
            end
  | Err _ => []
  end = [(2%nat, 1%nat, -1, 3); (3%nat, 2%nat, -2, 2); (1%nat, 0%nat, -1, 2); (2%nat, 0%nat, -2, 2); (3%nat, 0%nat, 0, 3)].
Proof. vm_compute. reflexivity. Qed.

(** C29: translation invariance. *)
Theorem C29_translation :
  forall (one : Z) (n : nat) (mus : list (MuLimit Z)) (oms : list (OmegaLimit Z)) (K K' c : Z) (fuel fuel' : nat),
    0 < one ->
    admissible n mus oms K -> solver_fuel n (length oms) K <= Z.of_nat fuel ->
    bounded_by n (map (mu_move c) mus) oms K' -> int_fits n K' -> solver_fuel n (length oms) K' <= Z.of_nat fuel' ->
    exists r,
      @run_solver Z (exact_ops one) fuel (Z.of_nat n) mus oms = Ok r /\
      @run_solver Z (exact_ops one) fuel' (Z.of_nat n) (map (mu_move c) mus) oms = Ok r.
Proof. exact (fun one n mus oms K K' c fuel fuel' H => solve_move one H n mus oms K K' c fuel fuel'). Qed.
Print Assumptions C29_translation.

Example C29_example : @run_solver Z (exact_ops 1) ex_steps 3 (map (mu_move 11) ex_mus) ex_oms = Ok (Some 2).
Proof. vm_compute. reflexivity. Qed.

(** C31: entry 0 of Mus is ignored, whatever it is. *)
Theorem C31_mus0_ignored :
  forall (one : Z) (n : nat) (mus : list (MuLimit Z)) (oms : list (OmegaLimit Z)) (K : Z) (m0 : MuLimit Z) (fuel : nat),
    0 < one ->
    admissible n mus oms K ->
    solver_fuel n (length oms) K <= Z.of_nat fuel ->
    exists r,
      @run_solver Z (exact_ops one) fuel (Z.of_nat n) mus oms = Ok r /\
      @run_solver Z (exact_ops one) fuel (Z.of_nat n) (upd mus 0 m0) oms = Ok r.
Proof. exact (fun one n mus oms K m0 fuel H => solve_mu0 one H n mus oms K m0 fuel). Qed.
Print Assumptions C31_mus0_ignored.

(** C32: scaling all costs by k >= 0 scales the answer. *)
Theorem C32_scaling :
  forall (one : Z) (n : nat) (mus : list (MuLimit Z)) (oms : list (OmegaLimit Z)) (K k : Z) (fuel : nat),
    0 < one ->
    admissible n mus oms K ->
    solver_fuel n (length oms) K <= Z.of_nat fuel ->
    0 <= k ->
    exists r,
      @run_solver Z (exact_ops one) fuel (Z.of_nat n) mus oms = Ok r /\
      @run_solver Z (exact_ops one) fuel (Z.of_nat n) (map (mu_scale k) mus) (map (om_scale k) oms) = Ok (option_map (Z.mul k) r).
Proof. exact (fun one n mus oms K k fuel H => solve_scale one H n mus oms K k fuel). Qed.
Print Assumptions C32_scaling.

Example C32_example : @run_solver Z (exact_ops 1) ex_steps 3 (map (mu_scale 5) ex_mus) (map (om_scale 5) ex_oms) = Ok (Some 10).
Proof. vm_compute. reflexivity. Qed.

(** C33: mirror image. *)
Theorem C33_mirror :
  forall (one : Z) (n : nat) (mus : list (MuLimit Z)) (oms : list (OmegaLimit Z)) (K : Z) (fuel : nat),
    0 < one ->
    admissible n mus oms K ->
    solver_fuel n (length oms) K <= Z.of_nat fuel ->
    exists r,
      @run_solver Z (exact_ops one) fuel (Z.of_nat n) mus oms = Ok r /\
      @run_solver Z (exact_ops one) fuel (Z.of_nat n) (map mu_mirror mus) (map om_mirror oms) = Ok r.
Proof. exact (fun one n mus oms K fuel H => solve_mirror one H n mus oms K fuel). Qed.
Print Assumptions C33_mirror.

Example C33_example : @run_solver Z (exact_ops 1) ex_steps 3 (map mu_mirror ex_mus) (map om_mirror ex_oms) = Ok (Some 2).
Proof. vm_compute. reflexivity. Qed.

(** C34: renaming the nodes ([f], with inverse [g]). *)
Theorem C34_renaming :
  forall (one : Z) (n : nat) (mus mus' : list (MuLimit Z)) (oms : list (OmegaLimit Z)) (K : Z) (fuel : nat) (f g : nat -> nat),
    0 < one ->
    admissible n mus oms K ->
    solver_fuel n (length oms) K <= Z.of_nat fuel ->
    (forall i, (1 <= i <= n)%nat -> (1 <= f i <= n)%nat /\ g (f i) = i) ->
    (forall i, (1 <= i <= n)%nat -> (1 <= g i <= n)%nat /\ f (g i) = i) ->
    length mus' = (n + 1)%nat -> (forall i, (1 <= i <= n)%nat -> nth_error mus' (f i) = nth_error mus i) ->
    exists r,
      @run_solver Z (exact_ops one) fuel (Z.of_nat n) mus oms = Ok r /\
      @run_solver Z (exact_ops one) fuel (Z.of_nat n) mus' (map (om_rename f) oms) = Ok r.
Proof. exact (fun one n mus mus' oms K fuel f g H => solve_rename one H n mus mus' oms K fuel f g). Qed.
Print Assumptions C34_renaming.

Example C34_example :
  let f := fun i => nth i [0; 3; 1; 2]%nat 0%nat in
  @run_solver Z (exact_ops 1) ex_steps 3
    [mkMu 0 0 (lin 0); mkMu (-2) 2 (sq 3 (-1)); mkMu 0 3 (sq 1 3); mkMu (-1) 2 (sq 2 2)] (map (om_rename f) ex_oms) = Ok (Some 2).
Proof. vm_compute. reflexivity. Qed.

(** C35: a free limit that the mu ranges imply anyway changes nothing. *)
Theorem C35_redundant_limit :
  forall (one : Z) (n : nat) (mus : list (MuLimit Z)) (oms : list (OmegaLimit Z)) (o : OmegaLimit Z) (K : Z) (fuel : nat),
    0 < one ->
    admissible n mus (o :: oms) K ->
    solver_fuel n (length (o :: oms)) K <= Z.of_nat fuel ->
    (forall x, o_l o <= x <= o_u o -> cost (o_fn o) x = 0) ->
    (forall a b, nth_error mus (o_i o) = Some a -> nth_error mus (o_j o) = Some b -> m_u a - m_l b <= o_u o) ->
    exists r,
      @run_solver Z (exact_ops one) fuel (Z.of_nat n) mus (o :: oms) = Ok r /\
      @run_solver Z (exact_ops one) fuel (Z.of_nat n) mus oms = Ok r.
Proof. exact (fun one n mus oms o K fuel H => solve_redundant one H n mus oms o K fuel). Qed.
Print Assumptions C35_redundant_limit.

Example C35_example : @run_solver Z (exact_ops 1) ex_steps 3 ex_mus (mkOm 1 5 (lin 0) 3 2 :: ex_oms) = Ok (Some 2).
Proof. vm_compute. reflexivity. Qed.

(** C36: the answers of independent parts add up. *)
Theorem C36_independent_parts :
  forall (one : Z) (n1 : nat) (mus1 : list (MuLimit Z)) (oms1 : list (OmegaLimit Z))
         (n2 : nat) (m0 : MuLimit Z) (mus2 : list (MuLimit Z)) (oms2 : list (OmegaLimit Z)) (K : Z) (fuel : nat),
    0 < one ->
    admissible n1 mus1 oms1 K -> admissible n2 (m0 :: mus2) oms2 K -> int_fits (n1 + n2) K ->
    solver_fuel n1 (length oms1) K <= Z.of_nat fuel -> solver_fuel n2 (length oms2) K <= Z.of_nat fuel ->
    solver_fuel (n1 + n2) (length oms1 + length oms2) K <= Z.of_nat fuel ->
    exists r1 r2,
      @run_solver Z (exact_ops one) fuel (Z.of_nat n1) mus1 oms1 = Ok r1 /\
      @run_solver Z (exact_ops one) fuel (Z.of_nat n2) (m0 :: mus2) oms2 = Ok r2 /\
      @run_solver Z (exact_ops one) fuel (Z.of_nat (n1 + n2)) (mus1 ++ mus2) (oms1 ++ map (om_rename (Nat.add n1)) oms2)
        = Ok (opt_add r1 r2).
Proof. exact (fun one n1 mus1 oms1 n2 m0 mus2 oms2 K fuel H => solve_parts one H n1 mus1 oms1 n2 m0 mus2 oms2 K fuel). Qed.
Print Assumptions C36_independent_parts.

Example C36_example :
  @run_solver Z (exact_ops 1) ex_steps 6 (ex_mus ++ tl ex_mus) (ex_oms ++ map (om_rename (Nat.add 3)) ex_oms) = Ok (Some 4).
Proof. vm_compute. reflexivity. Qed.
