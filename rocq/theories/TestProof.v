(** * The random tests cannot fail in exact arithmetic *)
From Verif Require Import Base Data BaseLemmas ProblemDefine ProblemSolver Oracles CostScaling Generator TestSuite Spec FlowOpt FlowPhase FlowNet.
From Verif Require Import SolverProof OracleProof ScaleSpec ScaleProof SimpleProof ScaleExample GenSpec GenRng GenGraphProof GenProof GenTable GenExact.
Local Open Scope Z_scope.

(** ** The bounds on the loops grow with the number of edges *)
Lemma solver_fuel_le n k k' K : 0 <= K -> (k <= k')%nat -> solver_fuel n k K <= solver_fuel n k' K.
Proof. intros HK Hk. unfold solver_fuel. apply flow_fuel_mono; lia. Qed.

Lemma scaling_fuel_le N m m' K : (m <= m')%nat -> scaling_fuel N m K <= scaling_fuel N m' K.
Proof.
  intro H. unfold scaling_fuel. cbn zeta. set (n := Z.of_nat N). assert (0 <= n) by (unfold n; lia).
  assert (X : Z.of_nat m <= Z.of_nat m') by lia. apply Z.add_le_mono_r, Z.add_le_mono_r. apply Z.mul_le_mono_nonneg_l; [nia|].
  assert (2 * n * Z.of_nat m <= 2 * n * Z.of_nat m') by nia. assert ((n + 1) * (2 * n * Z.of_nat m) <= (n + 1) * (2 * n * Z.of_nat m')) by nia. lia.
Qed.

Lemma simple_fuel_le n k k' K : (k <= k')%nat -> simple_fuel n k K <= simple_fuel n k' K.
Proof.
  intro H. unfold simple_fuel. apply Z.add_le_mono_r, Z.add_le_mono_r. apply scaling_fuel_le. apply Nat.mul_le_mono_r. lia.
Qed.

(** ** The generators of the tests *)
(** a bound [K] for the ranges and [r] for the coefficients *)
Record spec_ok (s : gen_spec) (K r : Z) : Prop := {
  so_args : tiny_args (s_n s) (s_m s) (s_multi s) (s_node s) (s_edge s) (s_fun s);
  so_draw : drawable (s_multi s) (s_n s);
  so_node : within_K K (s_node s);
  so_edge : within_K K (s_edge s);
  so_fun : within_K r (s_fun s);
  so_r : 0 <= r;
  so_K : 1 <= K;
  so_int : int_fits (Z.to_nat (s_n s)) K;
  so_halve : 4 * K * (s_n s + 1) <= 2 ^ 14;
  so_cost : 2 * ((s_n s + s_m s) * (r * (K * K + K + 1))) < 1000000000;
  so_solver : solver_fuel (Z.to_nat (s_n s)) (Z.to_nat (s_m s)) K <= 2 ^ 50;
  so_simple : simple_fuel (Z.to_nat (s_n s)) (Z.to_nat (s_m s)) K <= 2 ^ 50
}.

Ltac fuel_bound := unfold solver_fuel, simple_fuel, flow_fuel, phase_work, scaling_fuel, Dn; cbn [s_n s_m s_multi s_node s_edge s_fun];
  rewrite ?Nat2Z.inj_mul, ?Nat2Z.inj_add, ?Z2Nat.id by lia; vm_compute; discriminate.
Ltac spec_tac D := constructor;
  [ unfold tiny_args, int_range; vm_compute; intuition discriminate | exact D
  | vm_compute; split; discriminate | vm_compute; split; discriminate | vm_compute; split; discriminate
  | lia | lia | vm_compute; split; discriminate | vm_compute; discriminate | vm_compute; reflexivity | fuel_bound | fuel_bound ].

Lemma small1_ok : spec_ok SmallGen1 6 10.
Proof. spec_tac drawable_5. Qed.
Lemma small2_ok : spec_ok SmallGen2 6 10.
Proof. spec_tac drawable_4. Qed.
Lemma huge1_ok : spec_ok HugeGen1 60 100.
Proof. spec_tac drawable_50. Qed.
Lemma huge2_ok : spec_ok HugeGen2 60 100.
Proof. spec_tac drawable_50_multi. Qed.
Lemma huge3_ok : spec_ok HugeGen3 40 100.
Proof. spec_tac drawable_100. Qed.

Lemma tests_ok t : In t random_tests -> exists K r, spec_ok (t_gen t) K r.
Proof.
  assert (H1 := small1_ok). assert (H2 := small2_ok). assert (H3 := huge1_ok). assert (H4 := huge2_ok). assert (H5 := huge3_ok).
  unfold random_tests. cbn [In]. intro H. repeat (destruct H as [<-|H]; [cbn [t_gen]; eauto|]). destruct H.
Qed.

Section Run.
Variable one : Z.
Hypothesis H1 : 0 < one.
Hypothesis H14 : (2 ^ 14 | one).
#[local] Hint Extern 0 (DataOps Z) => exact (exact_ops one) : typeclass_instances.

(** one generated graph: all three methods return the solution *)
Lemma methods_agree s K r fuel g : spec_ok s K r -> 2 ^ 50 <= Z.of_nat fuel ->
  tiny_result (one / 4) (s_n s) (s_m s) (s_multi s) (s_node s) (s_edge s) (s_fun s) g ->
  exists v, solution (Z.to_nat (s_n s)) (gr_node g) (gr_edge g) v /\ forall m, answer m fuel g = Ok v.
Proof.
  intros [A DR WN WE WF R0 K1 FI HV CO F1 F2] Hf HG. set (u := one / 4) in *.
  assert (E4 : one = 4 * u). { destruct H14 as [w ->]. unfold u. change (2 ^ 14) with (4096 * 4). rewrite Z.mul_assoc, Z.div_mul by lia. lia. }
  assert (Hu : 0 < u) by lia. assert (Hn : 1 <= s_n s) by apply A.
  pose proof HG as (GN & _ & GM & GL & _).
  assert (AD := tiny_admissible u Hu _ _ K _ _ _ _ g HG Hn WN WE FI).
  assert (SP := tiny_spread u Hu _ _ K r _ _ _ _ g HG Hn WN WE WF R0 K1).
  assert (LE : (length (gr_edge g) <= Z.to_nat (s_m s))%nat) by lia.
  destruct (solvers_agree one (Z.to_nat (s_n s)) (gr_node g) (gr_edge g) K _ 14 fuel fuel fuel H1 AD SP) as (v & V1 & V2 & V3).
  - unfold peak. apply (Z.mul_lt_mono_pos_l one _ _ H1) in CO.
    replace (2 * ((s_n s + s_m s) * (4 * u * r * (K * K + K + 1)))) with (one * (2 * ((s_n s + s_m s) * (r * (K * K + K + 1))))) by (rewrite E4; ring). lia.
  - exact H14.
  - rewrite Nat2Z.inj_add, Z2Nat.id by lia. exact HV.
  - pose proof (solver_fuel_le (Z.to_nat (s_n s)) _ _ K ltac:(lia) LE). lia.
  - assert (4 * K * 2 <= 2 ^ 14) by nia. change (2 ^ 50) with (2 ^ 14 * 2 ^ 36) in Hf. lia.
  - pose proof (simple_fuel_le (Z.to_nat (s_n s)) _ _ K LE). lia.
  - exists v. split; [|intros []; unfold answer; rewrite GN; auto].
    + destruct AD as (W & B & K' & I'). destruct (run_solver_ok one _ _ _ K fuel H1 W B K1 I') as (v' & E & S).
      { pose proof (solver_fuel_le (Z.to_nat (s_n s)) _ _ K ltac:(lia) LE). lia. }
      rewrite E in V1. injection V1 as <-. exact S.
    + rewrite Z2Nat.id in V1 by lia. exact V1.
Qed.

Lemma make_ok s K r fuel i st : spec_ok s K r -> 2 ^ 50 <= Z.of_nat fuel -> fst st = [] ->
  exists g s', make fuel s i st = Ok (g, ([], s')) /\ tiny_result (one / 4) (s_n s) (s_m s) (s_multi s) (s_node s) (s_edge s) (s_fun s) g.
Proof.
  intros HS Hf Hq. destruct st as [q s0]. cbn in Hq. subst q.
  assert (X := @tiny_gen_shape Z (exact_ops one) fuel (s_n s) (s_m s) (s_multi s) (s_node s) (s_edge s) (s_fun s) (Z.of_nat i) true s0 (so_args _ _ _ HS)).
  assert (T : rng_fuel fuel /\ drawable (s_multi s) (s_n s)) by (split; [unfold rng_fuel; change (2 ^ 50) with (4 * 2 ^ 48) in Hf; lia|exact (so_draw _ _ _ HS)]).
  apply (fun H => runs_ok _ _ _ H T) in X.
  destruct X as ([g [q' s']] & E & X). exists g, s'.
  assert (E4 : one = 4 * (one / 4)). { destruct H14 as [w ->]. change (2 ^ 14) with (4096 * 4). rewrite Z.mul_assoc, Z.div_mul by lia. lia. }
  rewrite E4 in X. apply (tiny_result_of (one / 4)) in X. destruct X as [X ->]. split; [exact E|exact X].
Qed.

Theorem random_test_passes t fuel s : In t random_tests -> 2 ^ 50 <= Z.of_nat fuel ->
  exists s', @run_random_test Z (exact_ops one) fuel t ([], s) = Ok ([], s').
Proof.
  intros Ht Hf. destruct (tests_ok t Ht) as (K & r & HS). unfold run_random_test.
  generalize (seq 1 (Z.to_nat (if t_compare t then s_many (t_gen t) else s_few (t_gen t)))). intro l. revert s.
  induction l as [|i l IH]; intro s; cbn [for_each]; [eauto|].
  destruct (make_ok _ K r fuel i ([], s) HS Hf eq_refl) as (g & s' & E & HG). rewrite E. cbn [bind].
  destruct (methods_agree _ K r fuel g HS Hf HG) as (v & _ & HA). rewrite HA. unfold verify. cbn [bind]. rewrite HA. cbn [bind].
  assert (EQ : opt_eq v v = true) by (destruct v; cbn; [apply Z.eqb_refl|reflexivity]). rewrite EQ. cbn [assert_ bind]. apply IH.
Qed.
End Run.
