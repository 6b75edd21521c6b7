(** * Leaving out the assertions *)
From Verif Require Import Base BaseLemmas Data UniqueQueue LCT ProblemDefine Flow ProblemSolver NDebug Spec SolverProof SolverProps.
Local Open Scope Z_scope.

(** unless an assertion fails, the same result *)
Definition freed {A} (m m' : res A) : Prop := m = Err AssertFail \/ m = m'.

Lemma freed_refl {A} (m : res A) : freed m m.
Proof. right; reflexivity. Qed.
Lemma freed_bind {A B} (m m' : res A) (k k' : A -> res B) : freed m m' -> (forall a, freed (k a) (k' a)) -> freed (bind m k) (bind m' k').
Proof. intros [-> | ->] H; [left; reflexivity|]. destruct m' as [a|e]; [apply H|right; reflexivity]. Qed.
Lemma freed_assert {A} b (k : unit -> res A) m' : freed (k tt) m' -> freed (bind (assert_ b) k) m'.
Proof. intro H. destruct b; [exact H|left; reflexivity]. Qed.
Lemma freed_for_each {A S} (l : list A) : forall (s : S) f g, (forall s a, freed (f s a) (g s a)) -> freed (for_each l s f) (for_each l s g).
Proof. induction l as [|a l IH]; intros s f g H; [apply freed_refl|]. cbn [for_each]. apply freed_bind; [apply H|intro; apply IH; exact H]. Qed.

Ltac freed_step :=
  match goal with
  | H : forall _, _ |- freed _ _ => solve [apply H; auto with arith]
  | |- freed ?a ?a => apply freed_refl
  | |- freed (bind (assert_ _) _) _ => apply freed_assert
  | |- freed (bind _ _) (bind _ _) => apply freed_bind; [|intro]
  | |- freed (for_each ?l ?a _) (for_each ?l ?a _) => apply freed_for_each; intros
  | |- freed (if ?b then _ else _) _ => destruct b
  | |- freed (match ?x with _ => _ end) _ => destruct x
  | |- freed (match ?x with _ => _ end _) _ => destruct x
  end.
Ltac freed_tac := cbv zeta; repeat (freed_step; cbv beta zeta iota).

Section Release.
Context {D : Type} {ops : DataOps D}.

(** ** The assertions of merge() and of the constructor of Flow cannot fail *)
Lemma map_find_set (mp : lmap (D := D)) k o k' o' : map_find (map_set mp k o) k' = Some o' ->
  (k' = k /\ o' = o) \/ map_find mp k' = Some o'.
Proof.
  assert (KE : forall a b : nat * nat, key_eqb a b = true -> a = b).
  { intros [a1 a2] [b1 b2] H. unfold key_eqb in H. cbn in H. apply andb_prop in H. destruct H as [H1 H2]. apply Nat.eqb_eq in H1, H2. congruence. }
  induction mp as [|[k1 o1] mp IH]; cbn [map_set map_find].
  - destruct (key_eqb k k') eqn:E; [|discriminate]. intro H. injection H as <-. left. split; [symmetry; apply KE; exact E|reflexivity].
  - destruct (key_eqb k1 k) eqn:E1.
    + cbn [map_find]. destruct (key_eqb k k') eqn:E.
      * intro H. injection H as <-. left. split; [symmetry; apply KE; exact E|reflexivity].
      * intro H. right. apply KE in E1. subst k1. rewrite E. exact H.
    + destruct (key_ltb k k1).
      * cbn [map_find]. destruct (key_eqb k k') eqn:E; [|auto]. intro H. injection H as <-. left. split; [symmetry; apply KE; exact E|reflexivity].
      * cbn [map_find]. destruct (key_eqb k1 k') eqn:E; [auto|]. intro H. exact (IH H).
Qed.

Definition keyed (mp : lmap (D := D)) : Prop := forall i j o, map_find mp (i, j) = Some o -> o_i o = i /\ o_j o = j.

Lemma merge_loop_free (oms : list (OmegaLimit D)) : forall mp, keyed mp -> merge_loop_r oms mp = merge_loop oms mp.
Proof.
  induction oms as [|it oms IH]; intros mp HK; [reflexivity|]. cbn [merge_loop merge_loop_r].
  destruct (if (o_i it <? o_j it)%nat then reverse it else Ok it) as [o|e]; [|reflexivity]. cbn [bind]. cbv zeta.
  destruct (map_find mp (o_i o, o_j o)) as [p|] eqn:E.
  - destruct (HK _ _ _ E) as [E1 E2]. unfold merge, merge_r. cbv zeta. rewrite E1, E2, !Nat.eqb_refl. cbn [assert_ bind].
    match goal with |- context [if ?b then _ else _] => destruct b end; [reflexivity|]. apply IH.
    intros i j o' H. apply map_find_set in H. destruct H as [[H ->]|H]; [|exact (HK _ _ _ H)]. injection H as -> ->. cbn [o_i o_j]. auto.
  - apply IH. intros i j o' H. apply map_find_set in H. destruct H as [[H ->]|H]; [|exact (HK _ _ _ H)]. injection H as -> ->. auto.
Qed.

Lemma merge_limits_free (s : solver D) : merge_limits_r s = merge_limits s.
Proof. unfold merge_limits, merge_limits_r. rewrite merge_loop_free; [reflexivity|]. intros i j o H. discriminate. Qed.

Lemma eps_loop_free fuel n U : forall eps, 1 <= eps -> eps_loop_r fuel n U eps = eps_loop fuel n U eps.
Proof.
  induction fuel as [|fuel IH]; intros eps He; [reflexivity|]. cbn [eps_loop eps_loop_r].
  destruct (ck (Z.of_nat (n + 1))) as [a|]; [|reflexivity]. cbn [bind]. destruct (ck (2 * a)) as [b|]; [|reflexivity]. cbn [bind].
  destruct (ck (b * U)) as [c|]; [|reflexivity]. cbn [bind]. destruct (eps <? c); [|reflexivity].
  destruct (ck (eps * 2)) as [e|] eqn:E; [|reflexivity]. apply ck_inv in E. destruct E as [-> _]. cbn [bind].
  destruct (Z.eqb_spec (eps * 2) 0); [lia|]. cbn [negb assert_ bind]. apply IH. lia.
Qed.

(** what the loop leaves: 1 or even, and large enough *)
Lemma eps_loop_end fuel n U : forall eps r, (eps = 1 \/ exists k, eps = 2 * k /\ 1 <= k) -> eps_loop fuel n U eps = Ok r ->
  (r = 1 \/ exists k, r = 2 * k /\ 1 <= k) /\ 2 * Z.of_nat (n + 1) * U <= r.
Proof.
  induction fuel as [|fuel IH]; intros eps r He HR; [discriminate|]. cbn [eps_loop] in HR.
  apply bind_inv in HR. destruct HR as (a & Ea & HR). apply ck_inv in Ea. destruct Ea as [-> _].
  apply bind_inv in HR. destruct HR as (b & Eb & HR). apply ck_inv in Eb. destruct Eb as [-> _].
  apply bind_inv in HR. destruct HR as (c & Ec & HR). apply ck_inv in Ec. destruct Ec as [-> _].
  destruct (Z.ltb_spec eps (2 * Z.of_nat (n + 1) * U)) as [H|H].
  - apply bind_inv in HR. destruct HR as (e & Ee & HR). apply ck_inv in Ee. destruct Ee as [-> _].
    apply bind_inv in HR. destruct HR as (u & _ & HR). apply (IH (eps * 2)); [|exact HR]. right. exists eps. destruct He as [->|(k & -> & Hk)]; lia.
  - injection HR as <-. auto.
Qed.

Lemma flow_new_free fuel n (M : D) U limits : flow_new_r fuel n M U limits = flow_new fuel n M U limits.
Proof.
  unfold flow_new, flow_new_r. rewrite eps_loop_free by lia. destruct (eps_loop fuel n U 1) as [r|] eqn:E; [|reflexivity]. cbn [bind].
  destruct (eps_loop_end fuel n U 1 r (or_introl eq_refl) E) as [H1 H2].
  replace (U <=? Z.quot (Z.quot r 2) (Z.of_nat (n + 1))) with true; [reflexivity|]. symmetry. apply Z.leb_le.
  destruct H1 as [->|(k & -> & Hk)].
  - change (Z.quot 1 2) with 0. rewrite Z.quot_0_l by lia. nia.
  - rewrite (Z.mul_comm 2 k), Z.quot_mul by lia. rewrite Z.quot_div_nonneg by lia. apply Z.div_le_lower_bound; [lia|]. nia.
Qed.

(** ** The others *)
Lemma set_fa_freed fuel (h : heap D) x p : freed (set_fa fuel h x p) (set_fa_r fuel h x p).
Proof.
  unfold set_fa, set_fa_r. apply freed_bind; [apply freed_refl|intro h']. unfold modi.
  destruct (ld h' x) as [nx|e] eqn:E; cbn [bind]; [|right; reflexivity]. apply freed_assert. apply freed_refl.
Qed.

Lemma cut_freed fuel (h : heap D) x : freed (cut fuel h x) (cut_r fuel h x).
Proof. unfold cut, cut_r. freed_tac. Qed.

Lemma link_freed fuel (s : flow D) p : freed (link fuel s p) (link_r fuel s p).
Proof. assert (H := set_fa_freed fuel). unfold link, link_r. freed_tac. Qed.

Lemma flow_cut_freed fuel (s : flow D) p : freed (flow_cut fuel s p) (flow_cut_r fuel s p).
Proof. assert (H := cut_freed fuel). unfold flow_cut, flow_cut_r. freed_tac. Qed.

Lemma send_loop_freed fuel0 : forall fuel (s : flow D) p r, freed (send_loop fuel0 fuel s p r) (send_loop_r fuel0 fuel s p r).
Proof.
  assert (H := flow_cut_freed fuel0). induction fuel as [|fuel IH]; intros s p r; cbn [send_loop send_loop_r]; freed_tac.
Qed.

Lemma send_freed fuel (s : flow D) p : freed (send fuel s p) (send_r fuel s p).
Proof. assert (H := send_loop_freed fuel fuel). unfold send, send_r. freed_tac. Qed.

Lemma update_scaling_freed fuel (s : flow D) p : freed (update_scaling fuel s p) (update_scaling_r fuel s p).
Proof. assert (H := flow_cut_freed fuel). unfold update_scaling, update_scaling_r. freed_tac. Qed.

Lemma choice_loop_freed fuel0 : forall fuel (s : flow D) p, freed (choice_loop fuel0 fuel s p) (choice_loop_r fuel0 fuel s p).
Proof.
  assert (H1 := link_freed fuel0). assert (H2 := send_freed fuel0). assert (H3 := update_scaling_freed fuel0).
  induction fuel as [|fuel IH]; intros s p; cbn [choice_loop choice_loop_r]; freed_tac.
Qed.

Lemma refine_loop_freed fuel0 : forall fuel (s : flow D), freed (refine_loop fuel0 fuel s) (refine_loop_r fuel0 fuel s).
Proof.
  assert (H := choice_loop_freed fuel0 fuel0). induction fuel as [|fuel IH]; intros s; cbn [refine_loop refine_loop_r]; unfold choice_operator; freed_tac.
Qed.

Lemma cut_all_freed fuel (s : flow D) : freed (cut_all fuel s) (cut_all_r fuel s).
Proof. assert (H := flow_cut_freed fuel). unfold cut_all, cut_all_r. freed_tac. Qed.

Lemma phase_freed fuel (s : flow D) : freed (phase fuel s) (phase_r fuel s).
Proof. assert (H1 := refine_loop_freed fuel fuel). assert (H2 := cut_all_freed fuel). unfold phase, phase_r, refine. freed_tac. Qed.

Lemma scaling_loop_freed fuel0 : forall fuel (s : flow D), freed (scaling_loop fuel0 fuel s) (scaling_loop_r fuel0 fuel s).
Proof. assert (H := phase_freed fuel0). induction fuel as [|fuel IH]; intros s; cbn [scaling_loop scaling_loop_r]; freed_tac. Qed.

Lemma min_cost_freed fuel (s : flow D) : freed (min_cost fuel s) (min_cost_r fuel s).
Proof. assert (H := scaling_loop_freed fuel fuel). unfold min_cost, min_cost_r. freed_tac. Qed.

Lemma solve_freed fuel (s : solver D) : freed (solve fuel s) (solve_r fuel s).
Proof.
  assert (H := min_cost_freed fuel). unfold solve, solve_r. rewrite merge_limits_free. destruct (s_n s =? SIZE_MAX); [apply freed_refl|].
  apply freed_bind; [apply freed_refl|intros [limits|]; [|apply freed_refl]]. apply freed_bind; [apply freed_refl|intros [[vmax M] U]].
  rewrite flow_new_free. freed_tac.
Qed.

Theorem run_freed fuel n (mus : list (MuLimit D)) oms :
  run_solver fuel n mus oms = Err AssertFail \/ run_solver_r fuel n mus oms = run_solver fuel n mus oms.
Proof.
  assert (H : freed (run_solver fuel n mus oms) (run_solver_r fuel n mus oms)).
  { assert (H := solve_freed fuel). unfold run_solver, run_solver_r. freed_tac. }
  destruct H as [H|H]; auto.
Qed.
End Release.

Theorem release_solution (one : Z) n mus oms K fuel : 0 < one -> admissible n mus oms K -> solver_fuel n (length oms) K <= Z.of_nat fuel ->
  exists r, @run_solver_r Z (exact_ops one) fuel (Z.of_nat n) mus oms = Ok r /\ solution n mus oms r.
Proof.
  intros H1 HA HF. destruct (solve_solution one H1 n mus oms K fuel HA HF) as (r & E & S). exists r. split; [|exact S].
  destruct (@run_freed Z (exact_ops one) fuel (Z.of_nat n) mus oms) as [X|X]; congruence.
Qed.
