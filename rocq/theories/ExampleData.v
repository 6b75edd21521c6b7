(** * Concrete problems used beside the theorems *)
From Coq Require Import Sorting.Permutation.
From Verif Require Import Base Data ProblemDefine Flow ProblemSolver FlowChecked Spec FlowSpec Convex FlowOpt SolverProof Oracles.
Local Open Scope Z_scope.

Definition sq (a c : Z) : Fn Z := fun x => Ok (a * (x - c) * (x - c)).
Definition ex_steps : nat := Z.to_nat 40000.
Definition lin (a : Z) : Fn Z := fun x => Ok (a * x).
Definition absf : Fn Z := fun x => Ok (Z.abs x).

(** three nodes; entry 0 is never used; parallel and antiparallel omega limits *)
Definition ex_mus : list (MuLimit Z) :=
  [mkMu 1 0 (fun _ => Err BadCall); mkMu (-1) 2 (sq 2 2); mkMu (-2) 2 (sq 3 (-1)); mkMu 0 3 (sq 1 3)].
Definition ex_oms : list (OmegaLimit Z) :=
  [mkOm (-1) 1 (sq 1 0) 1 2; mkOm (-3) 2 (sq 2 1) 2 3; mkOm 0 2 (lin (-3)) 3 2; mkOm (-2) 1 absf 1 2].

(** a cycle of three strict inequalities: infeasible *)
Definition cyc_oms : list (OmegaLimit Z) :=
  [mkOm (-3) (-1) absf 1 2; mkOm (-3) (-1) absf 2 3; mkOm (-3) (-1) absf 3 1].

(** the cost of limit 1 raised by one *)
Definition near_mus : list (MuLimit Z) := upd ex_mus 1 (mkMu (-1) 2 (fun x => Ok (2 * (x - 2) * (x - 2) + 1))).

Lemma sq_wf a c l u : 0 <= a -> defined_on (sq a c) l u /\ convex_on (cost (sq a c)) l u.
Proof. intros H. split; [intros x _; unfold sq; eauto|]. intros x _. unfold cost, sq. nia. Qed.
Lemma lin_wf a l u : defined_on (lin a) l u /\ convex_on (cost (lin a)) l u.
Proof. split; [intros x _; unfold lin; eauto|]. intros x _. unfold cost, lin. nia. Qed.
Lemma absf_wf l u : defined_on absf l u /\ convex_on (cost absf) l u.
Proof. split; [intros x _; unfold absf; eauto|]. intros x _. unfold cost, absf. lia. Qed.

Lemma ex_mu_wf : forall i m, (1 <= i <= 3)%nat -> nth_error ex_mus i = Some m ->
  mu_wf m /\ - 3 <= m_l m /\ m_u m <= 3.
Proof.
  intros i m Hi E. destruct i as [|[|[|[|i]]]]; try lia; cbn [ex_mus nth_error] in E; injection E as <-;
    unfold mu_wf; cbn [m_l m_u m_fn]; (split; [|lia]; split; [lia|apply sq_wf; lia]).
Qed.

Ltac om_wf_tac := unfold om_wf; cbn [o_l o_u o_fn o_i o_j];
  (split; [lia|]); (split; [first [apply sq_wf; lia|apply lin_wf|apply absf_wf]|]);
  (split; [first [apply sq_wf; lia|apply lin_wf|apply absf_wf]|]); repeat split; lia.

Lemma ex_admissible : admissible 3 ex_mus ex_oms 3.
Proof.
  split; [|split].
  - split; [reflexivity|]. split; [intros i m Hi E; apply (ex_mu_wf i m Hi E)|].
    intros o Ho. unfold ex_oms in Ho. cbn [In] in Ho. destruct Ho as [<-|[<-|[<-|[<-|[]]]]]; om_wf_tac.
  - split; [intros i m Hi E; apply (ex_mu_wf i m Hi E)|].
    intros o Ho. unfold ex_oms in Ho. cbn [In] in Ho. destruct Ho as [<-|[<-|[<-|[<-|[]]]]]; cbn [o_l o_u]; lia.
  - unfold int_fits, INT_MAX. lia.
Qed.

Lemma cyc_admissible : admissible 3 ex_mus cyc_oms 3.
Proof.
  split; [|split].
  - split; [reflexivity|]. split; [intros i m Hi E; apply (ex_mu_wf i m Hi E)|].
    intros o Ho. unfold cyc_oms in Ho. cbn [In] in Ho. destruct Ho as [<-|[<-|[<-|[]]]]; om_wf_tac.
  - split; [intros i m Hi E; apply (ex_mu_wf i m Hi E)|].
    intros o Ho. unfold cyc_oms in Ho. cbn [In] in Ho. destruct Ho as [<-|[<-|[<-|[]]]]; cbn [o_l o_u]; lia.
  - unfold int_fits, INT_MAX. lia.
Qed.

Lemma ex_fuel : solver_fuel 3 4 3 <= Z.of_nat ex_steps.
Proof. vm_compute. discriminate. Qed.

Lemma ex_perm : Permutation ex_oms (rev ex_oms).
Proof. apply Permutation_rev. Qed.

Lemma ex_malformed :
  malformed 3 ex_mus (ex_oms ++ [mkOm 0 1 absf 2 4]) /\
  malformed 3 (upd ex_mus 2 (mkMu 2 (-2) absf)) ex_oms /\ malformed 4 ex_mus ex_oms.
Proof.
  split; [|split].
  - right. right. exists (mkOm 0 1 absf 2 4). split; [apply in_or_app; simpl; auto|]. right. left. cbn [o_j]. lia.
  - right. left. exists 2%nat, (mkMu 2 (-2) absf). split; [lia|]. split; [reflexivity|]. cbn [m_l m_u]. lia.
  - left. cbn. lia.
Qed.

Lemma malformed_size_max :
  exists (n : Z) (mus : list (MuLimit Z)) (oms : list (OmegaLimit Z)),
    malformed n mus oms /\ 0 <= n <= SIZE_MAX /\
    forall fuel, (1 <= fuel)%nat -> @run_solver Z (exact_ops 1) fuel n mus oms = Err OutOfBounds.
Proof.
  exists SIZE_MAX, [], []. split; [left; cbn; unfold SIZE_MAX; lia|]. split; [unfold SIZE_MAX; lia|].
  intros [|fuel] H; [lia|]. reflexivity.
Qed.

Lemma om_sum_not_monotone :
  exists (n : nat) (mus : list (MuLimit Z)) (a b : OmegaLimit Z) (K : Z) (fuel : nat),
    admissible n mus [a; b] K /\ solver_fuel n 2 K <= Z.of_nat fuel /\
    o_i a = o_i b /\ o_j a = o_j b /\ o_l a = o_l b /\ o_u a = o_u b /\
    @run_solver Z (exact_ops 1) fuel (Z.of_nat n) mus [a; b] <>
    @run_solver Z (exact_ops 1) fuel (Z.of_nat n) mus [om_sum a b].
Proof.
  exists 3%nat, ex_mus, (mkOm 0 2 (lin (-1)) 2 1), (mkOm 0 2 (lin 1) 2 1), 3, ex_steps.
  split.
  { split; [|split].
    - split; [reflexivity|]. split; [intros i m Hi E; apply (ex_mu_wf i m Hi E)|].
      intros o Ho. cbn [In] in Ho. destruct Ho as [<-|[<-|[]]]; om_wf_tac.
    - split; [intros i m Hi E; apply (ex_mu_wf i m Hi E)|].
      intros o Ho. cbn [In] in Ho. destruct Ho as [<-|[<-|[]]]; cbn [o_l o_u]; lia.
    - unfold int_fits, INT_MAX. lia. }
  split; [vm_compute; discriminate|]. repeat (split; [reflexivity|]). vm_compute. discriminate.
Qed.

Lemma ex_relax :
  @run_solver Z (exact_ops 1) ex_steps 3 ex_mus ([mkOm (-1) 1 (sq 1 0) 1 2] ++ mkOm (-3) (-2) (sq 2 1) 2 3 :: [mkOm 0 2 (lin (-3)) 3 2]) = Ok (Some 19) /\
  @run_solver Z (exact_ops 1) ex_steps 3 ex_mus ([mkOm (-1) 1 (sq 1 0) 1 2] ++ [mkOm 0 2 (lin (-3)) 3 2]) = Ok (Some 1) /\
  Forall2 om_relaxed [mkOm 0 1 (sq 2 1) 1 2] [mkOm (-1) 2 (sq 1 1) 1 2].
Proof.
  split; [vm_compute; reflexivity|]. split; [vm_compute; reflexivity|].
  constructor; [|constructor]. unfold om_relaxed. cbn [o_l o_u o_fn o_i o_j]. repeat split; try lia.
  intros x Hx. unfold cost, sq. nia.
Qed.

(** a network for the flow solver: nodes 0, 1, 2, costs M = 20 per unit outside
    the ranges *)
Definition ex_limits : list (OmegaLimit Z) :=
  [mkOm (-1) 2 (sq 1 2) 1 0; mkOm (-2) 1 (sq 1 (-2)) 2 0; mkOm (-1) 1 (lin 2) 1 2; mkOm 0 2 absf 2 1].

Lemma ex_network_wf : network_wf 2 20 2 3 ex_limits.
Proof.
  split; [lia|]. split.
  - intros o Ho. unfold ex_limits in Ho. cbn [In] in Ho. destruct Ho as [<-|[<-|[<-|[<-|[]]]]];
      unfold limit_wf; cbn [o_l o_u o_fn o_i o_j];
      (split; [lia|]); (split; [first [apply sq_wf; lia|apply lin_wf|apply absf_wf]|]);
      (split; [first [apply sq_wf; lia|apply lin_wf|apply absf_wf]|]);
      (split; [intros t Ht; unfold cost, sq, lin, absf; nia|]); repeat split; lia.
  - unfold flow_fits, INT_MAX. change (bit_ceil (Z.of_nat (2 + 1) * 3)) with 16. lia.
Qed.

Lemma ex_flow_fuel : flow_iterations 2 4 2 <= Z.of_nat ex_steps.
Proof. vm_compute. discriminate. Qed.

(** two limits that fix the same difference to different values *)
Definition clash_limits : list (OmegaLimit Z) := [mkOm 0 0 (lin 0) 1 0; mkOm 1 1 (lin 0) 1 0].

(** mu in [2^29, 2^29 + 2^26], no cost *)
Definition far_limits : list (OmegaLimit Z) := [mkOm (2 ^ 29) (2 ^ 29 + 2 ^ 26) (lin 0) 1 0].

(** construction and run, without the final states *)
Definition flow_result (fuel n : nat) (M U : Z) (limits : list (OmegaLimit Z)) : res (res Z) :=
  match @flow_new Z (exact_ops 1) fuel n M U limits with
  | Ok s => Ok (match @min_cost Z (exact_ops 1) fuel s with Ok (_, v) => Ok v | Err e => Err e end)
  | Err e => Err e
  end.

Lemma flow_result_ok fuel n M U limits v : flow_result fuel n M U limits = Ok (Ok v) ->
  exists s s', @flow_new Z (exact_ops 1) fuel n M U limits = Ok s /\ @min_cost Z (exact_ops 1) fuel s = Ok (s', v).
Proof.
  unfold flow_result. destruct (flow_new _ _ _ _ _) as [s|]; [|discriminate]. intros H. exists s.
  destruct (min_cost fuel s) as [[s' v']|]; inversion H; subst. eauto.
Qed.

Lemma flow_result_err fuel n M U limits e : flow_result fuel n M U limits = Ok (Err e) ->
  exists s, @flow_new Z (exact_ops 1) fuel n M U limits = Ok s /\ @min_cost Z (exact_ops 1) fuel s = Err e.
Proof.
  unfold flow_result. destruct (flow_new _ _ _ _ _) as [s|]; [|discriminate]. intros H. exists s.
  destruct (min_cost fuel s) as [[s' v']|]; inversion H; subst. eauto.
Qed.

Lemma far_overflows :
  exists (n : nat) (M U : Z) (limits : list (OmegaLimit Z)) (s : flow Z),
    6 * Z.of_nat (n + 1) * bit_ceil (Z.of_nat (n + 1) * U) <= INT_MAX /\
    (forall o, In o limits -> limit_wf n M INT_MAX o /\ o_u o - o_l o <= U) /\
    @flow_new Z (exact_ops 1) (Z.to_nat 2000) n M U limits = Ok s /\
    @min_cost Z (exact_ops 1) (Z.to_nat 2000) s = Err IntOverflow.
Proof.
  destruct (flow_result_err (Z.to_nat 2000) 1 1 (2 ^ 26) far_limits IntOverflow ltac:(vm_compute; reflexivity)) as (s & E1 & E2).
  exists 1%nat, 1, (2 ^ 26), far_limits, s. split; [vm_compute; discriminate|]. split.
  - intros o [<-|[]]. unfold limit_wf, INT_MAX. cbn [o_l o_u o_fn o_i o_j]. split; [|lia].
    split; [lia|]. split; [apply lin_wf|]. split; [apply lin_wf|].
    split; [intros t Ht; unfold cost, lin; lia|]. repeat split; lia.
  - split; assumption.
Qed.

Lemma clash_wrong :
  exists (n : nat) (M K U : Z) (limits : list (OmegaLimit Z)) (s s' : flow Z) (v : Z),
    network_wf n M K U limits /\
    @flow_new Z (exact_ops 1) (Z.to_nat 2000) n M U limits = Ok s /\
    @min_cost Z (exact_ops 1) (Z.to_nat 2000) s = Ok (s', v) /\
    ~ network_min M limits v.
Proof.
  destruct (flow_result_ok (Z.to_nat 2000) 1 1 0 clash_limits 0 ltac:(vm_compute; reflexivity)) as (s & s' & E1 & E2).
  exists 1%nat, 1, 1, 0, clash_limits, s, s', 0. split; [|split; [exact E1|split; [exact E2|]]].
  - split; [lia|]. split; [|unfold flow_fits, INT_MAX; lia].
    intros o Ho. unfold clash_limits in Ho. cbn [In] in Ho. destruct Ho as [<-|[<-|[]]];
      unfold limit_wf; cbn [o_l o_u o_fn o_i o_j]; (split; [lia|]); (split; [apply lin_wf|]); (split; [apply lin_wf|]);
      (split; [intros t Ht; lia|]); repeat split; lia.
  - intros [(nu & E) _]. revert E. unfold network_cost, clash_limits. cbn [map o_i o_j sumZ fold_right].
    unfold penalised. cbn [o_l o_u o_fn]. unfold cost, lin.
    unfold clamp. lia.
Qed.

(** the states of a run, without the edges *)
Definition flow_trace (fuel n : nat) (M U : Z) (limits : list (OmegaLimit Z)) : option (Z * (list Z * list Z * list Z)) :=
  match @flow_new Z (exact_ops 1) fuel n M U limits with
  | Ok s => match @scaling_loop Z (exact_ops 1) fuel fuel s with
            | Ok s' => Some (f_eps s, (f_flows s', f_imb s', f_scal s'))
            | Err _ => None
            end
  | Err _ => None
  end.

Lemma flow_trace_ok fuel n M U limits e x : flow_trace fuel n M U limits = Some (e, x) ->
  exists s s', @flow_new Z (exact_ops 1) fuel n M U limits = Ok s /\ f_eps s = e /\
    @scaling_loop Z (exact_ops 1) fuel fuel s = Ok s' /\ (f_flows s', f_imb s', f_scal s') = x.
Proof.
  unfold flow_trace. destruct (flow_new _ _ _ _ _) as [s|]; [|discriminate]. intros H. exists s.
  destruct (scaling_loop fuel fuel s) as [s'|]; inversion H; subst. eauto.
Qed.

(** does the run with tested numbers fail the test? *)
Definition flow_test_fails (fuel n : nat) (M U B : Z) (limits : list (OmegaLimit Z)) : bool :=
  match @flow_new Z (exact_ops 1) fuel n M U limits with
  | Ok s => match @scaling_loop_chk Z (exact_ops 1) (within B) fuel fuel s with Err AssertFail => true | _ => false end
  | Err _ => false
  end.

Lemma flow_test_fails_ok fuel n M U B limits : flow_test_fails fuel n M U B limits = true ->
  exists s, @flow_new Z (exact_ops 1) fuel n M U limits = Ok s /\
    @scaling_loop_chk Z (exact_ops 1) (within B) fuel fuel s = Err AssertFail.
Proof.
  unfold flow_test_fails. destruct (flow_new _ _ _ _ _) as [s|]; [|discriminate]. intros H. exists s.
  destruct (scaling_loop_chk _ _ _ s) as [s'|[]]; try discriminate. auto.
Qed.
