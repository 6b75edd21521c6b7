(** * The run of solve() up to the division by two

    [min_cost()] adds the costs of every edge and of its reverse edge and halves the sum.  With
    integer costs the two are equal, so the sum is twice [sum_even], and the division is exact. *)
From Verif Require Import Base BaseLemmas Data ProblemDefine Flow ProblemSolver.
From Verif Require Import Sums NetMath Spec FlowSpec Convex FlowNet PDProof FlowPhase FlowNew FlowOpt FlowStates FlowProps SolverNet SolverProof SolverSafe PrimalSolve.
Local Open Scope Z_scope.

Section Pre.
Context {D : Type} {ops : DataOps D}.

(** the part of the sum of Flow.cpp:36-42 that belongs to the given limits (not in the code) *)
Definition sum_even (fuel : nat) (s : flow D) : res D :=
  for_each (seq 0 (Nat.div2 (length (f_edges s)))) dzero (fun a k =>
    e <- vget (f_edges s) (2 * k) ;;
    x <- vget (f_flows s) (2 * k) ;;
    m <- limit_min fuel (tilt e x) ;;
    Ok (dadd a m)).

(** ProblemSolver.cpp:42-59 up to Flow.cpp:42 *)
Definition pre_solve (fuel : nat) (s : solver D) : res (option (D * D * D)) :=
  if s_n s =? SIZE_MAX then Ok None
  else
    r <- merge_limits s ;;
    match r with
    | None => Ok None
    | Some limits =>
        '(vmax, M, U) <- calc fuel limits ;;
        fl <- flow_new fuel (Z.to_nat (s_n s)) M U limits ;;
        fl <- scaling_loop fuel fuel fl ;;
        '(_, a) <- sum_answer fuel fl ;;
        h <- sum_even fuel fl ;;
        Ok (Some (vmax, a, h))
    end.

Definition pre_run (fuel : nat) (n : Z) (mus : list (MuLimit D)) (oms : list (OmegaLimit D)) : res (option (D * D * D)) :=
  s <- solver_new fuel n mus oms ;;
  pre_solve fuel s.

Definition finish (r : option (D * D * D)) : option D :=
  match r with None => None | Some (vmax, a, _) => if dlt vmax (dhalf a) then None else Some (dhalf a) end.

Lemma pre_run_finish fuel n mus oms r : pre_run fuel n mus oms = Ok r -> run_solver fuel n mus oms = Ok (finish r).
Proof.
  unfold pre_run, run_solver. intros E. apply bind_inv in E. destruct E as (s & -> & E). cbn [bind]. unfold pre_solve in E. unfold solve.
  destruct (s_n s =? SIZE_MAX); [injection E as <-; reflexivity|].
  apply bind_inv in E. destruct E as (ls & -> & E). cbn [bind]. destruct ls as [ls|]; [|injection E as <-; reflexivity].
  apply bind_inv in E. destruct E as ([[v M] U] & -> & E). cbn [bind]. apply bind_inv in E. destruct E as (fl & -> & E). cbn [bind].
  unfold min_cost. apply bind_inv in E. destruct E as (fl' & -> & E). cbn [bind]. apply bind_inv in E. destruct E as ([fl2 a] & -> & E). cbn [bind].
  apply bind_inv in E. destruct E as (h & _ & E). injection E as <-. cbn [finish]. destruct (dlt v (dhalf a)); reflexivity.
Qed.
End Pre.

Section Int.
Variable one : Z.
#[local] Hint Extern 0 (DataOps Z) => exact (exact_ops one) : typeclass_instances.
Hypothesis H1 : 0 < one.

Lemma sum_even_ok n m M E Gl (HN : flownet n m M E Gl) fuel (Hf : (31 < fuel)%nat) (HR : forall e, (e < 2 * m)%nat -> int_range (o_l (edge E e)) (o_u (edge E e))) s x :
  f_edges s = E -> vec (f_flows s) (2 * m) (xd x) -> sum_even fuel s = Ok (zsum (seq 0 m) (fun k => part one E fuel x (2 * k))).
Proof.
  intros EE Hfl. unfold sum_even. rewrite EE, (fn_len _ _ _ _ _ HN). replace (Nat.div2 (2 * m)) with m by (symmetry; apply Nat.div2_double).
  destruct (for_each_inv (fun pre (a : Z) => a = zsum pre (fun k => part one E fuel x (2 * k)))
    (fun a k => e <- vget E (2 * k) ;; x <- vget (f_flows s) (2 * k) ;; m <- limit_min fuel (tilt e x) ;; Ok (dadd a m)) (seq 0 m) dzero) as (a & Ea & Ha).
  - reflexivity.
  - intros pre k post a Ep Ha. assert (Hk : In k (seq 0 m)) by (rewrite Ep; apply in_or_app; simpl; auto). apply in_seq in Hk.
    rewrite (vget_ok E (2 * k) (edge E (2 * k))) by (apply nth_error_nth'; rewrite (fn_len _ _ _ _ _ HN); lia). cbn [bind].
    rewrite (vec_get _ _ _ _ Hfl) by lia. cbn [bind]. destruct (part_ok one n m M E Gl HN fuel Hf HR x (2 * k) ltac:(lia)) as (Eq & _). rewrite Eq. cbn [bind].
    eexists. split; [reflexivity|]. rewrite zsum_app, <- Ha. cbn [zsum dadd exact_ops]. lia.
  - rewrite <- Ha. exact Ea.
Qed.

Lemma flow_even n M K U limits fuel : network_wf n M K U limits -> flow_iterations n (length limits) K <= Z.of_nat fuel ->
  exists s s1 s2 h, flow_new fuel n M U limits = Ok s /\ scaling_loop fuel fuel s = Ok s1 /\ sum_answer fuel s1 = Ok (s2, 2 * h) /\ sum_even fuel s1 = Ok h.
Proof.
  intros HW Hfuel. destruct HW as (HM & HL & A1 & A2 & A3 & A4 & A5 & A6). rewrite flow_iterations_eq in Hfuel.
  assert (HL' : forall o, In o limits -> limit_ok n M K o) by (intros o Ho; apply limit_wf_ok; auto).
  destruct (run_ok one n M K U limits HM A2 HL' A1 A3) with (fuel := fuel) as (s & E & Gl & s1 & x & E1 & HN & HE & Es & EE & Hfl & _); auto.
  { rewrite Dn_eq. exact A4. }
  { rewrite Dn_eq. exact A6. }
  assert (HF1 : (31 < fuel)%nat).
  { assert (HD := Dn_pos n). assert (HPW := phase_work_mono n (length limits) 1 0 (Dn n * K) ltac:(lia) ltac:(nia)).
    unfold flow_fuel in Hfuel. assert (0 <= phase_work n (length limits) 1 0) by (unfold phase_work; rewrite Z.div_1_r; nia). lia. }
  assert (HR := edge_range n M K U limits HL' A3 A5 fuel E Gl HN HE).
  destruct (sum_answer_ok one n (length limits) M E Gl HN fuel HF1 HR s1 x EE Hfl) as (s2 & Ea).
  exists s, s1, s2, (zsum (seq 0 (length limits)) (fun k => part one E fuel x (2 * k))). split; [exact E1|]. split; [exact Es|]. split.
  - rewrite Ea, (parts_even one n (length limits) M E Gl HN fuel HF1 HR). reflexivity.
  - apply (sum_even_ok n (length limits) M E Gl HN fuel HF1 HR); auto.
Qed.

Lemma pre_run_ok n mus oms K fuel : admissible n mus oms K -> solver_fuel n (length oms) K <= Z.of_nat fuel ->
  exists r, pre_run fuel (Z.of_nat n) mus oms = Ok r /\ (forall v a h, r = Some (v, a, h) -> a = 2 * h).
Proof.
  intros HA Hfuel. pose proof HA as (HWf & HB & HK & HI).
  assert (HK28 : 28 * K <= INT_MAX) by (assert (1 <= Z.of_nat (n + 1)) by lia; nia).
  assert (HK3 : 3 * K <= INT_MAX) by nia.
  assert (Hn : Z.of_nat n < INT_MAX) by (unfold INT_MAX in *; nia).
  assert (HFF : 2 * Z.of_nat (n + 1) + 33 <= flow_fuel n (length oms + n) (2 * K)).
  { unfold flow_fuel, phase_work. rewrite Z.div_1_r. assert (HD2 := Dn_pos n). nia. }
  pose proof Hfuel as Hfuel'. unfold solver_fuel in Hfuel'.
  destruct (network_preserves one n mus oms K fuel HWf HB HK HK3 Hn ltac:(lia)) as (sv & EN & _ & HP).
  unfold pre_run. rewrite EN. cbn [bind]. unfold pre_solve.
  destruct (Z.eqb_spec (s_n sv) SIZE_MAX) as [|Hn0]; [exists None; split; [reflexivity|discriminate]|].
  destruct (HP Hn0) as (r & EM & Hr). rewrite EM. cbn [bind]. destruct r as [limits|]; [|exists None; split; [reflexivity|discriminate]].
  destruct (solver_network one H1 n mus oms K fuel sv limits HA Hfuel EN Hn0 EM) as (vmax & M & U & EC & _ & HW & HF & Esn & _).
  rewrite EC. cbn [bind]. rewrite Esn, Nat2Z.id.
  destruct (flow_even n M (2 * K) U limits fuel HW HF) as (s & s1 & s2 & h & -> & X2 & X3 & X4). cbn [bind]. rewrite X2. cbn [bind]. rewrite X3. cbn [bind]. rewrite X4. cbn [bind].
  eexists. split; [reflexivity|]. intros v a h' E. injection E as <- <- <-. reflexivity.
Qed.
End Int.
