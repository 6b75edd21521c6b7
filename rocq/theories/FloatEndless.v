(** * A problem with double costs on which the solver never returns *)
From Coq Require Import Floats.SpecFloat.
From Verif Require Import Base BaseLemmas Data UniqueQueue LCT ProblemDefine Flow ProblemSolver Oracles CostScaling Spec FloatSpec.
From Verif Require Import Sim FuelMono FlowFrame FlowShift OracleProof SolverProof SolverProps ExampleData.
Local Open Scope Z_scope.

(** ** A refine loop that does not end *)
Section Endless.
Context {D : Type} {ops : DataOps D}.

Lemma refine_loop_step f0 f (s : flow D) :
  Flow.refine_loop f0 (S f) s = if uq_empty (f_uq s) then Ok s else t <- round f0 s ;; Flow.refine_loop f0 f t.
Proof.
  cbn [Flow.refine_loop]. unfold round. destruct (uq_empty (f_uq s)); [reflexivity|].
  destruct (uq_front (f_uq s)) as [p|]; cbn [bind]; [|reflexivity]. destruct (choice_operator f0 s p) as [t|]; cbn [bind]; [|reflexivity].
  destruct (uq_front (f_uq t)) as [p'|]; cbn [bind]; [|reflexivity]. destruct (vget (f_imb t) p') as [a|]; cbn [bind]; [|reflexivity].
  destruct (deq a dzero); [|reflexivity]. destruct (uq_pop (f_uq t)); reflexivity.
Qed.

(** [k] rounds, none of them with an empty queue *)
Fixpoint rounds (fuel k : nat) (s : flow D) : res (flow D) :=
  match k with
  | O => Ok s
  | S k => if uq_empty (f_uq s) then Err EmptyQueue else t <- round fuel s ;; rounds fuel k t
  end.

Lemma later_ok {A} (m1 m2 m : res A) a b : later m1 m -> later m2 m -> m1 = Ok a -> m2 = Ok b -> a = b.
Proof. intros [->|H1] [->|H2] E1 E2; congruence. Qed.

Lemma round_later f1 f2 (s : flow D) : (f1 <= f2)%nat -> later (round f1 s) (round f2 s).
Proof. intro H. assert (H1 := @choice_operator_later D ops f1 f2 H). unfold round. later_tac. Qed.

Lemma rounds_follow N f0 c r k : 0 <= c -> forall f (s' s t : flow D), raised c s' s -> rounds N k s = Ok t -> Flow.refine_loop f0 f s' = Ok r ->
  exists t' f', raised c t' t /\ f = (k + f')%nat /\ Flow.refine_loop f0 f' t' = Ok r.
Proof.
  intro Hc. induction k as [|k IH]; intros f s' s t HR HK HL; cbn [rounds] in HK.
  - injection HK as <-. exists s', f. auto.
  - destruct (uq_empty (f_uq s)) eqn:E; [discriminate|]. apply bind_inv in HK. destruct HK as (s1 & E1 & HK).
    rewrite <- (raised_uq c s' s HR) in E. destruct f as [|f]; [cbn [Flow.refine_loop] in HL; rewrite E in HL; discriminate|].
    rewrite refine_loop_step, E in HL. apply bind_inv in HL. destruct HL as (s1' & E1' & HL).
    destruct (round_raised c Hc f0 s' s HR s1' E1') as (s2 & E2 & HR1).
    assert (s2 = s1) by (eapply (later_ok (round f0 s) (round N s) (round (Nat.max f0 N) s)); eauto using round_later, Nat.le_max_l, Nat.le_max_r). subst s2.
    destruct (IH f s1' s1 t HR1 HK HL) as (t' & f' & H1 & H2 & H3). exists t', f'. split; auto. split; [lia|auto].
Qed.

Lemma raised_trans c d (s2 s1 s : flow D) : raised c s2 s1 -> raised d s1 s -> raised (c + d) s2 s.
Proof.
  intros (-> & H1 & H2) (-> & H3 & H4). split; [|split; auto]. unfold with_scal. cbn [f_n f_M f_eps f_nodes f_imb f_cur f_uq f_fa f_edges f_flows f_G f_scal].
  f_equal. rewrite map_map. apply map_ext. intro. lia.
Qed.

Lemma raised_0 (s : flow D) : Forall (fun x => 0 <= x) (f_scal s) -> 0 <= f_eps s -> raised 0 s s.
Proof. intros H1 H2. split; [|auto]. rewrite map_ext with (g := fun x => x) by (intro; lia). rewrite map_id. destruct s; reflexivity. Qed.

(** the state comes back with larger potentials *)
Lemma endless N k d (s t : flow D) : (1 <= k)%nat -> 0 <= d -> rounds N k s = Ok t -> raised d t s ->
  forall f0 f r, Flow.refine_loop f0 f s <> Ok r.
Proof.
  intros Hk Hd HR HT f0 f r.
  assert (G : forall f c s', 0 <= c -> raised c s' s -> Flow.refine_loop f0 f s' <> Ok r).
  { clear f. intro f. induction f as [f IH] using lt_wf_ind. intros c s' Hc Hs E.
    destruct (rounds_follow N f0 c r k Hc f s' s t Hs HR E) as (t' & f' & H1 & H2 & H3).
    refine (IH f' ltac:(lia) (c + d) t' ltac:(lia) _ H3). exact (raised_trans c d t' t s H1 HT). }
  apply (G f 0 s); [lia|]. destruct HT as (_ & H1 & H2). apply raised_0; assumption.
Qed.

Lemma endless_after N j k d (s s1 t : flow D) : Forall (fun x => 0 <= x) (f_scal s) -> 0 <= f_eps s ->
  rounds N j s = Ok s1 -> (1 <= k)%nat -> 0 <= d -> rounds N k s1 = Ok t -> raised d t s1 ->
  forall f0 f r, Flow.refine_loop f0 f s <> Ok r.
Proof.
  intros H1 H2 Hj Hk Hd HR HT f0 f r E.
  destruct (rounds_follow N f0 0 r j (Z.le_refl 0) f s s s1 (raised_0 s H1 H2) Hj E) as (t' & f' & (-> & HP) & _ & E').
  rewrite (map_ext _ (fun x => x)) in E' by (intro; lia). rewrite map_id in E'.
  replace (with_scal s1 (f_scal s1)) with s1 in E' by (destruct s1; reflexivity).
  exact (endless N k d s1 t Hk Hd HR HT f0 f' r E').
Qed.

Lemma round_evolve fuel (s t : flow D) : round fuel s = Ok t -> evolve s t.
Proof.
  unfold round. intro E. apply bind_inv in E. destruct E as (p & _ & E). apply bind_inv in E. destruct E as (s1 & E1 & E).
  unfold Flow.choice_operator in E1. assert (E0 := FlowFrame.choice_loop_evolve fuel fuel s p s1 E1). apply bind_inv in E. destruct E as (p' & _ & E). apply bind_inv in E. destruct E as (a & _ & E).
  eapply evolve_trans; [exact E0|]. destruct (deq a dzero); [apply bind_inv in E; destruct E as (u & _ & E)|]; injection E as <-;
    [apply evolve_same; reflexivity|apply evolve_refl].
Qed.

Lemma rounds_evolve fuel k : forall (s t : flow D), rounds fuel k s = Ok t -> evolve s t.
Proof.
  induction k as [|k IH]; cbn [rounds]; intros s t E; [injection E as <-; apply evolve_refl|]. destruct (uq_empty (f_uq s)); [discriminate|].
  apply bind_inv in E. destruct E as (s1 & E1 & E). eapply evolve_trans; [eapply round_evolve; exact E1|apply IH; exact E].
Qed.

Lemma scaling_loop_phase N F f (s t : flow D) r : (N <= F)%nat -> 2 <= f_eps s -> phase N s = Ok t -> scaling_loop F f s = Ok r ->
  exists f', scaling_loop F f' (with_eps t (Z.quot (f_eps t) 2)) = Ok r.
Proof.
  intros HN He HP E. destruct f as [|f]; cbn [scaling_loop] in E; destruct (f_eps s <? 2) eqn:X; try (apply Z.ltb_lt in X; lia); [discriminate|].
  apply bind_inv in E. destruct E as (t' & E1 & E2).
  assert (t = t') by (eapply (later_ok (phase N s) (phase F s) (phase F s)); eauto using phase_later, later_refl). subst t'. eauto.
Qed.

Lemma scaling_loop_endless F f (s t : flow D) : 2 <= f_eps s -> push_all_admissible_edge (initialization s) = Ok t ->
  (forall f0 f r, Flow.refine_loop f0 f t <> Ok r) -> forall r, scaling_loop F f s <> Ok r.
Proof.
  intros He HP HE r E. destruct f as [|f]; cbn [scaling_loop] in E; destruct (f_eps s <? 2) eqn:X; try (apply Z.ltb_lt in X; lia); [discriminate|].
  apply bind_inv in E. destruct E as (t' & E1 & _). unfold phase in E1. rewrite HP in E1. cbn [bind] in E1. unfold Flow.refine in E1.
  apply bind_inv in E1. destruct E1 as (u & E1 & _). exact (HE F F u E1).
Qed.
End Endless.

(** ** x1 in 0..1 with cost -0.7 * x1, x2 in 0..2 with cost 0.1 * x2 *)
Definition fdiv (a b : Z) : spec_float := SFdiv f64_prec f64_emax (f64_of_Z a) (f64_of_Z b).
(** the callback [[](int x) { return c * x; }] with a double c *)
Definition times (c : spec_float) : Fn spec_float := fun x => Ok (SFmul f64_prec f64_emax c (f64_of_Z x)).
Definition no_fn {D} : Fn D := fun _ => Err BadCall.

Definition tenths_mus : list (MuLimit spec_float) := [mkMu 0 0 no_fn; mkMu 0 1 (times (fdiv (-7) 10)); mkMu 0 2 (times (fdiv 1 10))].

#[local] Hint Extern 0 (DataOps spec_float) => exact f64_ops : typeclass_instances.
(** the states of the run, computed with at most 100 iterations per loop *)
Definition value {A} (d : A) (m : res A) : A := match m with Ok a => a | Err _ => d end.
Definition is_ok {A} (m : res A) : bool := match m with Ok _ => true | Err _ => false end.
Lemma value_ok {A} (d : A) m : is_ok m = true -> m = Ok (value d m).
Proof. destruct m; [reflexivity|discriminate]. Qed.
Definition nothing : flow spec_float := mkFlow 0 dzero 0 [] [] [] (uq_new 0) [] [] [] [] [].
Definition next_eps (s : flow spec_float) : flow spec_float := with_eps s (Z.quot (f_eps s) 2).

Definition lims0 : list (OmegaLimit spec_float) := [mkOm 0 1 (times (fdiv (-7) 10)) 1 0; mkOm 0 2 (times (fdiv 1 10)) 2 0].
Definition calc0 : spec_float * spec_float * Z := value (dzero, dzero, 0) (calc 100 lims0).
Definition flow0 : flow spec_float := value nothing (flow_new 100 2 (snd (fst calc0)) (snd calc0) lims0).
Definition flow1 : flow spec_float := value nothing (phase 100 flow0).
Definition flow2 : flow spec_float := value nothing (phase 100 (next_eps flow1)).
Definition flow3 : flow spec_float := value nothing (push_all_admissible_edge (initialization (next_eps flow2))).
Definition flow4 : flow spec_float := value nothing (rounds 100 20 flow3).

Lemma run_new : solver_new 100 2 tenths_mus [] = Ok (mkSolver 2 tenths_mus []).
Proof. reflexivity. Qed.
Lemma run_merge : merge_limits (mkSolver 2 tenths_mus []) = Ok (Some lims0).
Proof. reflexivity. Qed.
Lemma run_calc : calc 100 lims0 = Ok calc0.
Proof. apply value_ok. vm_compute. reflexivity. Qed.
Lemma run_flow0 : flow_new 100 2 (snd (fst calc0)) (snd calc0) lims0 = Ok flow0.
Proof. apply value_ok. vm_compute. reflexivity. Qed.
Lemma run_flow1 : phase 100 flow0 = Ok flow1.
Proof. apply value_ok. vm_compute. reflexivity. Qed.
Lemma run_flow2 : phase 100 (next_eps flow1) = Ok flow2.
Proof. apply value_ok. vm_compute. reflexivity. Qed.
Lemma run_flow3 : push_all_admissible_edge (initialization (next_eps flow2)) = Ok flow3.
Proof. apply value_ok. vm_compute. reflexivity. Qed.
Lemma run_flow4 : rounds 100 20 flow3 = Ok flow4.
Proof. apply value_ok. vm_compute. reflexivity. Qed.
(** ten rounds later everything is as before, except that all potentials are
    larger by 4 *)
Definition bare (s : flow spec_float) : flow spec_float := with_edges s [].
Lemma bare_again : bare (value nothing (rounds 100 10 flow4)) = bare (with_scal flow4 (map (Z.add 4) (f_scal flow4))).
Proof. vm_compute. reflexivity. Qed.
Lemma run_again : rounds 100 10 flow4 = Ok (with_scal flow4 (map (Z.add 4) (f_scal flow4))).
Proof.
  assert (E : rounds 100 10 flow4 = Ok (value nothing (rounds 100 10 flow4))) by (apply value_ok; vm_compute; reflexivity).
  rewrite E. assert (EV := ev_edges _ _ (rounds_evolve 100 10 _ _ E)). clear E. assert (B := bare_again). revert EV B.
  generalize (value nothing (rounds 100 10 flow4)). generalize flow4. intros u t EV B. f_equal. clear - EV B.
  transitivity (with_edges (bare t) (f_edges t)); [destruct t; reflexivity|]. rewrite B, EV. destruct u; reflexivity.
Qed.

Lemma flow3_endless : forall f0 f r, Flow.refine_loop f0 f flow3 <> Ok r.
Proof.
  apply (endless_after 100 20 10 4 flow3 flow4 (with_scal flow4 (map (Z.add 4) (f_scal flow4)))).
  - replace (f_scal flow3) with [4; 8; 0] by (vm_compute; reflexivity). repeat constructor; lia.
  - replace (f_eps flow3) with 4 by (vm_compute; reflexivity). lia.
  - exact run_flow4.
  - lia.
  - lia.
  - exact run_again.
  - split; [reflexivity|]. replace (f_scal flow4) with [12; 16; 10] by (vm_compute; reflexivity). split; [repeat constructor; lia|].
    replace (f_eps flow4) with 4 by (vm_compute; reflexivity). lia.
Qed.

Lemma later_known {A} (m1 m2 : res A) a b : later m1 m2 -> m1 = Ok a -> m2 = Ok b -> b = a.
Proof. intros [->|H] E1 E2; congruence. Qed.

Theorem tenths_endless : forall fuel r, run_solver fuel 2 tenths_mus [] <> Ok r.
Proof.
  intros fuel r E. set (F := Nat.max fuel 100). assert (HF : (100 <= F)%nat) by apply Nat.le_max_r.
  assert (E' : run_solver F 2 tenths_mus [] = Ok r).
  { destruct (@run_solver_later _ f64_ops fuel F (Nat.le_max_l _ _) 2 tenths_mus []) as [X|X]; [congruence|]. rewrite <- X. exact E. }
  clear E. clearbody F. clear fuel. unfold run_solver in E'. apply bind_inv in E'. destruct E' as (sv & E1 & E).
  rewrite (later_known _ _ _ _ (@solver_new_later _ f64_ops 100 F HF 2 tenths_mus []) run_new E1) in E. clear sv E1.
  unfold solve in E. cbn [s_n] in E. change (2 =? SIZE_MAX) with false in E. cbv iota in E. rewrite run_merge in E. cbn [bind] in E.
  apply bind_inv in E. destruct E as (c & E1 & E). rewrite (later_known _ _ _ _ (@calc_later _ f64_ops 100 F HF lims0) run_calc E1) in E. clear c E1.
  rewrite (surjective_pairing calc0), (surjective_pairing (fst calc0)) in E. cbv iota beta in E.
  apply bind_inv in E. destruct E as (fl & E1 & E). change (Z.to_nat 2) with 2%nat in E1.
  rewrite (later_known _ _ _ _ (@flow_new_later _ f64_ops 100 F HF 2 (snd (fst calc0)) (snd calc0) lims0) run_flow0 E1) in E. clear fl E1.
  apply bind_inv in E. destruct E as (x & E1 & _). unfold min_cost in E1. apply bind_inv in E1. destruct E1 as (y & E & _). clear x.
  apply (scaling_loop_phase 100 F F flow0 flow1 y HF) in E; [|replace (f_eps flow0) with 16 by (vm_compute; reflexivity); lia|exact run_flow1]. destruct E as (f' & E).
  apply (scaling_loop_phase 100 F f' (next_eps flow1) flow2 y HF) in E; [|replace (f_eps (next_eps flow1)) with 8 by (vm_compute; reflexivity); lia|exact run_flow2].
  destruct E as (f'' & E).
  refine (scaling_loop_endless F f'' (next_eps flow2) flow3 _ run_flow3 flow3_endless y E).
  replace (f_eps (next_eps flow2)) with 4 by (vm_compute; reflexivity). lia.
Qed.

(** ** The same problem in exact numbers, in units of 2^-55 *)
Definition tenths_exact : list (MuLimit Z) := [mkMu 0 0 (lin 0); mkMu 0 1 (lin (-25220157913274776)); mkMu 0 2 (lin 3602879701896397)].

Lemma tenths_problem : problem_is 55 tenths_mus [] tenths_exact [].
Proof.
  split; [reflexivity|]. split; [|constructor]. intros i mf mz Hi Ef Ez.
  destruct i as [|[|[|i]]]; [lia| | |destruct i; discriminate]; cbn [tenths_mus tenths_exact nth_error] in Ef, Ez; injection Ef as <-; injection Ez as <-;
    (split; [reflexivity|]); (split; [reflexivity|]); cbn [m_l m_u m_fn]; intros x Hx; eexists; eexists; (split; [reflexivity|]); (split; [reflexivity|]).
  - assert (X : x = 0 \/ x = 1) by lia. destruct X as [->| ->]; vm_compute; auto.
  - assert (X : x = 0 \/ x = 1 \/ x = 2) by lia. destruct X as [->|[->| ->]]; vm_compute; auto.
Qed.

Lemma tenths_admissible : admissible 2 tenths_exact [] 2.
Proof.
  split; [|split].
  - split; [reflexivity|]. split; [|intros o []].
    intros i m Hi E. destruct i as [|[|[|i]]]; try lia; cbn [tenths_exact nth_error] in E; injection E as <-;
      unfold mu_wf; cbn [m_l m_u m_fn]; (split; [lia|apply lin_wf]).
  - split; [|intros o []].
    intros i m Hi E. destruct i as [|[|[|i]]]; try lia; cbn [tenths_exact nth_error] in E; injection E as <-; cbn [m_l m_u]; lia.
  - unfold int_fits, INT_MAX. lia.
Qed.

Lemma tenths_optimum : optimum 2 tenths_exact [] (-25220157913274776).
Proof.
  split.
  - exists (fun i => if Nat.eqb i 1 then 1 else 0), (fun _ => 0). split; [|reflexivity]. split.
    + intros i Hi. destruct i as [|[|[|i]]]; try lia; eexists; (split; [reflexivity|]); cbn; lia.
    + intros [|k] o E; discriminate.
  - intros mu om [F _]. destruct (F 1%nat ltac:(lia)) as (m1 & E1 & B1). destruct (F 2%nat ltac:(lia)) as (m2 & E2 & B2).
    cbn [tenths_exact nth_error] in E1, E2. injection E1 as <-. injection E2 as <-. cbn [m_l m_u] in B1, B2.
    unfold total_cost, mu_cost. cbn [seq map sumZ tenths_exact nth_error cost m_fn lin length]. lia.
Qed.

Lemma tenths_refute : exists k n musf omsf mus oms K v,
  problem_is k musf omsf mus oms /\ admissible n mus oms K /\ optimum n mus oms v /\
  forall fuel r, @run_solver spec_float f64_ops fuel (Z.of_nat n) musf omsf <> Ok r.
Proof.
  exists 55, 2%nat, tenths_mus, [], tenths_exact, [], 2, (-25220157913274776).
  split; [exact tenths_problem|]. split; [exact tenths_admissible|]. split; [exact tenths_optimum|exact tenths_endless].
Qed.
