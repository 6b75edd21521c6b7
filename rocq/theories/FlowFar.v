(** * Limits far from 0: the work grows with the distance *)
From Verif Require Import Base BaseLemmas Data UniqueQueue LCT ProblemDefine Flow ProblemSolver Spec FlowSpec.
From Verif Require Import FlowNet FlowNew FlowOpt FlowFrame FlowStates FlowProps FuelMono SolverNet SolverProof SolverProps PDProof ExampleData.
Local Open Scope Z_scope.

(** ** A potential rises by one step in an iteration, whatever the arithmetic *)
Section Climb.
Context {D : Type} {ops : DataOps D}.

Ltac binv H := let a := fresh "a" in let E := fresh "E" in apply bind_inv in H; destruct H as (a & E & H); cbv beta zeta in H.

(** [rises r s s']: no potential has grown by more than [r] steps *)
Definition rises (r : nat) (s s' : flow D) : Prop :=
  f_eps s' = f_eps s /\
  forall v a, nth_error (f_scal s) v = Some a -> exists a', nth_error (f_scal s') v = Some a' /\ a <= a' <= a + Z.of_nat r * Z.quot (f_eps s) 2.

Lemma rises_trans r1 r2 s1 s2 s3 : rises r1 s1 s2 -> rises r2 s2 s3 -> rises (r1 + r2) s1 s3.
Proof.
  intros [A1 A2] [B1 B2]. split; [congruence|]. intros v a E. destruct (A2 v a E) as (a' & E' & X). destruct (B2 v a' E') as (b & E2 & Y).
  exists b. split; [exact E2|]. rewrite A1 in Y. lia.
Qed.

Lemma rises_same r s s' : 0 <= f_eps s -> f_eps s' = f_eps s -> f_scal s' = f_scal s -> rises r s s'.
Proof.
  intros H E1 E2. split; [exact E1|]. intros v a E. exists a. rewrite E2. split; [exact E|].
  assert (0 <= Z.quot (f_eps s) 2) by (apply Z.quot_pos; lia). nia.
Qed.

Definition still (s s' : flow D) : Prop := f_eps s' = f_eps s /\ f_scal s' = f_scal s.
Lemma still_refl s : still s s.
Proof. split; reflexivity. Qed.
Lemma still_trans s1 s2 s3 : still s1 s2 -> still s2 s3 -> still s1 s3.
Proof. intros [A B] [A' B']. split; congruence. Qed.
Ltac easyst := split; reflexivity.

Lemma add_flow_still s e d s' : add_flow_of_edge s e d = Ok s' -> still s s'.
Proof. unfold add_flow_of_edge. intros H. repeat binv H. inversion H; subst. easyst. Qed.

Lemma link_still fuel s p s' : link fuel s p = Ok s' -> still s s'.
Proof. unfold link. intros H. repeat binv H. inversion H; subst. easyst. Qed.

Lemma flow_cut_still fuel s p s' : flow_cut fuel s p = Ok s' -> still s s'.
Proof.
  unfold flow_cut. intros H. repeat binv H. destruct a5 as [h v]. apply add_flow_still in H. eapply still_trans; [|exact H]. easyst.
Qed.

Lemma send_push_still fuel s p r x s' : send_push fuel s p r x = Ok s' -> still s s'.
Proof.
  unfold send_push. intros H. repeat binv H. destruct (dlt dzero a4); [binv H|]; inversion H; subst; easyst.
Qed.

Lemma send_loop_still fuel0 : forall fuel s p r s', send_loop fuel0 fuel s p r = Ok s' -> still s s'.
Proof.
  induction fuel as [|fuel IH]; intros s p r s' H; cbn [send_loop] in H; destruct (Nat.eqb p r);
    try (inversion H; subst; apply still_refl); try discriminate.
  binv H. destruct a as [h m]. binv H. assert (EN : still s (with_nodes s h)) by easyst.
  destruct (dlt a (fst m)).
  - apply send_push_still in H. eapply still_trans; [exact EN|exact H].
  - binv H. apply send_push_still in E1. destruct (snd m) as [y|]; [|discriminate]. binv H.
    apply flow_cut_still in E2. apply IH in H.
    eapply still_trans; [exact EN|]. eapply still_trans; [exact E1|]. eapply still_trans; eauto.
Qed.

Lemma send_still fuel s p s' : send fuel s p = Ok s' -> still s s'.
Proof. unfold send. intros H. binv H. destruct a as [h r]. apply send_loop_still in H. eapply still_trans; [|exact H]. easyst. Qed.

Lemma for_each_still {A} (l : list A) (f : flow D -> A -> res (flow D)) :
  (forall s x s', f s x = Ok s' -> still s s') -> forall s s', for_each l s f = Ok s' -> still s s'.
Proof.
  intros Hf. induction l as [|x l IH]; intros s s' H; cbn [for_each] in H.
  - inversion H; subst. apply still_refl.
  - binv H. eapply still_trans; [eapply Hf; eauto|eauto].
Qed.

Lemma update_scaling_rises fuel s p s' : 0 <= f_eps s -> update_scaling fuel s p = Ok s' -> rises 1 s s'.
Proof.
  unfold update_scaling. intros He H. binv H. binv H.
  assert (E2 : still s a0).
  { revert E0. apply for_each_still. intros s1 e s2 H1. binv H1. binv H1.
    destruct (ptr_eqb a2 (Some p)); [eapply flow_cut_still; eauto|inversion H1; subst; apply still_refl]. }
  destruct E2 as [X1 X2]. repeat binv H. inversion H; subst. clear H E0 E.
  apply vget_inv in E1. apply ck_inv in E2. destruct E2 as [-> _].
  unfold vset in E3. destruct (p <? length (f_scal a0))%nat eqn:Ep; [|discriminate]. inversion E3; subst. clear E3.
  assert (H0 : 0 <= Z.quot (f_eps s) 2) by (apply Z.quot_pos; lia).
  split; [exact X1|]. cbn [with_cur with_scal f_scal]. rewrite X1, X2 in *. intros v b Eb. destruct (Nat.eq_dec p v) as [->|Hn].
  - eexists. split; [apply nth_error_upd_eq, Nat.ltb_lt; auto|]. assert (b = a1) by congruence. subst. lia.
  - exists b. rewrite nth_error_upd_neq by auto. split; [exact Eb|lia].
Qed.

Lemma choice_loop_rises fuel0 : forall fuel s p s', 0 <= f_eps s -> choice_loop fuel0 fuel s p = Ok s' -> rises 1 s s'.
Proof.
  induction fuel as [|fuel IH]; intros s p s' He H; cbn [choice_loop] in H; [discriminate|].
  binv H. binv H. destruct (a <? length a0)%nat; [|eapply update_scaling_rises; eauto].
  binv H. binv H. destruct (dlt dzero a2).
  - binv H. apply link_still in E3. apply send_still in H. destruct (still_trans _ _ _ E3 H). apply rises_same; auto.
  - binv H. apply IH in H; [|exact He]. exact H.
Qed.

Lemma refine_loop_rises fuel0 : forall fuel s s', 0 <= f_eps s -> refine_loop fuel0 fuel s = Ok s' -> rises fuel s s'.
Proof.
  induction fuel as [|fuel IH]; intros s s' He H; cbn [refine_loop] in H; destruct (uq_empty (f_uq s));
    try (inversion H; subst; apply rises_same; auto; fail); try discriminate.
  binv H. binv H. apply choice_loop_rises in E0; [|exact He]. binv H. binv H. binv H. 
  assert (E4 : still a0 a3).
  { destruct (deq a2 dzero); [binv E3; inversion E3; subst; easyst|inversion E3; subst; apply still_refl]. }
  destruct E4 as [X1 X2]. assert (He' : 0 <= f_eps a3) by (rewrite X1; destruct E0 as [-> _]; exact He).
  apply IH in H; [|exact He']. change (S fuel) with (1 + fuel)%nat. apply (rises_trans 1 fuel s a3); [|exact H].
  destruct E0 as [Y1 Y2]. split; [congruence|]. rewrite X2. exact Y2.
Qed.

Lemma push_all_still s s' : push_all_admissible_edge s = Ok s' -> still s s'.
Proof.
  unfold push_all_admissible_edge. intro H. binv H. apply (still_trans s a s'); [revert E; apply for_each_still|revert H; apply for_each_still].
  - intros s1 e s2 H1. binv H1. binv H1. destruct (dlt dzero a1); [|inversion H1; subst; apply still_refl].
    repeat binv H1. inversion H1; subst. easyst.
  - intros s1 e s2 H1. binv H1. destruct (dlt dzero a0); [binv H1|]; inversion H1; subst; easyst.
Qed.

Lemma cut_all_still fuel s s' : cut_all fuel s = Ok s' -> still s s'.
Proof.
  unfold cut_all. apply for_each_still. intros s1 i s2 H. binv H. destruct a; [eapply flow_cut_still; eauto|inversion H; subst; apply still_refl].
Qed.

(** if the loop of refine() ends within [k] iterations *)
Lemma phase_climb fuel k s s1 s2 s' : 0 <= f_eps s -> push_all_admissible_edge (initialization s) = Ok s1 ->
  refine_loop fuel k s1 = Ok s2 -> cut_all fuel s2 = Ok s' -> rises k s s'.
Proof.
  intros He E1 E2 E3. apply push_all_still in E1. destruct E1 as [A1 A2]. cbn [initialization with_cur f_eps f_scal] in A1, A2.
  apply refine_loop_rises in E2; [|rewrite A1; exact He]. apply cut_all_still in E3. destruct E3 as [B1 B2]. destruct E2 as [C1 C2].
  split; [congruence|]. rewrite B2. rewrite A1, A2 in C2. exact C2.
Qed.
End Climb.

(** ** One node, one limit *)
Section Far.
Variable one : Z.
#[local] Hint Extern 0 (DataOps Z) => exact (exact_ops one) : typeclass_instances.

(** x in [L, L + 1], no cost *)
Definition far_limit (L : Z) : list (OmegaLimit Z) := [mkOm L (L + 1) (lin 0) 1 0].
Definition far_mus (L : Z) : list (MuLimit Z) := [mkMu 0 0 (lin 0); mkMu L (L + 1) (lin 0)].

Hypothesis Hone : 0 < one.
Variable L : Z.
Hypothesis HL : 1 <= L <= 19000000.

Lemma far_admissible : admissible 1 (far_mus L) [] (L + 1).
Proof.
  split; [|split].
  - split; [reflexivity|]. split; [|intros o []]. intros i m Hi E. destruct i as [|[|i]]; try lia. cbn [far_mus nth_error] in E. injection E as <-. cbn [m_l m_u m_fn].
    unfold mu_wf. cbn [m_l m_u m_fn]. split; [lia|]. split; apply lin_wf.
  - split; [|intros o []]. intros i m Hi E. destruct i as [|[|i]]; try lia. cbn [far_mus nth_error] in E. injection E as <-. cbn [m_l m_u m_fn]. lia.
  - unfold int_fits, INT_MAX. change (Z.of_nat (1 + 1)) with 2. lia.
Qed.

Lemma far_wf : network_wf 1 one (L + 1) 1 (far_limit L).
Proof.
  split; [lia|]. split.
  - intros o [<-|[]]. unfold limit_wf. cbn [o_l o_u o_fn o_i o_j]. split; [lia|]. split; [apply lin_wf|]. split; [apply lin_wf|].
    split; [intros t Ht; unfold cost, lin; lia|]. lia.
  - unfold flow_fits, INT_MAX. change (bit_ceil (Z.of_nat (1 + 1) * 1)) with 2. change (Z.of_nat (1 + 1)) with 2. lia.
Qed.

Lemma far_eps f s : flow_new f 1 one 1 (far_limit L) = Ok s -> f_eps s = 4.
Proof.
  intros E0. set (F := Nat.max f 40). assert (HfF : (f <= F)%nat) by lia.
  assert (E0' : flow_new F 1 one 1 (far_limit L) = Ok s) by (destruct (flow_new_later HfF 1 one 1 (far_limit L)) as [X|X]; congruence).
  assert (F3 : (31 < F)%nat) by lia.
  destruct (eps_loop_ok 1 1 ltac:(lia) ltac:(unfold Dn, INT_MAX; lia) ltac:(unfold INT_MAX; lia) 31 F 0 eq_refl F3) as (r & Er & R1 & R2 & R3).
  assert (Er4 : 2 ^ Z.of_nat r = 4).
  { destruct r as [|[|[|r]]]; [change (2 ^ Z.of_nat 0) with 1 in R2; lia|change (2 ^ Z.of_nat 1) with 2 in R2; lia|reflexivity|].
    destruct R3 as [R3|R3]; [lia|]. rewrite !Nat2Z.inj_succ, !Z.pow_succ_r in R3 by lia.
    assert (0 < 2 ^ Z.of_nat r) by (apply Z.pow_pos_nonneg; lia). lia. }
  rewrite <- Er4. revert E0'. unfold flow_new. change (2 ^ Z.of_nat 0) with 1 in Er. rewrite Er. cbn [bind]. intro E.
  apply bind_inv in E. destruct E as (a2 & _ & E). apply bind_inv in E. destruct E as (a3 & _ & E). apply bind_inv in E. destruct E as (a4 & _ & E).
  inversion E; subst. reflexivity.
Qed.

Lemma far_flow f k s s1 s2 : flow_new f 1 one 1 (far_limit L) = Ok s ->
  push_all_admissible_edge (initialization s) = Ok s1 -> refine_loop f k s1 = Ok s2 -> 2 * L - 1 <= Z.of_nat k.
Proof.
  intros E0 E1 E2. set (F := Nat.max (Nat.max f k) (Z.to_nat (flow_iterations 1 1 (L + 1)))).
  assert (HF : flow_iterations 1 1 (L + 1) <= Z.of_nat F) by lia.
  assert (E0' : flow_new F 1 one 1 (far_limit L) = Ok s).
  { assert (HfF : (f <= F)%nat) by lia. destruct (flow_new_later HfF 1 one 1 (far_limit L)) as [X|X]; congruence. }
  destruct (J_first one F 1 one (L + 1) 1 (far_limit L) far_wf HF) as (s0 & X0 & _ & Hpot). assert (s0 = s) by congruence. subst s0.
  assert (Ee := far_eps _ _ E0).
  destruct (phase_runs one F 1 one (L + 1) 1 (far_limit L) far_wf HF (fun _ => true) (fun _ _ => eq_refl) _ s (ps_first _ _ _ _ _ _ s E0')) as (s' & P1 & _ & P3 & P4 & P5 & P6); [lia|].
  unfold phase in P1. rewrite E1 in P1. cbn [bind] in P1. unfold refine in P1.
  assert (HfF : (f <= F)%nat) by lia.
  assert (EF : refine_loop F F s1 = Ok s2) by (assert (X : later (refine_loop f k s1) (refine_loop F F s1)) by (apply refine_loop_later; lia); destruct X as [X|X]; congruence).
  assert (Ek : refine_loop F k s1 = Ok s2) by (assert (X : later (refine_loop f k s1) (refine_loop F k s1)) by (apply refine_loop_later; lia); destruct X as [X|X]; congruence).
  rewrite EF in P1. cbn [bind] in P1.
  destruct (phase_climb F k s s1 s2 s' ltac:(lia) E1 Ek P1) as [_ HC].
  assert (Hx : flow_on s' 0 = 0).
  { destruct P4 as (_ & _ & P4). destruct (P4 1%nat ltac:(lia)) as [_ P4']. revert P4'. unfold net_inflow, far_limit. cbn [length seq map nth o_i o_j Nat.eqb fold_right Nat.mul Nat.add]. unfold sumZ. cbn [fold_right]. lia. }
  assert (Hd : 4 * L <= potential s' 1 - potential s' 0 + 2).
  { apply Z.nlt_ge. intro Hlt. destruct (P5 0%nat _ eq_refl) as [_ HR]. cbn [o_i o_j] in HR. rewrite Ee in HR. change (Z.quot 4 2) with 2 in HR.
    specialize (HR (L - 1) ltac:(lia)). change (2 * 0)%nat with 0%nat in HR. rewrite Hx in HR. revert HR. unfold penalised. cbn [o_l o_u o_fn].
    unfold cost, lin, clamp. replace (L - 1 + 1) with L by lia. replace (Z.max L (Z.min (L + 1) L)) with L by lia.
    replace (Z.max L (Z.min (L + 1) (L - 1))) with L by lia. rewrite Z.sub_diag. replace (Z.abs (L - 1 - L)) with 1 by lia. lia. }
  assert (H0 := P6 0%nat ltac:(lia)). rewrite (Hpot 0%nat) in H0.
  assert (H1 : 4 * L - 2 <= potential s' 1) by lia.
  assert (Hl : exists a, nth_error (f_scal s) 1 = Some a).
  { revert E0'. unfold flow_new. intro E.
    apply bind_inv in E. destruct E as (a1 & _ & E). apply bind_inv in E. destruct E as (a2 & _ & E). apply bind_inv in E. destruct E as (a3 & _ & E). apply bind_inv in E. destruct E as (a4 & _ & E).
    inversion E; subst. exists 0. reflexivity. }
  destruct Hl as [a Ea]. assert (Ha := Hpot 1%nat). unfold potential in Ha, H1. rewrite (nth_error_nth _ _ _ Ea) in Ha. subst a.
  destruct (HC 1%nat 0 Ea) as (a' & Ea' & Hb). rewrite (nth_error_nth _ _ _ Ea') in H1. rewrite Ee in Hb. change (Z.quot 4 2) with 2 in Hb. lia.
Qed.

Theorem far_solve f : Z.of_nat f < 2 * L - 1 -> run_solver f 1 (far_mus L) [] = Err OutOfFuel.
Proof.
  intro Hf. set (F := Nat.max f (Z.to_nat (solver_fuel 1 0 (L + 1)))).
  assert (HF : solver_fuel 1 (length (@nil (OmegaLimit Z))) (L + 1) <= Z.of_nat F) by (cbn [length]; lia).
  assert (HfF : (f <= F)%nat) by lia.
  destruct (run_solver_later HfF 1 (far_mus L) []) as [X|X]; [exact X|]. exfalso.
  destruct (solve_returns one Hone 1 (far_mus L) [] (L + 1) F far_admissible HF) as [r Er]. change (Z.of_nat 1) with 1 in Er.
  rewrite Er in X. unfold run_solver, solver_new in X. change (Z.of_nat (length (far_mus L))) with 2 in X. change ((1 + 1) mod (SIZE_MAX + 1)) with 2 in X.
  cbn [Z.eqb Pos.eqb negb] in X. apply bind_inv in X. destruct X as (sv & Es & X). apply bind_inv in Es. destruct Es as (b & Eb & Es).
  destruct b; cbn [negb] in Es.
  2:{ exfalso. revert Eb. clear. destruct f as [|f]; cbn [check_mus]; change (1 <? Z.of_nat 1) with false; [discriminate|]. cbn [far_mus vget nth_error bind m_l m_u].
      destruct (Z.leb_spec L (L + 1)); [|lia]. destruct f; cbn [check_mus]; change (1 <? Z.of_nat 2) with true; discriminate. }
  cbn [check_omegas bind] in Es. injection Es as <-. unfold solve in X. cbn [s_n] in X. change (1 =? SIZE_MAX) with false in X.
  unfold merge_limits in X. cbn [s_oms merge_loop bind s_n s_mus] in X. change (Z.to_nat 1) with 1%nat in X. cbn [seq for_each far_mus vget nth_error bind app m_l m_u m_fn map] in X.
  apply bind_inv in X. destruct X as ([[vmax M] U] & EC & X).
  assert (EMU : M = one /\ U = 1).
  { revert EC. unfold calc. cbn [for_each o_fn o_l o_u]. intro EC. apply bind_inv in EC. destruct EC as (z & EC & Ez). injection Ez as ->.
    cbn [lin bind] in EC. apply bind_inv in EC. destruct EC as (mi & Em & EC). apply bind_inv in EC. destruct EC as (d & Ed & EC).
    apply ck_inv in Ed. destruct Ed as [-> _]. unfold limit_min in Em. apply bind_inv in Em. destruct Em as (p & _ & Em). cbn [o_fn lin] in Em. injection Em as <-.
    cbn [dadd dsub dmax dzero done exact_ops] in EC. injection EC as _ <- <-. split; lia. }
  destruct EMU as [-> ->]. apply bind_inv in X. destruct X as (s & E0 & X). apply bind_inv in X. destruct X as ([s' mc] & EM & _).
  fold (far_limit L) in E0. unfold min_cost in EM. apply bind_inv in EM. destruct EM as (t & EM & _).
  assert (Ee := far_eps _ _ E0).
  destruct f as [|f]; cbn [scaling_loop] in EM; rewrite Ee in EM; change (4 <? 2) with false in EM; [discriminate|].
  apply bind_inv in EM. destruct EM as (t1 & EP & _). unfold phase in EP. apply bind_inv in EP. destruct EP as (s1 & E1 & EP).
  unfold refine in EP. apply bind_inv in EP. destruct EP as (s2 & E2 & _).
  assert (Y := far_flow _ _ s s1 s2 E0 E1 E2). lia.
Qed.
End Far.
