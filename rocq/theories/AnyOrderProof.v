(** * The order of the active nodes does not matter *)
From Coq Require Import Permutation.
From Verif Require Import Base BaseLemmas Data UniqueQueue LCT ProblemDefine Flow ProblemSolver Spec FlowSpec.
From Verif Require Import LCTChecked LCTBound LCTSpec LCTForest LCTOps UQProof Sums NetMath FlowNet FlowInv FlowPhase FlowChecked FlowRun FlowNew FlowOpt PDProof.
From Verif Require Import FlowStates FlowProps SolverProof PrimalSolve AnyOrder.
Local Open Scope Z_scope.

Section Order.
Variable one : Z.
#[local] Hint Extern 0 (DataOps Z) => exact (exact_ops one) : typeclass_instances.
Variable order : flow Z -> list nat -> list nat.
Hypothesis HO : reorders order.

Section Net.
Variables (n m : nat) (M : Z) (E : list (OmegaLimit Z)) (Gl : list (list nat)).
Hypothesis HN : flownet n m M E Gl.

Notation exc := (exc m (nei E) (nej E)).
Notation St := (St n m M E Gl).
Notation opt := (opt m (nei E) (nej E) (lftE n M E)).
Notation nodes := (nodes n).
Notation Head := (Head n m M E Gl).
Notation all := (fun _ : Z => true).
Let net := flownet_netok _ _ _ _ _ HN.
Let Hall : forall z, Z.abs z <= 2 * Cb m M -> all z = true := fun _ _ => eq_refl.

Ltac stf H := pose proof H as [?Sn ?SM ?Seps ?SE ?SG ?Slen ?Srep ?Simb ?Scur ?Sfa ?Sfl ?Sp ?Suq ?Ssb].
Ltac pj := cbn [f_n f_M f_eps f_nodes f_imb f_cur f_uq f_fa f_edges f_flows f_G f_scal
                with_nodes with_fa with_imb with_uq with_flows with_cur with_scal with_eps bind].

Lemma uq_reorder N u l : uq_ok N u -> Permutation (uq_queue u) l -> uq_ok N (mkUQ l (uq_in u)).
Proof using.
  intros [U1 U2 U3 U4] HP. constructor; cbn [uq_queue uq_in]; auto.
  - exact (Permutation_NoDup HP U2).
  - intros x Hx. apply U3. exact (Permutation_in _ (Permutation_sym HP) Hx).
  - intros x Hx. rewrite (U4 x Hx). split; apply Permutation_in; [exact HP|exact (Permutation_sym HP)].
Qed.

Variable fuel : nat.
Hypothesis Hfuel : (n + 1 < fuel)%nat.
Hypothesis HfuelE : (2 * m < fuel)%nat.

Section Loop.
Variables (eps h : Z).
Hypothesis Hh : 0 < h.
Hypothesis Heps : h = Z.quot eps 2.
Variable W : Z.
Hypothesis HW : Z.of_nat m * M <= W <= 34 * (Z.of_nat m * M).
Variables (kap : Z) (p0 x0 : nat -> Z).
Hypothesis Hkap : 0 <= kap.
Hypothesis Hopt0 : opt kap p0 x0.
Hypothesis Hexc0 : forall u, (u <= n)%nat -> exc x0 u = 0.
Hypothesis Hp0 : forall u, (u <= n)%nat -> 0 <= p0 u /\ p0 u + Z.of_nat n * (kap + h) <= INT_MAX.
Notation Inv := (Inv n m M E Gl eps h W).
Notation pinv := (pinv n m E h kap p0).
Notation qinv := (qinv n m E).
Notation mu := (mu n M E Gl h kap p0).

Lemma inv_reorder s par val cur p fl x rank : Inv s par val cur p fl x rank -> Inv (reorder order s) par val cur p fl x rank.
Proof using HO.
  intros [HS HI HPr Hhi Hlo]. constructor; auto. unfold reorder. stf HS. constructor; pj; auto.
  apply uq_reorder; auto.
Qed.

Lemma q_reorder par x s : qinv par x (uq_queue (f_uq s)) -> qinv par x (uq_queue (f_uq (reorder order s))).
Proof using HO.
  intros [Q1 Q2 Q3]. unfold reorder. pj. cbn [uq_queue]. assert (HP := HO s (uq_queue (f_uq s))). constructor; auto.
  - intros u Hu Hp. exact (Permutation_in _ HP (Q1 u Hu Hp)).
  - intros u Hi. apply Q2. exact (Permutation_in _ (Permutation_sym HP) Hi).
Qed.

Lemma refine_loop_o_ok : forall k s par val cur p fl x rank,
  mu par cur p x < Z.of_nat k -> Inv s par val cur p fl x rank -> pinv p x ->
  qinv par x (uq_queue (f_uq s)) ->
  exists s' par' val' cur' p' fl' x' rank', refine_loop_o order fuel k s = Ok s' /\
    Inv s' par' val' cur' p' fl' x' rank' /\ pinv p' x' /\ uq_queue (f_uq s') = [] /\
    (forall u, (u <= n)%nat -> exc x' u = 0).
Proof.
  induction k as [|k IH]; intros s par val cur p fl x rank Hk HInv HPI HQ.
  { assert (H := mu_nonneg n m M E Gl h Hh fuel Hfuel kap p0 par cur p x HPI). lia. }
  cbn [refine_loop_o]. unfold uq_empty. destruct (uq_queue (f_uq s)) as [|v0 qu0] eqn:Eq0.
  - exists s, par, val, cur, p, fl, x, rank. split; [reflexivity|]. split; [exact HInv|]. split; [exact HPI|]. split; [exact Eq0|].
    assert (Hle : forall u, (u <= n)%nat -> exc x u <= 0).
    { intros u Hu. destruct (Z.le_gt_cases (exc x u) 0); auto. exfalso. apply (qv_in _ _ _ _ _ _ HQ u); auto. }
    intros u Hu. destruct (Z.eq_dec (exc x u) 0) as [|Hn]; auto. exfalso.
    assert (Hneg : 0 < - exc x u) by (specialize (Hle u Hu); lia).
    destruct (sum_neg_exists nodes (fun w => - exc x w) u) as (w & Hw & Hwn).
    + assert (A := sum_exc_all _ _ _ _ _ _ _ net x).
      assert (B := zsum_scale nodes (-1) (exc x)).
      rewrite (zsum_ext nodes (fun w => - exc x w) (fun w => -1 * exc x w)) by (intros; lia). lia.
    + apply in_nodes; auto.
    + exact Hneg.
    + apply in_nodes in Hw. specialize (Hle w Hw). lia.
  - cbv zeta. rewrite <- Eq0 in HQ. apply q_reorder in HQ. apply inv_reorder in HInv.
    assert (Eq : exists v qu, uq_queue (f_uq (reorder order s)) = v :: qu).
    { unfold reorder. pj. cbn [uq_queue]. assert (HP := HO s (uq_queue (f_uq s))). rewrite Eq0 in *.
      destruct (order s (v0 :: qu0)) as [|v qu]; [|eauto]. apply Permutation_sym in HP. apply Permutation_nil_cons in HP. contradiction. }
    destruct Eq as (v & qu & Eq). set (t := reorder order s) in *. clearbody t. clear v0 qu0 Eq0 s.
    assert (Hv : (v <= n)%nat).
    { assert (H := uq_lt _ _ (st_uq _ _ _ _ _ _ _ _ _ _ _ _ _ (iv_st _ _ _ _ _ _ _ _ _ _ _ _ _ _ _ _ HInv)) v).
      rewrite Eq in H. specialize (H (or_introl eq_refl)). lia. }
    assert (Hpos : 0 < exc x v) by (apply (qv_pos _ _ _ _ _ _ HQ); rewrite Eq; simpl; auto).
    unfold uq_front at 1. rewrite Eq. pj.
    destruct (choice_loop_ok one n m M E Gl HN all Hall eps h Hh Heps W HW fuel Hfuel kap p0 x0 Hkap Hopt0 Hexc0 Hp0
                fuel t par val cur p fl x rank v ltac:(assert (Dg := deg_le n m M E Gl HN v Hv); lia) HInv HPI HQ Hv Hpos)
      as (s1 & par1 & val1 & cur1 & p1 & fl1 & x1 & rank1 & E1 & HInv1 & HPI1 & HS1 & HM1).
    apply (choice_loop_chk_sim all) in E1.
    unfold choice_operator. rewrite E1. pj. destruct HS1 as [(ext & T1) T2 T3 T4 T5]. rewrite Eq in T1. cbn [app] in T1.
    unfold uq_front. rewrite T1. pj.
    pose proof HInv1 as [HSt1 HI1 HPr1 Hhi1 Hlo1]. stf HSt1.
    rewrite (vec_get _ _ _ _ Simb) by lia. pj. cbn [deq dzero exact_ops].
    destruct (Z.eqb_spec (exc x1 v) 0) as [Ez|Ez].
    + destruct (uq_pop_ok (n + 1) (f_uq s1) v (qu ++ ext) Suq T1) as (u' & Eu & Ou & Lu). rewrite Eu. pj.
      assert (ND := uq_nodup _ _ Suq). rewrite T1 in ND. inversion ND as [|q1 q2 N1 N2]; subst q1 q2.
      apply (IH (with_uq s1 u') par1 val1 cur1 p1 fl1 x1 rank1); auto; [lia| |].
      * constructor; auto. constructor; pj; auto.
      * pj. rewrite Lu. constructor; auto.
        -- intros u Hu Hp. specialize (T2 u Hu Hp). rewrite T1 in T2. destruct T2 as [->|T2]; [lia|exact T2].
        -- intros u Hi. apply T3; [rewrite T1; simpl; auto|]. intros ->; auto.
    + apply (IH s1 par1 val1 cur1 p1 fl1 x1 rank1); auto; [lia|].
      constructor; auto.
      intros u Hi. destruct (Nat.eq_dec u v) as [->|Hn]; [lia|]. apply T3; auto.
Qed.
End Loop.

(** one phase *)
Lemma phase_o_ok eps h kap W s p x :
  0 < h -> h = Z.quot eps 2 -> 0 <= kap -> 0 <= W <= 33 * (Z.of_nat m * M) -> Head eps kap W s p x ->
  (forall u, (u <= n)%nat -> p u + Z.of_nat n * (kap + h) <= INT_MAX) ->
  phase_work n m h kap < Z.of_nat fuel ->
  exists s' p' x', phase_o order fuel s = Ok s' /\ Head eps h (W + Z.of_nat m * M) s' p' x' /\
    forall u, (u <= n)%nat -> p u <= p' u <= p u + Z.of_nat n * (kap + h).
Proof.
  intros Hh Heps Hkap HW [(par & val & cur & HS & Hpar & Hval) Hexc Hopt HM Hq Hp] Hint Hwork.
  assert (HW' : Z.of_nat m * M <= W + Z.of_nat m * M <= 34 * (Z.of_nat m * M)) by lia.
  unfold phase_o, initialization. stf HS.
  assert (Hp2 : forall u, (u <= n)%nat -> 0 <= p u <= INT_MAX).
  { intros u Hu. assert (A := Hint u Hu). assert (B := Hp u Hu). nia. }
  destruct (push_all_ok one n m M E Gl HN all Hall eps (with_cur s (repeat 0%nat (length (f_cur s)))) par val (fun _ => 0%nat) p x)
    as (s1 & x1 & E1 & HS1 & HO1 & HM1 & HQ1); auto.
  { constructor; pj; auto.
    - eapply vec_ext; [exact Simb|]. intros u Hu. rewrite Hexc by lia. reflexivity.
    - rewrite (vec_len _ _ _ Scur). apply vec_repeat. }
  apply (push_all_chk_sim all) in E1.
  assert (HI1 := minv_start' n m M E Gl HN h par val p x1 Hh Hpar HO1 HM1).
  assert (HInv1 : Inv n m M E Gl eps h (W + Z.of_nat m * M) s1 par val (fun _ => 0%nat) p (xd x1) x1 (fun _ => 0%nat)).
  { constructor; auto.
    - intros v Hv. apply Hval; auto.
    - intros v Hv _. assert (A := Hval v Hv). assert (B := exc_bound m M E x1 v HM1). lia. }
  assert (Hp0 : forall u, (u <= n)%nat -> 0 <= p u /\ p u + Z.of_nat n * (kap + h) <= INT_MAX) by (intros; split; auto).
  destruct (refine_loop_o_ok eps h Hh Heps _ HW' kap p x Hkap Hopt Hexc Hp0)
    with (k := fuel) (s := s1) (par := par) (val := val) (cur := fun _ : nat => 0%nat) (p := p) (fl := xd x1) (x := x1)
         (rank := fun _ : nat => 0%nat)
    as (s2 & par2 & val2 & cur2 & p2 & fl2 & x2 & rank2 & E2 & HInv2 & HPI2 & HQ2 & HX2); auto.
  { eapply Z.le_lt_trans; [|exact Hwork]. eapply mu_start; eauto. }
  { constructor; auto; intros; try lia; nia. }
  { constructor.
    - intros u Hu Hpos. apply HQ1; auto.
    - intros u Hi. apply HQ1; auto.
    - intros u Hu _. auto. }
  destruct (cut_all_ok one n m M E Gl HN all Hall eps h _ HW' fuel Hfuel s2 par2 val2 cur2 p2 fl2 x2 rank2 HInv2)
    as (s3 & par3 & fl3 & E3 & U3 & HInv3 & HP3).
  apply (cut_all_chk_sim all) in E3.
  exists s3, p2, x2. split; [rewrite E1; cbn [bind]; unfold refine_o; rewrite E2; exact E3|].
  destruct HInv3 as [HS3 HI3 HPr3 Hhi3 Hlo3]. split.
  - constructor; auto.
    + exists par3, val2, cur2. split; [|split; [exact HP3|]].
      2:{ intros u Hu. split; [|auto]. assert (A := Hlo3 u Hu (HP3 u Hu)). rewrite HX2 in A by auto. lia. }
      stf HS3. constructor; auto.
      * eapply vec_ext; [eassumption|]. intros u Hu. apply HX2. lia.
      * eapply vec_ext; [eassumption|]. intros e He. apply (mi_fl _ _ _ _ _ _ _ _ _ _ _ _ _ _ _ HI3); auto.
        intros c e' Hc [H1 _]. rewrite HP3 in H1 by auto. congruence.
    + apply (mi_opt _ _ _ _ _ _ _ _ _ _ _ _ _ _ _ HI3).
    + apply (mi_xM _ _ _ _ _ _ _ _ _ _ _ _ _ _ _ HI3).
    + rewrite U3; auto.
    + intros u Hu. apply HPr3; auto.
  - intros u Hu. assert (A := pv_ge _ _ _ _ _ _ _ _ HPI2 u Hu). assert (B := pv_le _ _ _ _ _ _ _ _ HPI2 u Hu). lia.
Qed.

Lemma scaling_o_later : forall k fuel2 W s p x P,
  (k <= fuel2)%nat -> 0 <= W -> W + Z.of_nat k * (Z.of_nat m * M) <= 33 * (Z.of_nat m * M) ->
  Head (2 ^ Z.of_nat k) (2 ^ Z.of_nat k) W s p x ->
  (forall u, (u <= n)%nat -> p u <= P) -> P + 3 * Z.of_nat n * (2 ^ Z.of_nat k - 1) <= INT_MAX ->
  phase_work n m 1 2 < Z.of_nat fuel ->
  exists s' p' x', scaling_loop_o order fuel fuel2 s = Ok s' /\ exists W', Head 1 1 W' s' p' x'.
Proof.
  induction k as [|k IH]; intros fuel2 W s p x P Hk HW0 HW HH HP HI Hw.
  all: assert (HMm : 0 <= Z.of_nat m * M) by (assert (A := fn_M _ _ _ _ _ HN); nia).
  - change (2 ^ Z.of_nat 0) with 1 in *.
    assert (Ee : f_eps s = 1) by (destruct HH as [(par & val & cur & HS & _) _ _ _ _ _]; apply (st_eps _ _ _ _ _ _ _ _ _ _ _ _ _ HS)).
    exists s, p, x. destruct fuel2; cbn [scaling_loop_o]; rewrite Ee; cbn; (split; [reflexivity|exists W; exact HH]).
  - destruct fuel2 as [|fuel2]; [lia|]. cbn [scaling_loop_o].
    set (h := 2 ^ Z.of_nat k) in *.
    assert (Hh : 1 <= h) by (unfold h; assert (A := Z.pow_pos_nonneg 2 (Z.of_nat k) ltac:(lia) ltac:(lia)); lia).
    assert (E2 : 2 ^ Z.of_nat (S k) = 2 * h) by (rewrite Nat2Z.inj_succ, Z.pow_succ_r by lia; reflexivity).
    assert (Ee : f_eps s = 2 ^ Z.of_nat (S k)) by (destruct HH as [(par & val & cur & HS & _) _ _ _ _ _]; apply (st_eps _ _ _ _ _ _ _ _ _ _ _ _ _ HS)).
    rewrite Ee. destruct (Z.ltb_spec (2 ^ Z.of_nat (S k)) 2); [lia|].
    rewrite E2 in HH.
    destruct (phase_o_ok (2 * h) h (2 * h) W s p x) as (s1 & p1 & x1 & E1 & HH1 & HB1); auto; try lia.
    { rewrite <- E2, pow2_quot. reflexivity. }
    { intros u Hu. specialize (HP u Hu). rewrite E2 in HI. nia. }
    { rewrite work_later by lia. exact Hw. }
    rewrite E1. pj.
    assert (Ee1 : f_eps s1 = 2 * h) by (destruct HH1 as [(par & val & cur & HS & _) _ _ _ _ _]; apply (st_eps _ _ _ _ _ _ _ _ _ _ _ _ _ HS)).
    rewrite Ee1, <- E2, pow2_quot. fold h.
    apply (IH fuel2 (W + Z.of_nat m * M) (with_eps s1 h) p1 x1 (P + 3 * Z.of_nat n * h)); auto; try lia.
    { eapply head_eps; eauto. }
    { intros u Hu. specialize (HP u Hu). specialize (HB1 u Hu). nia. }
Qed.

Lemma scaling_o_ok k fuel2 s p x kap :
  (k < fuel2)%nat -> (k <= 31)%nat -> 0 <= kap -> Head (2 ^ Z.of_nat (S k)) kap 0 s p x ->
  (forall u, (u <= n)%nat -> p u = 0) ->
  Z.of_nat n * (kap + 2 * 2 ^ Z.of_nat (S k)) <= INT_MAX ->
  phase_work n m 1 2 < Z.of_nat fuel -> phase_work n m (2 ^ Z.of_nat k) kap < Z.of_nat fuel ->
  exists s' p' x', scaling_loop_o order fuel fuel2 s = Ok s' /\ exists W', Head 1 1 W' s' p' x'.
Proof.
  intros Hk Hk2 Hkap HH HP HI Hw Hw1.
  assert (HMm : 0 <= Z.of_nat m * M) by (assert (A := fn_M _ _ _ _ _ HN); nia).
  destruct fuel2 as [|fuel2]; [lia|]. cbn [scaling_loop_o].
  set (h := 2 ^ Z.of_nat k) in *.
  assert (Hh : 1 <= h) by (unfold h; assert (A := Z.pow_pos_nonneg 2 (Z.of_nat k) ltac:(lia) ltac:(lia)); lia).
  assert (E2 : 2 ^ Z.of_nat (S k) = 2 * h) by (rewrite Nat2Z.inj_succ, Z.pow_succ_r by lia; reflexivity).
  assert (Ee : f_eps s = 2 ^ Z.of_nat (S k)) by (destruct HH as [(par & val & cur & HS & _) _ _ _ _ _]; apply (st_eps _ _ _ _ _ _ _ _ _ _ _ _ _ HS)).
  rewrite Ee. destruct (Z.ltb_spec (2 ^ Z.of_nat (S k)) 2); [lia|].
  rewrite E2 in *.
  destruct (phase_o_ok (2 * h) h kap 0 s p x) as (s1 & p1 & x1 & E1 & HH1 & HB1); auto; try lia.
  { rewrite <- E2, pow2_quot. reflexivity. }
  { intros u Hu. rewrite HP by auto. nia. }
  rewrite E1. pj.
  assert (Ee1 : f_eps s1 = 2 * h) by (destruct HH1 as [(par & val & cur & HS & _) _ _ _ _ _]; apply (st_eps _ _ _ _ _ _ _ _ _ _ _ _ _ HS)).
  rewrite Ee1, <- E2, pow2_quot. fold h.
  apply (scaling_o_later k fuel2 (0 + Z.of_nat m * M) (with_eps s1 h) p1 x1 (Z.of_nat n * (kap + h))); auto; try lia.
  { assert (Z.of_nat k * (Z.of_nat m * M) <= 31 * (Z.of_nat m * M)) by (apply Z.mul_le_mono_nonneg_r; lia). lia. }
  { eapply head_eps; eauto. }
  { intros u Hu. specialize (HB1 u Hu). rewrite HP in HB1 by auto. lia. }
Qed.
End Net.

(** ** min_cost() *)
Lemma network_min_eq M limits v w : network_min M limits v -> network_min M limits w -> v = w.
Proof using.
  intros [(a & A) B] [(c & C) Dd]. apply Z.le_antisymm.
  - rewrite <- C. apply B.
  - rewrite <- A. apply Dd.
Qed.

Theorem min_cost_o_ok fuel n M K U limits :
  network_wf n M K U limits -> flow_iterations n (length limits) K <= Z.of_nat fuel ->
  exists s s1 s2 v, flow_new fuel n M U limits = Ok s /\
    min_cost fuel s = Ok (s1, v) /\ min_cost_o order fuel s = Ok (s2, v).
Proof.
  intros HWf Hf. pose proof HWf as (HM & HL & HU & HK & I1 & I2 & I3 & I4).
  set (m := length limits) in *.
  assert (HL' : forall o, In o limits -> limit_ok n M K o).
  { intros o Ho. apply limit_wf_ok. auto. }
  assert (HD := Dn_pos n).
  assert (HDe : Dn n = 2 * Z.of_nat (n + 1)) by (unfold Dn; lia).
  assert (HPW := phase_work_mono n m 1 0 (Dn n * K) ltac:(lia) ltac:(nia)).
  assert (Hf' : flow_fuel n m K <= Z.of_nat fuel) by (rewrite <- flow_iterations_eq; exact Hf).
  unfold flow_fuel in Hf'.
  assert (HF0 : 6 * Z.of_nat m + 2 * Z.of_nat (n + 1) <= phase_work n m 1 0).
  { unfold phase_work. rewrite Z.div_1_r. nia. }
  assert (HF1 : (n + 1 < fuel)%nat) by lia.
  assert (HF2 : (2 * m < fuel)%nat) by lia.
  assert (HF3 : (31 < fuel)%nat) by lia.
  destruct (flow_new_ok one n M K U limits HM ltac:(lia) HL' HU ltac:(lia) I3 fuel ltac:(lia))
    as (s & E & Gl & k & E1 & HN & HE & HH & Hk & Hk1 & Hk2). fold m in HN, HE, HH.
  destruct (Z.eq_dec U 0) as [U0|U0].
  - assert (k = 0%nat) by (destruct Hk2 as [|Hk2]; auto; subst U; assert (X := Z.pow_pos_nonneg 2 (Z.of_nat k) ltac:(lia) ltac:(lia)); lia).
    subst k. change (2 ^ Z.of_nat 0) with 1 in *.
    destruct HH as [(par & val & cur & HS & _) _ _ _ _ _].
    assert (Ee := st_eps _ _ _ _ _ _ _ _ _ _ _ _ _ HS).
    destruct (sum_answer_ok one n m M E Gl HN fuel HF3 (edge_range n M K U limits HL' I1 I3 fuel E Gl HN HE) s (fun _ => 0)) as (s2 & Ea).
    { apply (st_E _ _ _ _ _ _ _ _ _ _ _ _ _ HS). }
    { apply (st_fl _ _ _ _ _ _ _ _ _ _ _ _ _ HS). }
    eexists s, s2, s2, _. split; [exact E1|].
    assert (S1 : scaling_loop fuel fuel s = Ok s) by (destruct fuel; cbn [scaling_loop]; rewrite Ee; reflexivity).
    assert (S2 : scaling_loop_o order fuel fuel s = Ok s) by (destruct fuel; cbn [scaling_loop_o]; rewrite Ee; reflexivity).
    unfold min_cost, min_cost_o. rewrite S1, S2. cbn [bind]. rewrite Ea. cbn [bind]. split; reflexivity.
  - destruct (min_cost_ok one n M K U limits) with (fuel := fuel) as (s0 & s1 & v & E0 & Em & Hv); auto; try lia.
    all: try (rewrite HDe; exact I4). all: try (unfold flow_fuel; fold m; lia).
    rewrite E1 in E0. inversion E0; subst s0. clear E0.
    assert (Hk0 : k <> 0%nat).
    { intros ->. change (2 ^ Z.of_nat 0) with 1 in *. nia. }
    destruct k as [|k]; [congruence|]. destruct Hk2 as [|Hk2]; [congruence|].
    assert (Hp := Z.pow_pos_nonneg 2 (Z.of_nat k) ltac:(lia) ltac:(lia)).
    destruct (scaling_o_ok n m M E Gl HN fuel HF1 HF2 k fuel s (fun _ => 0) (fun _ => 0) (Dn n * K)) as (s3 & p & x & Es & [W' HH1]); auto.
    { lia. }
    { lia. }
    { nia. }
    { eapply Z.le_trans; [|apply I4; lia]. rewrite HDe. apply Z.mul_le_mono_nonneg_l; [lia|].
      rewrite Nat2Z.inj_succ, Z.pow_succ_r in * by lia.
      assert (X := pow_bit_ceil k (Z.of_nat (n + 1) * U) ltac:(lia)). lia. }
    { assert (X := phase_work_mono n m 1 2 (Dn n * K) ltac:(lia) ltac:(nia)). lia. }
    { assert (X := phase_work_mono n m (2 ^ Z.of_nat k) (Dn n * K) (Dn n * K) ltac:(lia) ltac:(nia)). lia. }
    destruct HH1 as [(par & val & cur & HS & _) Hexc Hopt HMx _ _].
    assert (HR := edge_range n M K U limits HL' I1 I3 fuel E Gl HN HE).
    destruct (round_potentials n m M E Gl HN p x Hopt) as [nu Hnu].
    destruct (sum_answer_ok one n m M E Gl HN fuel HF3 HR s3 x (st_E _ _ _ _ _ _ _ _ _ _ _ _ _ HS) (st_fl _ _ _ _ _ _ _ _ _ _ _ _ _ HS)) as (s4 & Ea).
    exists s, s1, s4, v. split; [exact E1|]. split; [exact Em|].
    unfold min_cost_o. rewrite Es. cbn [bind]. rewrite Ea. cbn [bind].
    rewrite (parts_even one n m M E Gl HN fuel HF3 HR). cbn [dhalf exact_ops].
    rewrite Z.mul_comm, Z.quot_mul by lia. do 2 f_equal.
    apply (network_min_eq M limits); [|exact Hv].
    assert (Enu := parts_min one n m M E Gl HN fuel HF3 HR nu x Hnu Hexc).
    split.
    + exists nu. rewrite <- (ncost_network n M K U limits HL' I3 fuel E Gl) by auto. exact Enu.
    + intros nu'. rewrite <- (ncost_network n M K U limits HL' I3 fuel E Gl) by auto. apply (parts_le one n m M E Gl HN fuel HF3 HR); auto.
      intros e He. apply (xd_M m M); auto.
Qed.

Theorem order_solve n mus oms K fuel :
  0 < one -> admissible n mus oms K -> solver_fuel n (length oms) K <= Z.of_nat fuel ->
  run_solver_o order fuel (Z.of_nat n) mus oms = run_solver fuel (Z.of_nat n) mus oms.
Proof.
  intros H1 HA HF. unfold run_solver_o, run_solver.
  destruct (solver_new fuel (Z.of_nat n) mus oms) as [sv|e] eqn:EN; cbn [bind]; [|reflexivity].
  unfold solve_o, solve. destruct (s_n sv =? SIZE_MAX) eqn:ES; [reflexivity|]. apply Z.eqb_neq in ES.
  destruct (merge_limits sv) as [[limits|]|] eqn:EM; cbn [bind]; try reflexivity.
  destruct (solver_network one H1 n mus oms K fuel sv limits HA HF EN ES EM) as (vmax & M & U & E0 & _ & HWf & Hit & Esn & _).
  rewrite E0, Esn, Nat2Z.id. cbn [bind].
  destruct (min_cost_o_ok fuel n M (2 * K) U limits HWf Hit) as (s & s1 & s2 & v & E1 & E2 & E3).
  rewrite E1. cbn [bind]. rewrite E2, E3. reflexivity.
Qed.
End Order.
