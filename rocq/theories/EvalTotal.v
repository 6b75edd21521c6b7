(** * The calls of the cost functions, altogether *)
From Verif Require Import Base BaseLemmas Data UniqueQueue LCT ProblemDefine Flow ProblemSolver Spec FlowSpec.
From Verif Require Import Sums FlowNet FlowInv FlowPhase FlowRun FlowNew FlowOpt FlowFrame FlowStates FuelMono WorkSpec FlowTotal FlowSteps StepsTotal.
From Verif Require Import TimeTotal SolverProof PrimalSolve ThrowSpec Throw EvalSpec EvalLog EvalSim EvalFlow.
Local Open Scope Z_scope.

Ltac binv H := let a := fresh "a" in let E := fresh "E" in apply bind_inv in H; destruct H as (a & E & H); cbv beta zeta in H.

Section Total.
Variable P : user_call -> Prop.
Variable one : Z.
#[local] Hint Extern 0 (DataOps Z) => exact (exact_ops one) : typeclass_instances.
Variables (fuel n : nat) (M K U : Z) (limits : list (OmegaLimit Z)).
Notation m := (length limits).
Hypothesis HW : network_wf n M K U limits.
Hypothesis Hfuel : flow_iterations n m K <= Z.of_nat fuel.
Variable d : nat.
Variable es : list (OmegaLimit nz).
Variable E : list (OmegaLimit Z).
Hypothesis HE : Forall2 (limN P d) es E.
Hypothesis HlE : length E = (2 * m)%nat.

(** ** One round *)
Lemma J_evals kap s s0 : J fuel n M limits kap s -> 2 <= f_eps s -> stN E s0 s ->
  let h := Z.quot (f_eps s) 2 in
  exists s3 s30 log, phase fuel s = Ok s3 /\ f_eps s3 = f_eps s /\ J fuel n M limits h (with_eps s3 (Z.quot (f_eps s3) 2)) /\
    phase_n one es fuel s0 = Ok (s30, log) /\ stN E s30 s3 /\ Forall P log /\
    Z.of_nat (length log) <= Z.of_nat d * round_evals n m (Z.max 0 (step_bound n m (phase_work n m h kap + 1) (Z.of_nat n * (kap + h) / h))).
Proof.
  intros HJ He HS h.
  destruct (J_steps one fuel n M K U limits HW Hfuel kap s HJ He) as (s1 & s2 & s3 & E1 & E2 & E3 & EP & E4 & HJ'). fold h in E2, HJ'.
  destruct (J_shape fuel n M limits _ _ HJ) as (HI & Hn & HEd & Hcur).
  assert (HS1 : stN E (initialization s0) (initialization s)) by (destruct HS; constructor).
  destruct (push_all_sim P one d es E HE _ _ HS1 s1 E1) as (s10 & l1 & F1 & F2 & F3 & F4).
  assert (ER : refine_loop fuel fuel s1 = Ok s2).
  { unfold phase in EP. cbv zeta in EP. rewrite E1 in EP. cbn [bind] in EP. unfold refine in EP. apply bind_inv in EP. destruct EP as (s2' & EP & _).
    destruct (refine_sim P one d es E HE fuel _ _ _ E2 _ _ _ F2 EP) as (-> & _). exact EP. }
  destruct (refine_sim P one d es E HE fuel _ _ _ E2 _ _ _ F2 ER) as (_ & s20 & l2 & G1 & G2 & G3 & G4).
  destruct (cut_all_sim P one d es E HE fuel _ _ G2 s3 E3) as (s30 & l3 & I1 & I2 & I3 & I4).
  assert (N2 : f_n s2 = n).
  { rewrite (ev_n _ _ (refine_loop_evolve _ _ _ _ ER)), (ev_n _ _ (push_all_evolve _ _ E1)). exact Hn. }
  rewrite N2 in I3. rewrite HlE in F3. exists s3, s30, (l1 ++ (l2 ++ l3)). split; [exact EP|]. split; [exact E4|]. split; [exact HJ'|]. split.
  { unfold phase_n, refine_n. cbv zeta. rewrite F1. cbn [nbind]. rewrite G1. cbn [nbind]. rewrite I1. reflexivity. }
  split; [exact I2|]. split; [repeat (apply Forall_app; split); assumption|].
  unfold round_evals. set (sb := step_bound _ _ _ _) in *. assert (Z.of_nat (Z.to_nat sb) = Z.max 0 sb) by lia. rewrite !app_length. clear - F3 G3 I3 H. nia.
Qed.

Lemma round_evals_mono a b : a <= b -> round_evals n m a <= round_evals n m b.
Proof. intro H. clear - H. unfold round_evals. lia. Qed.

Lemma J_evals_all : forall r kap s s0, J fuel n M limits kap s -> f_eps s = 2 ^ Z.of_nat r -> kap <= f_eps s -> stN E s0 s ->
  forall k s', scaling_loop fuel k s = Ok s' ->
  exists s0' log, scaling_loop_n one es fuel k s0 = Ok (s0', log) /\ stN E s0' s' /\ Forall P log /\
    Z.of_nat (length log) <= Z.of_nat d * (Z.of_nat r * round_evals n m (round_steps n m)).
Proof.
  induction r as [|r IH]; intros kap s s0 HJ He Hk HS k s' HT; assert (Ee0 : f_eps s0 = f_eps s) by (destruct HS; reflexivity).
  - exists s0, []. destruct k; cbn [scaling_loop scaling_loop_n] in *; rewrite ?Ee0, He in *; cbn [still] in *; inversion HT; subst; (split; [reflexivity|]); (split; [exact HS|]);
      (split; [constructor|cbn [length]; lia]).
  - assert (Hp := Z.pow_pos_nonneg 2 (Z.of_nat r) ltac:(lia) ltac:(lia)).
    assert (H2 : 2 ^ Z.of_nat (S r) = 2 * 2 ^ Z.of_nat r) by (rewrite Nat2Z.inj_succ, Z.pow_succ_r by lia; reflexivity).
    assert (H0 : 0 <= kap) by (destruct HJ as (? & ? & ? & ? & ? & ? & ? & _ & _ & _ & X & _); exact X).
    destruct k; cbn [scaling_loop scaling_loop_n] in *; rewrite Ee0; (destruct (Z.ltb_spec (f_eps s) 2); [lia|]); [discriminate|].
    destruct (J_evals kap s s0 HJ ltac:(lia) HS) as (s3 & s30 & l1 & EP & E4 & HJ' & T1 & HS' & P1 & L). cbv zeta in HJ', L.
    rewrite EP in HT. cbn [bind] in HT. rewrite T1. cbn [nbind].
    rewrite He, pow2_quot in L, HJ'. rewrite E4, He, pow2_quot in HJ', HT. replace (f_eps s30) with (f_eps s3) by (destruct HS'; reflexivity). rewrite E4, He, pow2_quot.
    destruct (work_le fuel n limits kap (2 ^ Z.of_nat r) Hp ltac:(lia)) as [W0 W1].
    assert (HS2 : stN E (with_eps s30 (2 ^ Z.of_nat r)) (with_eps s3 (2 ^ Z.of_nat r))) by (destruct HS'; constructor).
    destruct (IH (2 ^ Z.of_nat r) _ _ HJ' eq_refl ltac:(cbn [with_eps f_eps]; lia) HS2 _ _ HT) as (s0' & l2 & T2 & HS3 & P2 & L2). rewrite T2.
    exists s0', (l1 ++ l2). split; [reflexivity|]. split; [exact HS3|]. split; [apply Forall_app; auto|].
    assert (L3 : round_evals n m (Z.max 0 (step_bound n m (phase_work n m (2 ^ Z.of_nat r) kap + 1) (Z.of_nat n * (kap + 2 ^ Z.of_nat r) / 2 ^ Z.of_nat r))) <=
                 round_evals n m (round_steps n m)).
    { apply round_evals_mono. apply Z.max_lub.
      - apply (steps_nonneg fuel); [unfold round_iterations; nia|lia].
      - assert (RE := round_eq n limits). rewrite iterations_eq in RE. unfold round_steps. apply (step_bound_mono fuel); [lia|]. apply Z.div_le_upper_bound; [exact Hp|]. nia. }
    rewrite app_length, Nat2Z.inj_add. clear - L L2 L3. set (A := round_evals _ _ (Z.max _ _)) in *. set (B := round_evals _ _ (round_steps _ _)) in *. clearbody A B. nia.
Qed.
End Total.

Section All.
Variable P : user_call -> Prop.
Variable one : Z.
#[local] Hint Extern 0 (DataOps Z) => exact (exact_ops one) : typeclass_instances.

Lemma min_cost_evals_ok fuel n M K U limits d ls : network_wf n M K U limits -> flow_iterations n (length limits) K <= Z.of_nat fuel ->
  Forall2 (limN P d) ls limits -> Forall (within U) limits ->
  exists s s' v es s0 log r, flow_new fuel n M U limits = Ok s /\ min_cost fuel s = Ok (s', v) /\
    flow_new_n one fuel n M U ls = Ok (es, s0) /\ min_cost_n one fuel es s0 = Ok (v, log) /\ Forall P log /\
    (r = 0%nat \/ 2 ^ Z.of_nat r < 4 * Z.of_nat (n + 1) * U) /\
    Z.of_nat (length log) <= Z.of_nat d * min_cost_evals n (length limits) K U r.
Proof.
  intros HW Hfuel HL HWi. set (m := length limits) in *.
  destruct (J_first one fuel n M K U limits HW Hfuel) as (s & EN & HJ & _).
  pose proof HW as (HM & HLi & HU & HK & I1 & I2 & I3 & I4). destruct (fuel_facts fuel n M K U limits HW Hfuel) as (F1 & F2 & F3 & F4 & F5).
  destruct (total_turns one fuel n M K U limits HW Hfuel) as (sx & s' & v & _ & _ & EN' & _ & EM & _). assert (sx = s) by congruence. subst sx. clear EN'.
  assert (Ee : exists r, f_eps s = 2 ^ Z.of_nat r /\ (r <= 31)%nat /\ 2 * Z.of_nat (n + 1) * U <= 2 ^ Z.of_nat r /\ (r = 0%nat \/ 2 ^ Z.of_nat r < 4 * Z.of_nat (n + 1) * U)).
  { destruct (eps_loop_ok n U HU ltac:(rewrite Dn_eq; lia) ltac:(lia) 31 fuel 0 eq_refl F3) as (r & Er & R1 & R2 & R3).
    exists r. split; [|split; [lia|split; assumption]]. unfold flow_new in EN. change (2 ^ Z.of_nat 0) with 1 in Er. rewrite Er in EN. cbn [bind] in EN.
    do 3 binv EN. inversion EN; subst. reflexivity. }
  destruct Ee as (r & Ee & R1 & R2 & R3).
  destruct (flow_new_sim P one d fuel n M U ls limits HL s EN) as ([es s0] & EN0 & HE & HS). cbn [fst snd] in HE, HS.
  destruct (flow_new_within one U U fuel n M limits s HU HWi EN) as [HWe HlE]. fold m in HlE.
  unfold min_cost in EM. binv EM. rename a into s1, E into ES. apply bind_inv in EM. destruct EM as ([s2 ans] & EA & EM). inversion EM; subst s' v. clear EM.
  enough (X : exists s10 log, scaling_loop_n one es fuel fuel s0 = Ok (s10, log) /\ stN (f_edges s) s10 s1 /\ Forall P log /\
    Z.of_nat (length log) <= Z.of_nat d * match r with O => 0 | S r => round_evals n m (first_round_steps n m K U) + Z.of_nat r * round_evals n m (round_steps n m) end).
  { destruct X as (s10 & l1 & T1 & HS1 & P1 & L1).
    assert (Ed : f_edges s1 = f_edges s) by (destruct HS1; reflexivity).
    destruct (sum_answer_sim P one d U fuel es s10 s1 ltac:(rewrite Ed; exact HE) ltac:(rewrite Ed; exact HWe) ltac:(destruct HS1; reflexivity) _ EA) as ([es2 ans2] & l2 & T2 & Ea & L2 & P2).
    cbn [snd] in Ea. subst ans2. exists s, s2, (dhalf ans), es, s0, (l1 ++ l2), r. split; [exact EN|]. split.
    { unfold min_cost. rewrite ES. cbn [bind]. rewrite EA. reflexivity. }
    split; [exact EN0|]. split.
    { unfold min_cost_n. rewrite T1. cbn [nbind]. rewrite T2. cbn [nbind still snd]. rewrite app_nil_r. reflexivity. }
    split; [apply Forall_app; auto|]. split; [exact R3|].
    rewrite Ed, HlE in L2. unfold min_cost_evals. fold m. rewrite app_length, Nat2Z.inj_add. unfold turns in L2. assert (Hh := halvings_nonneg U).
    set (B := match r with O => 0 | S _ => _ end) in *. clearbody B. clear - L1 L2 Hh. assert (Z.of_nat (Z.to_nat (halvings U)) = halvings U) by lia. nia. }
  destruct r as [|r].
  { exists s0, []. assert (Ee0 : f_eps s0 = f_eps s) by (destruct HS; reflexivity).
    destruct fuel; cbn [scaling_loop scaling_loop_n] in *; rewrite ?Ee0, Ee in *; cbn [still] in *; inversion ES; subst; (split; [reflexivity|]); (split; [exact HS|]); (split; [constructor|cbn [length]; lia]). }
  destruct R3 as [|R3]; [discriminate|].
  assert (Hp := Z.pow_pos_nonneg 2 (Z.of_nat r) ltac:(lia) ltac:(lia)).
  assert (H2 : 2 ^ Z.of_nat (S r) = 2 * 2 ^ Z.of_nat r) by (rewrite Nat2Z.inj_succ, Z.pow_succ_r by lia; reflexivity).
  assert (HU0 : 0 < U) by nia.
  revert HJ. set (kap0 := 2 * Z.of_nat (n + 1) * K) in *. intro HJ.
  assert (H0 : 0 <= kap0) by (unfold kap0; nia).
  assert (FO : exists fu, fuel = S fu) by (destruct fuel; [lia|eauto]). destruct FO as [fu Ef].
  assert (Ee0 : f_eps s0 = f_eps s) by (destruct HS; reflexivity).
  replace (scaling_loop fuel fuel s) with (scaling_loop fuel (S fu) s) in ES by (rewrite <- Ef; reflexivity). replace (scaling_loop_n one es fuel fuel s0) with (scaling_loop_n one es fuel (S fu) s0) by (rewrite <- Ef; reflexivity). cbn [scaling_loop scaling_loop_n] in *. rewrite Ee0. destruct (Z.ltb_spec (f_eps s) 2); [lia|].
  destruct (J_evals P one fuel n M K U limits HW Hfuel d es (f_edges s) HE HlE kap0 s s0 HJ ltac:(lia) HS) as (s3 & s30 & l1 & EP & E4 & HJ' & T1 & HS' & P1 & L). cbv zeta in HJ', L.
  rewrite EP in ES. cbn [bind] in ES. rewrite T1. cbn [nbind].
  rewrite Ee, pow2_quot in L, HJ'. rewrite E4, Ee, pow2_quot in HJ', ES. replace (f_eps s30) with (f_eps s3) by (destruct HS'; reflexivity). rewrite E4, Ee, pow2_quot.
  assert (Hk0 : kap0 * U <= 2 * K * 2 ^ Z.of_nat r) by (unfold kap0; nia).
  destruct (first_le fuel n K U limits kap0 (2 ^ Z.of_nat r) HU0 Hp H0 Hk0) as [W0 W1].
  assert (HS2 : stN (f_edges s) (with_eps s30 (2 ^ Z.of_nat r)) (with_eps s3 (2 ^ Z.of_nat r))) by (destruct HS'; constructor).
  destruct (J_evals_all P one fuel n M K U limits HW Hfuel d es (f_edges s) HE HlE r (2 ^ Z.of_nat r) _ _ HJ' eq_refl ltac:(cbn [with_eps f_eps]; lia) HS2 _ _ ES) as (s10 & l2 & T2 & HS3 & P2 & L2).
  rewrite T2. exists s10, (l1 ++ l2). split; [reflexivity|]. split; [exact HS3|]. split; [apply Forall_app; auto|].
  fold m in L, L2.
  assert (X : round_evals n m (Z.max 0 (step_bound n m (phase_work n m (2 ^ Z.of_nat r) kap0 + 1) (Z.of_nat n * (kap0 + 2 ^ Z.of_nat r) / 2 ^ Z.of_nat r))) <=
          round_evals n m (first_round_steps n m K U)).
  2:{ rewrite app_length, Nat2Z.inj_add. clear - X L L2. set (A := round_evals _ _ (Z.max _ _)) in *. set (B := round_evals _ _ (round_steps _ _)) in *. set (C := round_evals _ _ (first_round_steps _ _ _ _)) in *. clearbody A B C. nia. }
  unfold m. apply round_evals_mono. apply Z.max_lub.
  - apply (steps_nonneg fuel); [rewrite iterations_eq; lia|]. apply Z.div_pos; nia.
  - apply (step_bound_mono fuel); [rewrite iterations_eq; lia|]. clear - HU0 Hp H0 Hk0.
    replace (Z.of_nat n * (kap0 + 2 ^ Z.of_nat r)) with (Z.of_nat n * kap0 + Z.of_nat n * 2 ^ Z.of_nat r) by ring. rewrite Z.div_add by lia.
    replace (Z.of_nat n * (2 * K + U)) with (Z.of_nat n * (2 * K) + Z.of_nat n * U) by ring. rewrite Z.div_add by lia.
    apply Z.add_le_mono_r. apply Z.div_le_lower_bound; [exact HU0|].
    assert (Y := Z.mul_div_le (Z.of_nat n * kap0) (2 ^ Z.of_nat r) Hp). set (a := Z.of_nat n * kap0 / 2 ^ Z.of_nat r) in *. clearbody a kap0.
    set (h := 2 ^ Z.of_nat r) in *. clearbody h.
    assert (U * a * h <= Z.of_nat n * (2 * K) * h); [|nia]. nia.
Qed.
End All.

(** ** The cost functions cut down to their ranges *)
Definition ranged (b : bool) (l u : Z) (f : Fn Z) : Fn Z := fun x => if b && (l <=? x) && (x <=? u) then f x else Err BadCall.
Fixpoint ranged_mus (i : nat) (mus : list (MuLimit Z)) : list (MuLimit Z) :=
  match mus with
  | [] => []
  | m :: mus => mkMu (m_l m) (m_u m) (ranged (1 <=? i)%nat (m_l m) (m_u m) (m_fn m)) :: ranged_mus (S i) mus
  end.
Definition ranged_om (o : OmegaLimit Z) : OmegaLimit Z := mkOm (o_l o) (o_u o) (ranged true (o_l o) (o_u o) (o_fn o)) (o_i o) (o_j o).

Lemma ranged_in l u f x : l <= x <= u -> ranged true l u f x = f x.
Proof. intros [H1 H2]. unfold ranged. apply Z.leb_le in H1, H2. rewrite H1, H2. reflexivity. Qed.
Lemma ranged_inv b l u f x v : ranged b l u f x = Ok v -> b = true /\ l <= x <= u /\ f x = Ok v.
Proof.
  unfold ranged. destruct b, (Z.leb_spec l x), (Z.leb_spec x u); cbn [andb]; try discriminate. auto.
Qed.
Lemma ranged_patched b l u f : patched (ranged b l u f) f.
Proof. intro x. unfold ranged. destruct (b && (l <=? x) && (x <=? u)); auto. Qed.
Lemma ranged_defined l u f : defined_on f l u -> defined_on (ranged true l u f) l u.
Proof. intros H x Hx. rewrite ranged_in by exact Hx. exact (H x Hx). Qed.
Lemma ranged_convex l u f : convex_on (cost f) l u -> convex_on (cost (ranged true l u f)) l u.
Proof. intros H x Hx. unfold cost. rewrite !ranged_in by lia. exact (H x Hx). Qed.

Lemma ranged_mus_nth mus : forall k i, nth_error (ranged_mus k mus) i =
  match nth_error mus i with Some m => Some (mkMu (m_l m) (m_u m) (ranged (1 <=? k + i)%nat (m_l m) (m_u m) (m_fn m))) | None => None end.
Proof.
  induction mus as [|m mus IH]; intros k i; [destruct i; reflexivity|]. destruct i as [|i]; cbn [ranged_mus nth_error]; [rewrite Nat.add_0_r; reflexivity|].
  rewrite IH. rewrite Nat.add_succ_comm. reflexivity.
Qed.
Lemma ranged_mus_len mus : forall k, length (ranged_mus k mus) = length mus.
Proof. induction mus; intro k; cbn [ranged_mus length]; auto. Qed.
Lemma ranged_mus_patched mus : forall k, Forall2 mu_patched (ranged_mus k mus) mus.
Proof. induction mus as [|m mus IH]; intro k; cbn [ranged_mus]; constructor; [|apply IH]. split; [reflexivity|]. split; [reflexivity|]. apply ranged_patched. Qed.
Lemma ranged_oms_patched oms : Forall2 om_patched (map ranged_om oms) oms.
Proof. induction oms as [|o oms IH]; cbn [map]; constructor; [|exact IH]. repeat (split; [reflexivity|]). apply ranged_patched. Qed.

Lemma ranged_admissible n mus oms K : admissible n mus oms K -> admissible n (ranged_mus 0 mus) (map ranged_om oms) K.
Proof.
  intros ((H1 & H2 & H3) & (B1 & B2) & HI). split; [|split; [|exact HI]].
  - split; [rewrite ranged_mus_len; exact H1|]. split.
    + intros i m Hi Hm. rewrite ranged_mus_nth in Hm. destruct (nth_error mus i) as [m'|] eqn:E; [|discriminate].
      rewrite (proj2 (Nat.leb_le 1 (0 + i)) ltac:(lia)) in Hm. inversion Hm; subst m. clear Hm. destruct (H2 i m' Hi E) as (A1 & A2 & A3). split; [exact A1|]. split; [apply ranged_defined; exact A2|apply ranged_convex; exact A3].
    + intros o Ho. apply in_map_iff in Ho. destruct Ho as (o' & <- & Ho). destruct (H3 o' Ho) as (A1 & A2 & A3 & A4). split; [exact A1|]. split; [apply ranged_defined; exact A2|].
      split; [apply ranged_convex; exact A3|exact A4].
  - split.
    + intros i m Hi Hm. rewrite ranged_mus_nth in Hm. destruct (nth_error mus i) as [m'|] eqn:E; [|discriminate]. inversion Hm; subst m. exact (B1 i m' Hi E).
    + intros o Ho. apply in_map_iff in Ho. destruct Ho as (o' & <- & Ho). exact (B2 o' Ho).
Qed.

(** the recorded functions against the cut down ones *)
Lemma note_mus_sim oms : forall mus pre, Forall2 (muN (inside (pre ++ mus) oms)) (note_mus (length pre) mus) (ranged_mus (length pre) mus).
Proof.
  induction mus as [|m mus IH]; intro pre; cbn [note_mus ranged_mus]; constructor.
  - constructor. intros x v E. apply ranged_inv in E. destruct E as (E1 & E2 & E3). unfold note. rewrite E3. cbn [bind]. eexists _, _. split; [reflexivity|]. split; [reflexivity|]. split; [cbn; lia|].
    constructor; [|constructor]. exists m. cbn [fst snd]. split; [apply Nat.leb_le; exact E1|]. split; [|exact E2]. rewrite nth_error_app2, Nat.sub_diag by lia. reflexivity.
  - specialize (IH (pre ++ [m])). rewrite <- app_assoc in IH. cbn [app] in IH. rewrite app_length in IH. cbn [length] in IH. rewrite Nat.add_1_r in IH. exact IH.
Qed.
Lemma note_oms_sim mus : forall oms pre, Forall2 (limN (inside mus (pre ++ oms)) 1) (note_oms (length pre) oms) (map ranged_om oms).
Proof.
  induction oms as [|o oms IH]; intro pre; cbn [note_oms map]; constructor.
  - constructor. intros x v E. apply ranged_inv in E. destruct E as (E1 & E2 & E3). unfold note. rewrite E3. cbn [bind]. eexists _, _. split; [reflexivity|]. split; [reflexivity|]. split; [cbn; lia|].
    constructor; [|constructor]. exists o. cbn [fst snd]. split; [|exact E2]. rewrite nth_error_app2, Nat.sub_diag by lia. reflexivity.
  - specialize (IH (pre ++ [o])). rewrite <- app_assoc in IH. cbn [app] in IH. rewrite app_length in IH. cbn [length] in IH. rewrite Nat.add_1_r in IH. exact IH.
Qed.

Section Solver.
Variable one : Z.
#[local] Hint Extern 0 (DataOps Z) => exact (exact_ops one) : typeclass_instances.

(** the keys of the limits *)
Lemma check_omegas_keys fuel n (mus : list (MuLimit Z)) : forall oms l, check_omegas fuel n mus oms = Ok (Some l) -> map okey l = map okey oms.
Proof.
  induction oms as [|o oms IH]; intros l H; cbn [check_omegas] in H; [inversion H; reflexivity|].
  binv H. destruct a as [o'|]; [|discriminate]. binv H. destruct a as [l'|]; [|discriminate]. inversion H; subst l. cbn [map]. rewrite (IH _ E0). f_equal. clear - E.
  unfold check_omega in E. destruct (negb _); [discriminate|]. destruct (negb _); [discriminate|]. destruct (Nat.eqb _ _); [discriminate|]. destruct (negb _); [discriminate|].
  apply bind_inv in E. destruct E as (o1 & E1 & E). do 3 binv E. destruct (_ <=? _); [|discriminate]. inversion E; subst o'. unfold okey. cbn [o_i o_j].
  unfold pre_processing in E1. apply bind_inv in E1. destruct E1 as (p & _ & E1). inversion E1; subst. reflexivity.
Qed.
Lemma at_key_map {D D'} k (l : list (OmegaLimit D)) (l' : list (OmegaLimit D')) : map okey l = map okey l' -> at_key k l = at_key k l'.
Proof.
  revert l'. induction l as [|o l IH]; intros [|o' l'] H; try discriminate; [reflexivity|]. cbn [map] in H. inversion H. specialize (IH l' H2). unfold at_key in *. cbn [filter]. rewrite H1.
  destruct (key_eqb (okey o') k); cbn [length]; lia.
Qed.
Lemma at_key_parallel {D} k (l : list (OmegaLimit D)) : (at_key k l <= parallel l (fst k) (snd k))%nat.
Proof.
  unfold at_key, parallel. induction l as [|o l IH]; [apply le_n|]. cbn [filter]. destruct (key_eqb (okey o) k) eqn:E.
  - apply key_eqb_eq in E. replace (joins (fst k) (snd k) o) with true; [cbn [length]; lia|]. subst k. unfold okey, joins. destruct (o_i o <? o_j o)%nat; cbn [fst snd]; rewrite !Nat.eqb_refl; cbn; rewrite ?orb_true_r; reflexivity.
  - destruct (joins _ _ _); cbn [length]; lia.
Qed.

Lemma calc_widths fuel : forall (ls : list (OmegaLimit Z)) v V U, calc fuel ls = Ok (v, V, U) -> 0 <= U /\ forall o, In o ls -> o_u o - o_l o <= U.
Proof.
  unfold calc. enough (X : forall (ls : list (OmegaLimit Z)) (v0 V0 : Z) U0 v V U, for_each ls (v0, V0, U0) (fun '(vmax, M, U) it =>
    a <- o_fn it (o_l it) ;; b <- o_fn it (o_u it) ;; let vmax := dadd vmax (dmax a b) in mi <- limit_min fuel it ;;
    let M := dadd M (dsub (dmax a b) mi) in d <- ck (o_u it - o_l it) ;; Ok (vmax, M, Z.max U d)) = Ok (v, V, U) -> U0 <= U /\ forall o, In o ls -> o_u o - o_l o <= U).
  { intros ls v V U H. exact (X ls _ _ _ _ _ _ H). }
  induction ls as [|o ls IH]; intros v0 V0 U0 v V U H; cbn [for_each] in H; [inversion H; subst; split; [lia|intros ? []]|].
  binv H. do 4 binv E. inversion E; subst a. apply ck_inv in E3. destruct E3 as [-> _]. destruct (IH _ _ _ _ _ _ H) as [I1 I2]. split; [lia|].
  intros o' [<-|Ho]; [lia|apply I2, Ho].
Qed.

Theorem solve_evals_ok n mus oms K fuel d : 0 < one -> admissible n mus oms K -> solver_fuel n (length oms) K <= Z.of_nat fuel ->
  (1 <= d)%nat -> (forall i j, (parallel oms i j <= d)%nat) ->
  exists r calls m U ph, run_solver_n one fuel (Z.of_nat n) (note_mus 0 mus) (note_oms 0 oms) = Ok (r, calls) /\
    run_solver fuel (Z.of_nat n) mus oms = Ok r /\ Forall (inside mus oms) calls /\
    (m <= length oms + n)%nat /\ 0 <= U <= 3 * K /\ (ph = 0%nat \/ 2 ^ Z.of_nat ph < 4 * Z.of_nat (n + 1) * U) /\
    Z.of_nat (length calls) <= solve_evals n (length oms) m K U ph d.
Proof.
  intros H1 HA Hfuel Hd Hp. assert (HA' := ranged_admissible _ _ _ _ HA). set (mus' := ranged_mus 0 mus) in *. set (oms' := map ranged_om oms) in *.
  assert (Lo : length oms' = length oms) by apply map_length. pose proof HA' as (HWf & HB & HK & HI).
  destruct (run_solver_ok one n mus' oms' K fuel H1 HWf HB HK HI ltac:(rewrite Lo; exact Hfuel)) as (r & ER & _).
  assert (ER0 : run_solver fuel (Z.of_nat n) mus oms = Ok r).
  { destruct (run_solver_thr fuel (Z.of_nat n) _ _ _ _ (ranged_mus_patched mus 0) (ranged_oms_patched oms)) as [X|X]; fold mus' oms' in X; congruence. }
  assert (HM := note_mus_sim oms mus []). assert (HO := note_oms_sim mus oms []). cbn [length app] in HM, HO. fold mus' in HM. fold oms' in HO.
  set (P := inside mus oms) in *. pose proof ER as ER'. unfold run_solver in ER. apply bind_inv in ER. destruct ER as (sv & EN & ES).
  assert (HWd : forall o, In o oms' -> o_u o - o_l o <= 2 * K) by (intros o Ho; destruct (proj2 HB o Ho); lia).
  destruct (solver_new_sim P one (Z.of_nat n) fuel (2 * K) _ _ _ _ HM HO HWd sv EN) as (sv0 & l1 & EN0 & HSv & L1 & P1). rewrite Lo in L1.
  assert (L1' : Z.of_nat (length l1) <= 2 * Z.of_nat (length oms) * halvings (2 * K)).
  { unfold turns in L1. assert (Y := halvings_nonneg (2 * K)). clear - L1 Y. assert (Z.of_nat (Z.to_nat (halvings (2 * K))) = halvings (2 * K)) by lia. nia. }
  assert (Stop : forall r0, solve_n one fuel sv0 = still (Ok r0) -> r0 = r -> exists r calls m U ph, run_solver_n one fuel (Z.of_nat n) (note_mus 0 mus) (note_oms 0 oms) = Ok (r, calls) /\
    run_solver fuel (Z.of_nat n) mus oms = Ok r /\ Forall P calls /\
    (m <= length oms + n)%nat /\ 0 <= U <= 3 * K /\ (ph = 0%nat \/ 2 ^ Z.of_nat ph < 4 * Z.of_nat (n + 1) * U) /\
    Z.of_nat (length calls) <= solve_evals n (length oms) m K U ph d).
  { intros r0 E ->. exists r, l1, O, 0, O. split.
    { unfold run_solver_n. rewrite EN0. cbn [nbind]. rewrite E. cbn [still]. rewrite app_nil_r. reflexivity. }
    repeat (split; [first [assumption|lia|left; reflexivity]|]). unfold solve_evals, calc_evals, min_cost_evals. cbn [Z.of_nat]. lia. }
  unfold solve in ES. assert (En : s_n sv0 = s_n sv) by (destruct HSv; reflexivity).
  destruct (Z.eqb_spec (s_n sv) SIZE_MAX) as [Hs|Hs].
  { apply (Stop None); [|inversion ES; reflexivity]. unfold solve_n. rewrite En, Hs, Z.eqb_refl. reflexivity. }
  apply bind_inv in ES. destruct ES as (ml & EM & ES).
  assert (HKey : forall k, (at_key k (s_oms sv) <= d)%nat).
  { intro k. assert (X : map okey (s_oms sv) = map okey oms \/ s_oms sv = []).
    { clear - EN Hs. unfold solver_new in EN. destruct (negb _); [inversion EN; subst; right; reflexivity|]. binv EN. destruct (negb _); [inversion EN; subst; right; reflexivity|].
      apply bind_inv in EN. destruct EN as ([l|] & E1 & EN); [|inversion EN; subst; right; reflexivity]. left. inversion EN; subst. cbn [s_oms].
      rewrite (check_omegas_keys _ _ _ _ _ E1). unfold oms'. rewrite map_map. reflexivity. }
    destruct X as [X| ->]; [|cbn; lia]. rewrite (at_key_map k _ _ X). eapply Nat.le_trans; [apply at_key_parallel|apply Hp]. }
  destruct (merge_limits_sim P one d sv0 sv HSv Hd HKey ml EM) as (ml0 & EM0 & HML).
  destruct ml as [limits|], ml0 as [ls|]; try contradiction.
  2:{ apply (Stop None); [|inversion ES; reflexivity]. unfold solve_n. rewrite En. destruct (Z.eqb_spec (s_n sv) SIZE_MAX); [contradiction|]. rewrite EM0. reflexivity. }
  cbn [optT] in HML.
  destruct (solver_network one H1 n mus' oms' K fuel sv limits HA' ltac:(rewrite Lo; exact Hfuel) EN Hs EM) as (vmax & M & U & EC & HU & HW & HF & Esn & HL & _).
  destruct (calc_widths fuel limits _ _ _ EC) as [HU0 HUo].
  assert (HWi : forall o, In o limits -> within U o) by (intros o Ho; split; [exact (proj1 (proj1 (proj2 HW) o Ho))|apply HUo, Ho]).
  destruct (calc_sim P one d U fuel ls limits HML HWi _ EC) as (cc & l2 & EC0 & Ecc & L2 & P2). subst cc.
  destruct (min_cost_evals_ok P one fuel n M (2 * K) U limits d ls HW HF HML ltac:(apply Forall_forall; exact HWi)) as (s & s' & v & es & s0 & l3 & ph & EF & EMC & EF0 & EMC0 & P3 & HR & L3).
  rewrite EC in ES. cbn [bind] in ES. rewrite Esn, Nat2Z.id, EF in ES. cbn [bind] in ES. rewrite EMC in ES. cbn [bind] in ES.
  exists r, (l1 ++ (l2 ++ l3)), (length limits), U, ph. split.
  { unfold run_solver_n. rewrite EN0. cbn [nbind]. unfold solve_n. rewrite En. destruct (Z.eqb_spec (s_n sv) SIZE_MAX); [contradiction|]. rewrite EM0. cbn [still nbind].
    rewrite EC0. cbn [nbind]. rewrite Esn, Nat2Z.id, EF0. cbn [still nbind fst snd]. rewrite EMC0. cbn [nbind]. destruct (dlt vmax v); inversion ES; subst; cbn [still]; rewrite ?app_nil_r; reflexivity. }
  split; [exact ER0|]. split; [repeat (apply Forall_app; split); assumption|]. rewrite Lo in HL. split; [exact HL|]. split; [lia|]. split; [exact HR|].
  assert (L2' : Z.of_nat (length l2) <= Z.of_nat d * calc_evals (length limits) U).
  { unfold turns in L2. unfold calc_evals. assert (Y := halvings_nonneg U). clear - L2 Y. assert (Z.of_nat (Z.to_nat (halvings U)) = halvings U) by lia. nia. }
  rewrite !app_length. unfold solve_evals. lia.
Qed.
End Solver.
