(** * Properties of the limits and of the flow solver, in plain terms *)
From Verif Require Import Base BaseLemmas Data ProblemDefine Flow ProblemSolver Spec FlowSpec.
From Verif Require Import FlowInv Sums NetMath Convex FlowNet PDProof FlowChecked FlowNew FlowOpt FlowStates SolverNet SolverProof.
Local Open Scope Z_scope.

(** all limits hold for the node values [nu] *)
Definition satisfied (limits : list (OmegaLimit Z)) (nu : nat -> Z) : Prop :=
  forall o, In o limits -> o_l o <= nu (o_i o) - nu (o_j o) <= o_u o.

Definition true_cost (limits : list (OmegaLimit Z)) (nu : nat -> Z) : Z :=
  sumZ (map (fun o => cost (o_fn o) (nu (o_i o) - nu (o_j o))) limits).

(** what [calc] and [Flow] are given: ranges in [-K, K], convex costs *)
Definition range_wf (n : nat) (K : Z) (o : OmegaLimit Z) : Prop :=
  o_l o <= o_u o /\ defined_on (o_fn o) (o_l o) (o_u o) /\ convex_on (cost (o_fn o)) (o_l o) (o_u o) /\
  (o_i o <= n)%nat /\ (o_j o <= n)%nat /\ - K <= o_l o /\ o_u o <= K.

Definition int_ok (l u : Z) : Prop := INT_MIN <= l /\ u <= INT_MAX /\ u - l <= INT_MAX.

(** when U = 0 every limit fixes a difference; they must not contradict *)
Definition consistent (U : Z) (limits : list (OmegaLimit Z)) : Prop :=
  U = 0 -> exists nu, forall o, In o limits -> o_l o = o_u o /\ nu (o_i o) - nu (o_j o) = o_l o.

Section Props.
Variable one : Z.
#[local] Hint Extern 0 (DataOps Z) => exact (exact_ops one) : typeclass_instances.

Lemma limit_min_prop fuel (o : OmegaLimit Z) :
  (32 <= fuel)%nat -> o_l o <= o_u o -> int_ok (o_l o) (o_u o) ->
  defined_on (o_fn o) (o_l o) (o_u o) -> convex_on (cost (o_fn o)) (o_l o) (o_u o) ->
  exists v, limit_min fuel o = Ok v /\ limit_min fuel (guard_om o) = Ok v /\
    (exists p, o_l o <= p <= o_u o /\ cost (o_fn o) p = v) /\
    (forall x, o_l o <= x <= o_u o -> v <= cost (o_fn o) x).
Proof.
  intros Hf Hlu HR HD HC.
  destruct (limit_min_ok one fuel o ltac:(lia) Hlu HR HD HC) as (p & E & A1 & A2).
  exists (cost (o_fn o) p). split; [exact E|].
  assert (Hg : forall x, o_l o <= x <= o_u o -> o_fn (guard_om o) x = o_fn o x).
  { intros x Hx. cbn [guard_om o_fn]. unfold guard.
    destruct (Z.leb_spec (o_l o) x); [|lia]. destruct (Z.leb_spec x (o_u o)); [reflexivity|lia]. }
  assert (Hgc : forall x, o_l o <= x <= o_u o -> cost (o_fn (guard_om o)) x = cost (o_fn o) x).
  { intros x Hx. unfold cost. rewrite Hg by auto. reflexivity. }
  split; [|split; eauto].
  destruct (limit_min_ok one fuel (guard_om o) ltac:(lia)) as (p' & E' & B1 & B2); auto.
  { intros x Hx. rewrite Hg by exact Hx. apply HD. exact Hx. }
  { intros x Hx. change (o_l (guard_om o)) with (o_l o) in Hx. change (o_u (guard_om o)) with (o_u o) in Hx.
    rewrite !Hgc by lia. apply HC. exact Hx. }
  change (o_l (guard_om o)) with (o_l o) in *. change (o_u (guard_om o)) with (o_u o) in *.
  rewrite E'. f_equal. rewrite Hgc by auto.
  specialize (B2 p A1). rewrite !Hgc in B2 by auto. specialize (A2 p' B1). lia.
Qed.

Lemma pre_processing_prop fuel (o : OmegaLimit Z) :
  (32 <= fuel)%nat -> o_l o <= o_u o -> int_ok (o_l o) (o_u o) ->
  defined_on (o_fn o) (o_l o) (o_u o) -> convex_on (cost (o_fn o)) (o_l o) (o_u o) ->
  exists o', pre_processing fuel o = Ok o' /\
    o_l o' = o_l o /\ o_u o' = o_u o /\ o_i o' = o_i o /\ o_j o' = o_j o /\
    (forall d, d <= o_u o -> exists v, o_fn o' d = Ok v /\
        (exists w, Z.max (o_l o) d <= w <= o_u o /\ cost (o_fn o) w = v) /\
        (forall w, Z.max (o_l o) d <= w <= o_u o -> v <= cost (o_fn o) w)) /\
    (forall d, d < o_u o -> cost (o_fn o') d <= cost (o_fn o') (d + 1)) /\
    (forall l', convex_on (cost (o_fn o')) l' (o_u o)).
Proof.
  intros Hf Hlu HR HD HC.
  destruct (pre_processing_ok one fuel o ltac:(lia) Hlu HR HD HC) as (o' & E & E1 & E2 & E3 & E4 & HB & HS & HX).
  exists o'. split; [exact E|]. repeat (split; [assumption|]). split; [|split; [|exact HX]].
  - intros d Hd. destruct (HB d Hd) as (w & Hw & Ew & HBe). exists (cost (o_fn o) w). split; [exact Ew|].
    destruct HBe as [(w' & A1 & A2 & A3) B]. split.
    + exists w'. split; [lia|exact A3].
    + intros w0 Hw0. apply B; lia.
  - intros d Hd. specialize (HS d Hd). lia.
Qed.

Lemma reverse_prop (o : OmegaLimit Z) :
  - INT_MAX <= o_l o -> o_l o <= o_u o -> o_u o <= INT_MAX ->
  exists o' o'', reverse o = Ok o' /\ reverse o' = Ok o'' /\
    o_i o' = o_j o /\ o_j o' = o_i o /\ o_l o' = - o_u o /\ o_u o' = - o_l o /\
    (forall d, o_l o <= d <= o_u o -> o_fn o' (- d) = o_fn o d) /\
    o_i o'' = o_i o /\ o_j o'' = o_j o /\ o_l o'' = o_l o /\ o_u o'' = o_u o /\
    (forall d, o_l o <= d <= o_u o -> o_fn o'' d = o_fn o d).
Proof.
  intros H1 H2 H3. destruct (reverse_ok o H1 H2 H3) as (o' & E & (R1 & R2 & R3 & R4 & _) & HF).
  destruct (reverse_ok o') as (o'' & E' & (S1 & S2 & S3 & S4 & _) & HF'); try (rewrite ?R3, ?R4; lia).
  exists o', o''. repeat split; auto; try congruence; try lia.
  intros d Hd. replace d with (- - d) at 1 by lia. rewrite HF' by lia. apply HF; auto.
Qed.

Lemma merge_prop (o other : OmegaLimit Z) :
  o_i o = o_i other -> o_j o = o_j other ->
  exists o' err, merge o other = Ok (o', err) /\
    (forall d, o_l o' <= d <= o_u o' <-> (o_l o <= d <= o_u o) /\ (o_l other <= d <= o_u other)) /\
    (err = true <-> forall d, ~ ((o_l o <= d <= o_u o) /\ (o_l other <= d <= o_u other))) /\
    o_i o' = o_i o /\ o_j o' = o_j o /\
    (forall d a b, o_fn o d = Ok a -> o_fn other d = Ok b -> o_fn o' d = Ok (a + b)).
Proof.
  intros Hi Hj. destruct (merge_ok one o other Hi Hj) as (o' & flag & E & El & Eu & Ei & Ej & Ef & EF).
  exists o', flag. split; [exact E|]. split; [intros d; rewrite El, Eu; lia|]. split; [|auto].
  rewrite Ef, El, Eu. split.
  - intros H d [A B]. lia.
  - intros H. destruct (Z.lt_ge_cases (Z.min (o_u o) (o_u other)) (Z.max (o_l o) (o_l other))); auto.
    exfalso. apply (H (Z.max (o_l o) (o_l other))). lia.
Qed.

Section Limits.
Variables (fuel n : nat) (K : Z) (limits : list (OmegaLimit Z)).
Hypothesis H1 : 0 < one.
Hypothesis HK : 0 <= K.
Hypothesis HK2 : 2 * K <= INT_MAX.
Hypothesis HR : forall o, In o limits -> range_wf n K o.
Hypothesis Hf : (32 <= fuel)%nat.

Lemma range_lgood o : In o limits -> lgood n K (2 * K) o.
Proof. intros Ho. destruct (HR o Ho) as (A1 & A2 & A3 & A4 & A5 & A6 & A7). constructor; auto; lia. Qed.

Lemma true_cost_eq nu : true_cost limits nu = lcost limits nu.
Proof. clear. unfold true_cost, lcost. rewrite sumZ_zsum. reflexivity. Qed.

Lemma calc_separates : exists vmax M U,
  calc fuel limits = Ok (vmax, M, U) /\ 0 <= M /\
  0 <= U <= 2 * K /\ (forall o, In o limits -> o_u o - o_l o <= U) /\
  (forall o, In o limits -> limit_wf n M K o) /\
  (forall nu, satisfied limits nu -> network_cost M limits nu = true_cost limits nu /\ true_cost limits nu <= vmax) /\
  (forall nu, ~ satisfied limits nu -> vmax < network_cost M limits nu).
Proof.
  destruct (calc_ok one fuel ltac:(lia) n K (2 * K) limits ltac:(lia) ltac:(lia) range_lgood) as (U & E & HU & HUo).
  destruct (slopes_ok one fuel ltac:(lia) n K (2 * K) _ limits ltac:(lia) ltac:(lia) range_lgood ltac:(lia) eq_refl) as [HM HLo].
  eexists _, _, U. split; [exact E|]. split; [exact HM|]. split; [exact HU|]. split; [exact HUo|].
  split; [intros o Ho; apply limit_wf_ok; auto|].
  set (M := one + zsum limits (fun o => hi o - lo one fuel o)) in *. split.
  - intros nu Hs. rewrite true_cost_eq. split.
    + apply (network_cost_sat n K (2 * K)); auto. exact range_lgood.
    + apply (lcost_le n K (2 * K)); auto. exact range_lgood.
  - intros nu Hs. destruct (sat_or fuel ltac:(lia) limits nu) as [S0|(o & O1 & O2)]; [contradiction|].
    assert (A := network_cost_viol one fuel ltac:(lia) n K (2 * K) M limits nu o ltac:(lia) ltac:(lia) range_lgood HM O1 O2).
    unfold M in A at 1. rewrite zsum_sub in A. lia.
Qed.

End Limits.

Section Flow.
Variables (fuel n : nat) (M K U : Z) (limits : list (OmegaLimit Z)).
Hypothesis HW : network_wf n M K U limits.
Hypothesis Hfuel : flow_iterations n (length limits) K <= Z.of_nat fuel.

Lemma flow_min : consistent U limits -> exists s s' v,
  flow_new fuel n M U limits = Ok s /\ min_cost fuel s = Ok (s', v) /\ network_min M limits v.
Proof.
  intros HC. destruct HW as (HM & HL & A1 & A2 & A3 & A4 & A5 & A6). rewrite flow_iterations_eq in Hfuel.
  apply (min_cost_ok one n M K U limits); auto.
  - intros o Ho. apply limit_wf_ok; auto.
  - rewrite Dn_eq. exact A4.
  - rewrite Dn_eq. exact A6.
Qed.

(** ** Phases *)
Lemma phase_circulates kap s : phase_state fuel n M K U limits kap s -> 2 <= f_eps s ->
  exists s', phase fuel s = Ok s' /\ circulation n M limits s'.
Proof. intros HS He. destruct (phase_runs one fuel n M K U limits HW Hfuel (fun _ => true) (fun _ _ => eq_refl) kap s HS He) as (s' & A & _ & _ & B & _). eauto. Qed.

Lemma phase_halves kap s : phase_state fuel n M K U limits kap s -> 2 <= f_eps s ->
  exists s', phase fuel s = Ok s' /\ f_eps s' = f_eps s /\
    optimal_within n M (Z.quot (f_eps s) 2) limits s' /\ (forall v, (v <= n)%nat -> potential s v <= potential s' v).
Proof.
  intros HS He. destruct (phase_runs one fuel n M K U limits HW Hfuel (fun _ => true) (fun _ _ => eq_refl) kap s HS He) as (s' & A & _ & B & _ & C & D).
  exists s'. repeat split; auto; try apply C; auto. apply D.
Qed.

Section Checked.
Variable okd : Z -> bool.
Hypothesis Hokd : forall z, Z.abs z <= size_bound (length limits) M -> okd z = true.

Lemma phase_checked kap s : phase_state fuel n M K U limits kap s -> 2 <= f_eps s ->
  exists s', phase fuel s = Ok s' /\ phase_chk okd fuel s = Ok s'.
Proof.
  intros HS He. destruct (phase_runs one fuel n M K U limits HW Hfuel okd) with (kap := kap) (s := s)
    as (s' & A & B & _); auto.
  - intros z Hz. apply Hokd. unfold FlowInv.Cb in Hz. unfold size_bound. lia.
  - eauto.
Qed.

Lemma loop_checked : forall k kap s s', phase_state fuel n M K U limits kap s ->
  scaling_loop fuel k s = Ok s' -> scaling_loop_chk okd fuel k s = Ok s'.
Proof.
  induction k as [|k IH]; intros kap s s' HS H; cbn [scaling_loop] in H; cbn [scaling_loop_chk];
    destruct (Z.ltb_spec (f_eps s) 2) as [Hlt|Hge]; auto.
  apply bind_inv in H. destruct H as (s1 & E1 & H). destruct (phase_checked kap s HS Hge) as (s2 & E2 & E3).
  rewrite E1 in E2. inversion E2; subst s2. rewrite E3. cbn [bind]. eapply IH; [|exact H]. eapply ps_next; eauto.
Qed.
End Checked.

Lemma phase_contract kap s : phase_state fuel n M K U limits kap s -> 2 <= f_eps s ->
  exists s', phase fuel s = Ok s' /\ phase_chk any_number fuel s = Ok s'.
Proof. apply phase_checked. reflexivity. Qed.

Lemma phase_sizes kap s : phase_state fuel n M K U limits kap s -> 2 <= f_eps s ->
  exists s', phase fuel s = Ok s' /\ phase_chk (within (size_bound (length limits) M)) fuel s = Ok s'.
Proof. apply phase_checked. intros z Hz. apply Z.leb_le. exact Hz. Qed.

(** the whole run *)
Lemma run_states s : consistent U limits -> flow_new fuel n M U limits = Ok s ->
  exists s1 s2 v kap, scaling_loop fuel fuel s = Ok s1 /\ scaling_loop_chk (within (size_bound (length limits) M)) fuel fuel s = Ok s1 /\
    min_cost fuel s = Ok (s2, v) /\ phase_state fuel n M K U limits kap s1 /\ f_eps s1 < 2 /\
    circulation n M limits s1 /\ optimal_within n M kap limits s1.
Proof.
  intros HC E. destruct (flow_min HC) as (s0 & s2 & v & E1 & E2 & _). rewrite E in E1. inversion E1; subst s0. clear E1.
  assert (P0 : phase_state fuel n M K U limits (2 * Z.of_nat (n + 1) * K) s) by (apply ps_first; exact E).
  pose proof E2 as E3. unfold min_cost in E3. apply bind_inv in E3. destruct E3 as (s1 & E3 & _).
  destruct (loop_states one fuel n M K U limits _ _ _ _ P0 E3) as (kap & P1 & He).
  pose proof (J_state one fuel n M K U limits HW Hfuel kap s1 P1) as HJ.
  exists s1, s2, v, kap. split; [exact E3|]. split; [eapply loop_checked; eauto; intros z Hz; apply Z.leb_le; exact Hz|]. split; [exact E2|].
  split; [exact P1|]. split; [exact He|]. split; [eapply J_circulation; eauto|eapply J_optimal; eauto].
Qed.

End Flow.

(** threshold and flow value together *)
Lemma flow_decides fuel n K limits vmax M U :
  0 < one -> (forall o, In o limits -> range_wf n K o) ->
  calc fuel limits = Ok (vmax, M, U) -> flow_fits n K U -> consistent U limits ->
  flow_iterations n (length limits) K <= Z.of_nat fuel ->
  exists s s' v, flow_new fuel n M U limits = Ok s /\ min_cost fuel s = Ok (s', v) /\
    network_min M limits v /\
    (vmax < v <-> forall nu, ~ satisfied limits nu) /\
    (v <= vmax -> (exists nu, satisfied limits nu /\ true_cost limits nu = v) /\
                  forall nu, satisfied limits nu -> v <= true_cost limits nu).
Proof.
  intros H1 HR EC HFi HC Hfuel. pose proof HFi as (A1 & A2 & A3 & A4 & A5 & A6).
  assert (Hf : (32 <= fuel)%nat).
  { rewrite flow_iterations_eq in Hfuel. unfold flow_fuel in Hfuel.
    assert (X := phase_work_mono n (length limits) 1 (Dn n * K) (Dn n * K) ltac:(lia) ltac:(assert (Y := Dn_pos n); nia)). lia. }
  destruct (calc_separates fuel n K limits H1 ltac:(lia) A3 HR Hf) as (vmax' & M' & U' & EC' & HM & HU & HUo & HL & HS & HV).
  rewrite EC' in EC. inversion EC; subst vmax' M' U'. clear EC.
  destruct (flow_min fuel n M K U limits) as (s & s' & v & E1 & E2 & HN); auto.
  { split; [exact HM|]. split; [exact HL|exact HFi]. }
  exists s, s', v. split; [exact E1|]. split; [exact E2|]. split; [exact HN|].
  destruct HN as [(nu0 & N1) N2]. split.
  - split.
    + intros Hv nu Hs. destruct (HS nu Hs) as [S1 S2]. specialize (N2 nu). lia.
    + intros Hno. rewrite <- N1. apply HV, Hno.
  - intros Hv. split.
    + exists nu0. destruct (sat_or fuel ltac:(lia) limits nu0) as [S0|(o & O1 & O2)].
      * destruct (HS nu0 S0). split; [exact S0|lia].
      * exfalso. assert (vmax < network_cost M limits nu0); [|lia]. apply HV. intros S0. apply O2, (S0 o O1).
    + intros nu Hs. destruct (HS nu Hs). specialize (N2 nu). lia.
Qed.

(** the documented bound, when all ranges contain 0 *)
Lemma documented_fits fuel n M U limits :
  0 <= M -> 0 <= U -> 6 * Z.of_nat (n + 1) * bit_ceil (Z.of_nat (n + 1) * U) <= INT_MAX ->
  (forall o, In o limits -> limit_wf n M INT_MAX o /\ o_l o <= 0 <= o_u o /\ o_u o - o_l o <= U) ->
  flow_iterations n (length limits) (Z.max 1 U) <= Z.of_nat fuel ->
  exists s s' v, flow_new fuel n M U limits = Ok s /\ min_cost fuel s = Ok (s', v) /\ network_min M limits v.
Proof.
  intros HM HU HD HL Hfuel. destruct (bit_ceil_ge (Z.of_nat (n + 1) * U)) as [B1 B2].
  set (B := bit_ceil (Z.of_nat (n + 1) * U)) in *.
  apply (flow_min fuel n M (Z.max 1 U)); auto.
  - split; [exact HM|]. split.
    + intros o Ho. destruct (HL o Ho) as ((A1 & A2 & A3 & A4 & A5 & A6 & _) & A7 & A8). repeat split; auto; try lia; apply A4; auto.
    + assert (Z.of_nat (n + 1) * U <= B) by lia. assert (Z.of_nat (n + 1) <= Z.of_nat (n + 1) * B) by nia.
      assert (U <= Z.of_nat (n + 1) * U) by nia.
      assert (B <= Z.of_nat (n + 1) * B) by nia.
      repeat split; try lia; try (unfold INT_MAX in *; lia).
      intros HU0. rewrite Z.max_r by lia. fold B.
        assert (Z.of_nat n * (2 * Z.of_nat (n + 1) * U + 4 * B) <= Z.of_nat n * (6 * B)) by (apply Z.mul_le_mono_nonneg_l; lia).
        nia.
  - intros ->. exists (fun _ => 0). intros o Ho. destruct (HL o Ho) as (_ & A1 & A2). lia.
Qed.

End Props.
