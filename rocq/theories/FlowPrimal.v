(** * The state left by [Flow::min_cost] determines an optimal solution *)
From Verif Require Import Base BaseLemmas Data ProblemDefine Flow ProblemSolver.
From Verif Require Import Sums NetMath Spec FlowSpec Convex FlowNet FlowNew FlowOpt FlowStates FlowProps PrimalSpec.
Local Open Scope Z_scope.

(** slopes on both sides of [d0] bound the tilted function *)
Lemma tilted_min (F : Z -> Z) (x d0 : Z) :
  (forall t, t < d0 -> F (t + 1) - F t <= x) -> (forall t, d0 <= t -> x <= F (t + 1) - F t) ->
  forall d, F d0 - x * d0 <= F d - x * d.
Proof.
  intros HL HR d. destruct (Z.le_gt_cases d0 d) as [H|H].
  - pattern d. apply Z.le_ind with (n := d0); auto; [intros a b ->; reflexivity|lia|].
    intros k Hk IH. specialize (HR k Hk). unfold Z.succ. lia.
  - assert (X : forall j : nat, F d0 - x * d0 <= F (d0 - Z.of_nat j) - x * (d0 - Z.of_nat j)).
    { induction j as [|j IH]; [rewrite Z.sub_0_r; lia|].
      specialize (HL (d0 - Z.of_nat (S j)) ltac:(lia)). replace (d0 - Z.of_nat (S j) + 1) with (d0 - Z.of_nat j) in HL by lia. lia. }
    specialize (X (Z.to_nat (d0 - d))). rewrite Z2Nat.id in X by lia. replace (d0 - (d0 - d)) with d in X by lia. exact X.
Qed.

Lemma conserves_sum n limits y (nu : nat -> Z) :
  (forall k, (k < length limits)%nat -> (o_i (nth k limits OmegaLimit0) <= n)%nat /\ (o_j (nth k limits OmegaLimit0) <= n)%nat) ->
  conserves n limits y ->
  zsum (seq 0 (length limits)) (fun k => y k * (nu (o_i (nth k limits OmegaLimit0)) - nu (o_j (nth k limits OmegaLimit0)))) = 0.
Proof.
  intros HI HC. set (m := length limits) in *.
  assert (Z0 : zsum (seq 0 (n + 1)) (fun v => nu v * sumZ (map (fun k => let o := nth k limits OmegaLimit0 in
                        (if Nat.eqb (o_j o) v then y k else 0) - (if Nat.eqb (o_i o) v then y k else 0)) (seq 0 m))) = 0).
  { apply zsum_zero. intros v Hv. apply in_seq in Hv. assert (X := HC v ltac:(lia)). fold m in X. rewrite X. lia. }
  rewrite (zsum_ext (seq 0 (n + 1)) _ (fun v => zsum (seq 0 m) (fun k =>
     nu v * ((if Nat.eqb (o_j (nth k limits OmegaLimit0)) v then y k else 0) - (if Nat.eqb (o_i (nth k limits OmegaLimit0)) v then y k else 0))))) in Z0.
  2:{ intros v _. rewrite sumZ_zsum, zsum_scale. reflexivity. }
  rewrite zsum_swap in Z0.
  rewrite (zsum_ext (seq 0 m) _ (fun k => (-1) * (y k * (nu (o_i (nth k limits OmegaLimit0)) - nu (o_j (nth k limits OmegaLimit0)))))) in Z0.
  { rewrite zsum_scale in Z0. lia. }
  intros k Hk. apply in_seq in Hk. destruct (HI k ltac:(lia)) as [H1 H2].
  set (a := o_i (nth k limits OmegaLimit0)) in *. set (b := o_j (nth k limits OmegaLimit0)) in *.
  assert (P : forall c, (c <= n)%nat -> zsum (seq 0 (n + 1)) (fun v => nu v * (if Nat.eqb c v then y k else 0)) = nu c * y k).
  { intros c Hc. rewrite (zsum_ext _ _ (fun v => if Nat.eqb c v then nu v * y k else 0)).
    - rewrite (zsum_indicator (seq 0 (n + 1)) c (fun v => nu v * y k)) by apply seq_NoDup.
      destruct (in_dec Nat.eq_dec c (seq 0 (n + 1))) as [|Hn]; [reflexivity|]. exfalso. apply Hn, in_seq. lia.
    - intros v _. destruct (Nat.eqb c v); lia. }
  rewrite (zsum_ext _ _ (fun v => nu v * (if Nat.eqb b v then y k else 0) - nu v * (if Nat.eqb a v then y k else 0))) by (intros; lia).
  rewrite zsum_sub, !P by auto. lia.
Qed.

(** ** A state that is optimal within 1 *)
Section Final.
Variables (n : nat) (M K : Z) (limits : list (OmegaLimit Z)) (s : flow Z).
Notation m := (length limits).
Hypothesis HL : forall o, In o limits -> limit_wf n M K o.
Hypothesis HC : circulation n M limits s.
Hypothesis HO : optimal_within n M 1 limits s.

Notation lim k := (nth k limits OmegaLimit0).
Notation x k := (flow_on s (2 * k)).

Lemma lim_wf k : (k < m)%nat -> limit_wf n M K (lim k).
Proof. intros Hk. apply HL, nth_In, Hk. Qed.

Lemma lim_nodes k : (k < m)%nat -> (o_i (lim k) <= n)%nat /\ (o_j (lim k) <= n)%nat.
Proof. intros Hk. destruct (lim_wf k Hk) as (_ & _ & _ & _ & A & B & _). auto. Qed.

Lemma state_conserves : conserves n limits (fun k => x k).
Proof. intros v Hv. destruct HC as (_ & _ & H). destruct (H v Hv) as [_ X]. exact X. Qed.

Lemma some_offset : exists theta, 0 <= theta < 2 * Z.of_nat (n + 1) /\ offset_free n theta s.
Proof.
  set (N := 2 * Z.of_nat (n + 1)). assert (HN : 0 < N) by (unfold N; lia).
  destruct (avoid (map (fun i => (- potential s i) mod N) (seq 0 (n + 1))) (2 * (n + 1))) as (th & Ht & Hav).
  { rewrite map_length, seq_length. lia. }
  exists th. split; [unfold N; lia|]. intros i Hi E0. fold N in E0. apply Hav. apply in_map_iff. exists i. split; [|apply in_seq; lia].
  symmetry. apply (Z.mod_unique_pos _ _ (- ((potential s i + th) / N))); [unfold N; lia|].
  assert (E1 := Z.div_mod (potential s i + th) N ltac:(lia)). lia.
Qed.

Section Offset.
Variable theta : Z.
Hypothesis HT : offset_free n theta s.
Notation nu := (rounded n theta s).
Notation dif k := (nu (o_i (lim k)) - nu (o_j (lim k))).

Lemma round_tilted k d : (k < m)%nat ->
  penalised M (lim k) (dif k) - x k * dif k <= penalised M (lim k) d - x k * d.
Proof.
  intros Hk. destruct (lim_nodes k Hk) as [Hi Hj].
  destruct (HO k (lim k) (nth_error_nth' _ _ Hk)) as [O1 O2]. cbv zeta in O1, O2.
  assert (T1 := HT _ Hi). assert (T2 := HT _ Hj). unfold rounded.
  set (N := 2 * Z.of_nat (n + 1)) in *. assert (HN : 2 <= N) by (unfold N; lia).
  set (pi := potential s (o_i (lim k))) in *. set (pj := potential s (o_j (lim k))) in *.
  assert (E1 := Z.div_mod (pi + theta) N ltac:(lia)). assert (E2 := Z.div_mod (pj + theta) N ltac:(lia)).
  assert (B1 := Z.mod_pos_bound (pi + theta) N ltac:(lia)). assert (B2 := Z.mod_pos_bound (pj + theta) N ltac:(lia)).
  set (qi := (pi + theta) / N) in *. set (qj := (pj + theta) / N) in *.
  set (ri := (pi + theta) mod N) in *. set (rj := (pj + theta) mod N) in *. clearbody qi qj ri rj.
  assert (Ed : pi - pj = N * (qi - qj) + (ri - rj)) by lia.
  apply tilted_min; intros t Ht.
  - apply O1. rewrite Ed. assert (N * t <= N * (qi - qj - 1)) by (apply Z.mul_le_mono_nonneg_l; lia). lia.
  - apply O2. rewrite Ed. assert (N * (qi - qj) <= N * t) by (apply Z.mul_le_mono_nonneg_l; lia). lia.
Qed.

Lemma network_cost_zsum nu' : network_cost M limits nu' = zsum (seq 0 m) (fun k => penalised M (lim k) (nu' (o_i (lim k)) - nu' (o_j (lim k)))).
Proof. unfold network_cost. rewrite (sumZ_nth _ limits OmegaLimit0). reflexivity. Qed.

Lemma split_cost y nu' : conserves n limits y ->
  network_cost M limits nu' = zsum (seq 0 m) (fun k => penalised M (lim k) (nu' (o_i (lim k)) - nu' (o_j (lim k))) - y k * (nu' (o_i (lim k)) - nu' (o_j (lim k)))).
Proof. intros Hy. rewrite network_cost_zsum, zsum_sub, (conserves_sum n limits y nu' lim_nodes Hy). lia. Qed.

Lemma rounded_min nu' : network_cost M limits nu <= network_cost M limits nu'.
Proof.
  rewrite !(split_cost _ _ state_conserves). apply zsum_le. intros k Hk. apply in_seq in Hk. apply round_tilted. lia.
Qed.

(** the clamped difference *)
Notation cl k d := (clamp (o_l (lim k)) (o_u (lim k)) d).

Lemma clamp_in l u d : l <= u -> l <= clamp l u d <= u.
Proof. unfold clamp. lia. Qed.

Lemma penalised_in o d : o_l o <= d <= o_u o -> penalised M o d = cost (o_fn o) d.
Proof. intros H. unfold penalised, clamp. rewrite Z.min_r, Z.max_r by lia. rewrite Z.sub_diag. cbn [Z.abs]. lia. Qed.

Lemma clamp_tilted o d y : - M <= y <= M -> cost (o_fn o) (clamp (o_l o) (o_u o) d) - y * clamp (o_l o) (o_u o) d <= penalised M o d - y * d.
Proof. intros Hy. unfold penalised. set (c := clamp _ _ _). destruct (Z.abs_spec (d - c)) as [[A ->]|[A ->]]; nia. Qed.

Lemma dual_state : dual_value limits (fun k => x k) (network_cost M limits nu).
Proof.
  exists (fun k => penalised M (lim k) (dif k) - x k * dif k). split.
  - intros k o Ho. assert (Hk := nth_error_lt _ _ _ Ho). assert (Eo : lim k = o) by (apply nth_error_nth; exact Ho).
    assert (Hlu : o_l o <= o_u o) by (rewrite <- Eo; apply (lim_wf k Hk)).
    assert (Hmin := round_tilted k). specialize (Hmin) with (1 := Hk). rewrite Eo in *.
    set (d0 := nu (o_i o) - nu (o_j o)) in *. destruct HC as (_ & Hx & _). destruct (Hx k Hk) as [_ Hxk].
    assert (A := clamp_tilted o d0 (x k) Hxk). assert (B := clamp_in (o_l o) (o_u o) d0 Hlu).
    split.
    + exists (clamp (o_l o) (o_u o) d0). split; [exact B|].
      specialize (Hmin (clamp (o_l o) (o_u o) d0)). rewrite (penalised_in o (clamp _ _ _) B) in Hmin. lia.
    + intros w Hw. specialize (Hmin w). rewrite (penalised_in o w Hw) in Hmin. exact Hmin.
  - rewrite sumZ_zsum. apply split_cost. exact state_conserves.
Qed.

Lemma dual_below y v : conserves n limits y -> (forall k, (k < m)%nat -> - M <= y k <= M) -> dual_value limits y v ->
  v <= network_cost M limits nu.
Proof.
  intros Hy Hb (a & Ha & ->). rewrite sumZ_zsum, (split_cost y nu Hy). apply zsum_le. intros k Hk. apply in_seq in Hk.
  assert (Hk' : (k < m)%nat) by lia. destruct (Ha k (lim k) (nth_error_nth' _ _ Hk')) as [_ H].
  assert (Hlu : o_l (lim k) <= o_u (lim k)) by apply (lim_wf k Hk').
  assert (A := clamp_tilted (lim k) (dif k) (y k) (Hb k Hk')).
  specialize (H _ (clamp_in _ _ (dif k) Hlu)). lia.
Qed.
End Offset.
End Final.

(** ** The run *)
Section Run.
Variable one : Z.
#[local] Hint Extern 0 (DataOps Z) => exact (exact_ops one) : typeclass_instances.

Lemma sum_answer_keeps fuel (s s' : flow Z) v : sum_answer fuel s = Ok (s', v) ->
  f_scal s' = f_scal s /\ f_flows s' = f_flows s /\ f_imb s' = f_imb s.
Proof.
  unfold sum_answer. generalize (seq 0 (length (f_edges s))). generalize (@dzero Z (exact_ops one)).
  intros a l. revert s a. induction l as [|e l IH]; intros s a E; cbn [for_each] in E.
  - inversion E; subst. auto.
  - apply bind_inv in E. destruct E as ([s1 a1] & E1 & E). apply IH in E.
    apply bind_inv in E1. destruct E1 as (o & _ & E1). apply bind_inv in E1. destruct E1 as (y & _ & E1).
    apply bind_inv in E1. destruct E1 as (es & _ & E1). apply bind_inv in E1. destruct E1 as (b & _ & E1).
    inversion E1; subst. exact E.
Qed.

Variables (fuel n : nat) (M K U : Z) (limits : list (OmegaLimit Z)).
Hypothesis HW : network_wf n M K U limits.
Hypothesis Hfuel : flow_iterations n (length limits) K <= Z.of_nat fuel.
Hypothesis HU : 0 < U.

Lemma first_eps s : flow_new fuel n M U limits = Ok s -> 2 <= f_eps s.
Proof.
  intros E. pose proof HW as (_ & _ & _ & _ & _ & I2 & I3 & _).
  destruct (fuel_facts fuel n M K U limits HW Hfuel) as (_ & _ & F & _).
  unfold flow_new in E. apply bind_inv in E. destruct E as (e & Ee & E).
  destruct (eps_loop_ok n U ltac:(lia) ltac:(rewrite Dn_eq; lia) I3 31 fuel 0 eq_refl F) as (k & Ek & _ & B & _).
  change (2 ^ Z.of_nat 0) with 1 in Ek. rewrite Ek in Ee. inversion Ee; subst e.
  apply bind_inv in E. destruct E as (a2 & _ & E). apply bind_inv in E. destruct E as (a3 & _ & E). apply bind_inv in E. destruct E as (a4 & _ & E).
  inversion E; subst. cbn [f_eps]. nia.
Qed.

Lemma last_kap kap s : phase_state fuel n M K U limits kap s -> f_eps s < 2 -> kap = 1.
Proof.
  intros HS He. destruct HS as [s E|kap s s' HS Hge E].
  - apply first_eps in E. lia.
  - destruct (phase_halves one fuel n M K U limits HW Hfuel kap s HS Hge) as (s2 & E2 & Ee & _).
    rewrite E in E2. inversion E2; subst s2. cbn [f_eps with_eps] in He. rewrite Ee in He.
    rewrite Z.quot_div_nonneg in * by lia. assert (1 <= f_eps s / 2) by (apply Z.div_le_lower_bound; lia). lia.
Qed.

Lemma final_state s : flow_new fuel n M U limits = Ok s ->
  exists s' v, min_cost fuel s = Ok (s', v) /\ network_min M limits v /\
    circulation n M limits s' /\ optimal_within n M 1 limits s'.
Proof.
  intros E. assert (HC : consistent U limits) by (intros E0; lia).
  destruct (flow_min one fuel n M K U limits HW Hfuel HC) as (s0 & s2 & v & E0 & E2 & Hv). rewrite E in E0. inversion E0; subst s0. clear E0.
  destruct (run_states one fuel n M K U limits HW Hfuel s HC E) as (s1 & s2' & v' & kap & L1 & _ & E2' & P1 & He & Hci & Hop).
  exists s2, v. split; [exact E2|]. split; [exact Hv|].
  rewrite (last_kap kap s1 P1 He) in Hop.
  unfold min_cost in E2. rewrite L1 in E2. cbn [bind] in E2. apply bind_inv in E2. destruct E2 as ([s3 a] & E3 & E2). inversion E2; subst s3 v.
  destruct (sum_answer_keeps _ _ _ _ E3) as (K1 & K2 & K3).
  unfold circulation, optimal_within, net_inflow, imbalance, flow_on, potential in *. rewrite K1, K2, K3. auto.
Qed.

Lemma primal_read s : flow_new fuel n M U limits = Ok s ->
  exists s' v, min_cost fuel s = Ok (s', v) /\ network_min M limits v /\
    (exists theta, 0 <= theta < 2 * Z.of_nat (n + 1) /\ offset_free n theta s') /\
    (forall theta, offset_free n theta s' -> network_cost M limits (rounded n theta s') = v).
Proof.
  intros E. destruct (final_state s E) as (s' & v & E1 & Hv & Hci & Hop). exists s', v.
  split; [exact E1|]. split; [exact Hv|]. split; [apply some_offset|].
  intros theta HT. destruct HW as (HM & HL & _). destruct Hv as [(nu & En) Hmin].
  assert (A := rounded_min n M K limits s' HL Hci Hop theta HT nu). specialize (Hmin (rounded n theta s')). lia.
Qed.

Lemma dual_read s : flow_new fuel n M U limits = Ok s ->
  exists s' v, min_cost fuel s = Ok (s', v) /\ circulation n M limits s' /\
    dual_value limits (fun k => flow_on s' (2 * k)) v /\
    (forall y v', conserves n limits y -> (forall k, (k < length limits)%nat -> - M <= y k <= M) -> dual_value limits y v' -> v' <= v).
Proof.
  intros E. destruct (final_state s E) as (s' & v & E1 & Hv & Hci & Hop). exists s', v.
  split; [exact E1|]. split; [exact Hci|]. destruct (some_offset n s') as (theta & _ & HT). destruct HW as (HM & HL & _).
  assert (Ev : network_cost M limits (rounded n theta s') = v).
  { destruct Hv as [(nu & En) Hmin]. assert (A := rounded_min n M K limits s' HL Hci Hop theta HT nu). specialize (Hmin (rounded n theta s')). lia. }
  rewrite <- Ev. split; [eapply dual_state; eauto|]. intros y v' H1 H2 H3. eapply dual_below; eauto.
Qed.
End Run.
