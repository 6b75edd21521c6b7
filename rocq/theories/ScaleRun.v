(** * CostScaling::MinCost returns minus the least cost of a circulation *)
From Verif Require Import Base BaseLemmas Data ProblemDefine Flow CostScaling Sums NetMath Spec FlowOpt ScaleNet ScaleRefine.
Local Open Scope Z_scope.

Section Run.
Variable one : Z.
#[local] Hint Extern 0 (DataOps Z) => exact (exact_ops one) : typeclass_instances.
Hypothesis Hone : 0 < one.

Variables (n : nat) (A : list (InputEdge Z)).
Notation m := (length A).
Hypothesis HA : arcs_ok n A.
Hypothesis Hint : forall a, In a A -> - INT_MAX <= in_cost a <= INT_MAX.

Notation sei := (sei A).
Notation sej := (sej A).
Notation pe := (pe sei sej).
Notation exc := (exc m sei sej).
Notation opt := (opt m sei sej (slft one A)).
Notation nodes := (nodes n).
Notation rc := (rc A).
Notation cpi := (cpi one A).
Notation net := (scale_netok one n A HA).

(** the adjacency lists built by AddEdge *)
Definition lastof (u e : nat) : option nat := find (fun i => Nat.eqb (sei i) u) (rev (seq 0 e)).
Definition nx (e : nat) : option nat := lastof (sei e) e.
Definition hd (u : nat) : option nat := lastof u (2 * m).

Lemma rev_seq_S e : rev (seq 0 (S e)) = e :: rev (seq 0 e).
Proof. rewrite seq_S, rev_app_distr. reflexivity. Qed.

Lemma lastof_S u e : lastof u (S e) = if Nat.eqb (sei e) u then Some e else lastof u e.
Proof. unfold lastof. rewrite rev_seq_S. reflexivity. Qed.

Lemma lastof_linked u e : linked nx (lastof u e) (filter (fun i => Nat.eqb (sei i) u) (rev (seq 0 e))).
Proof.
  induction e as [|e IH]; [reflexivity|]. rewrite lastof_S, rev_seq_S. cbn [filter].
  destruct (Nat.eqb_spec (sei e) u) as [E|N]; auto. cbn [linked]. split; auto. unfold nx. rewrite E. exact IH.
Qed.

Lemma hd_linked u : (u <= n)%nat -> linked nx (hd u) (sG A u).
Proof. intros _. apply lastof_linked. Qed.

(** ** Init: CostScaling.cpp:88-104 *)
Definition maxc (l : list (InputEdge Z)) : Z := fold_left (fun c a => Z.max c (in_cost a)) l 1.

Lemma maxc_app l a : maxc (l ++ [a]) = Z.max (maxc l) (in_cost a).
Proof. unfold maxc. rewrite fold_left_app. reflexivity. Qed.

Lemma maxc_ge l : 1 <= maxc l /\ forall a, In a l -> in_cost a <= maxc l.
Proof.
  induction l as [|a l IH] using rev_ind; [split; [reflexivity|intros a []]|].
  rewrite maxc_app. destruct IH as [I1 I2]. split; [lia|]. intros b Hb. apply in_app_or in Hb.
  destruct Hb as [Hb|[<-|[]]]; [specialize (I2 b Hb)|]; lia.
Qed.

Lemma maxc_le l K : 1 <= K -> (forall a, In a l -> in_cost a <= K) -> maxc l <= K.
Proof.
  intros HK. induction l as [|a l IH] using rev_ind; intros H; [exact HK|]. rewrite maxc_app.
  assert (maxc l <= K) by (apply IH; intros; apply H, in_or_app; auto).
  assert (in_cost a <= K) by (apply H, in_or_app; simpl; auto). lia.
Qed.

Notation zero := (fun _ : nat => 0).

Record init_inv (pre : list (InputEdge Z)) (cs : scaling Z) : Prop := {
  ii_eps : c_eps cs = one * maxc pre;
  ii_p : c_p cs = [];
  ii_N : c_N cs = (n + 1)%nat;
  ii_head : vec (c_head cs) (n + 1) (fun u => lastof u (2 * length pre));
  ii_edge : vec (c_edge cs) (2 * length pre) (arcf A nx zero);
  ii_total : c_total cs = zsum pre (fun a => in_cap a * in_cost a)
}.

Lemma vec_snoc {B} (l : list B) N f b : vec l N f -> f N = b -> vec (l ++ [b]) (S N) f.
Proof.
  intros [H1 H2] E. constructor; [rewrite app_length; simpl; lia|]. intros i Hi.
  destruct (Nat.eq_dec i N) as [->|Hn].
  - rewrite nth_error_app2 by lia. rewrite H1, Nat.sub_diag. simpl. congruence.
  - rewrite nth_error_app1 by lia. apply H2. lia.
Qed.

Lemma add_edge_ok cs e : vec (c_head cs) (n + 1) (fun u => lastof u e) -> vec (c_edge cs) e (arcf A nx zero) -> (e < 2 * m)%nat ->
  exists head edge, add_edge cs (sei e) (sej e) (sc A e) (rc zero e) = Ok (mkCs (c_eps cs) (c_p cs) head edge (c_N cs) (c_total cs)) /\
    vec head (n + 1) (fun u => lastof u (S e)) /\ vec edge (S e) (arcf A nx zero).
Proof.
  intros H1 H2 He. assert (B := sei_le n A HA e He). unfold add_edge.
  rewrite (vec_get _ _ _ _ H1) by lia. cbn [bind]. rewrite (vec_set _ _ _ _ _ H1) by lia. cbn [bind].
  eexists _, _. split; [reflexivity|]. split.
  - eapply vec_ext; [apply vec_upd; [exact H1|lia]|]. intros i Hi. cbv beta. rewrite lastof_S. unfold fup.
    rewrite (vec_len _ _ _ H2).
    destruct (Nat.eqb_spec i (sei e)) as [->|N]; [rewrite Nat.eqb_refl; reflexivity|].
    destruct (Nat.eqb_spec (sei e) i); [congruence|reflexivity].
  - apply vec_snoc; auto.
Qed.

Lemma cs_init_ok : exists cs, cs_init (n + 1) A = Ok cs /\ c_eps cs = one * maxc A /\ c_N cs = (n + 1)%nat /\
  vec (c_p cs) (n + 1) zero /\ vec (c_head cs) (n + 1) hd /\ vec (c_edge cs) (2 * m) (arcf A nx zero) /\
  c_total cs = zsum A (fun a => in_cap a * in_cost a).
Proof.
  unfold cs_init.
  match goal with |- context[for_each A ?s0 ?b] =>
    destruct (for_each_inv init_inv b A s0) as (cs & E & [I1 I2 I3 I4 I5 I6]) end.
  - constructor; cbn [c_eps c_p c_N c_head c_edge c_total]; auto.
    + cbn [done exact_ops]. unfold maxc. cbn [fold_left]. lia.
    + eapply vec_ext; [apply vec_repeat|]. intros i Hi. reflexivity.
    + constructor; [reflexivity|]. intros i Hi. simpl in Hi. lia.
  - intros pre a post cs Ep [I1 I2 I3 I4 I5 I6]. cbv zeta.
    set (k := length pre) in *.
    assert (Hk : (k < m)%nat) by (rewrite Ep, app_length; simpl; unfold k; lia).
    assert (Ea : ak A k = a).
    { unfold ak. rewrite Ep. rewrite app_nth2 by (unfold k; lia). unfold k. rewrite Nat.sub_diag. reflexivity. }
    set (cs1 := mkCs _ _ _ _ _ _).
    destruct (add_edge_ok cs1 (2 * k)) as (h1 & g1 & E1 & V1 & V2); auto; [lia|].
    unfold ScaleNet.sei, ScaleNet.sej, sc, ScaleNet.rc, sub, scap, xd in E1. rewrite even_2k, div2_2k, Ea, Z.sub_0_r in E1.
    rewrite E1. cbn [bind].
    assert (Hc := Hint a ltac:(rewrite Ep; apply in_or_app; simpl; auto)).
    rewrite ck_ok by (unfold INT_MIN, INT_MAX in *; lia). cbn [bind].
    destruct (add_edge_ok (mkCs (c_eps cs1) (c_p cs1) h1 g1 (c_N cs1) (c_total cs1)) (S (2 * k))) as (h2 & g2 & E2 & V3 & V4); auto; [lia|].
    replace (S (2 * k)) with (2 * k + 1)%nat in E2 by lia.
    unfold ScaleNet.sei, ScaleNet.sej, sc, ScaleNet.rc, sub, scap, xd in E2. rewrite even_2k1, div2_2k1, Ea in E2.
    change (0 - - 0) with 0 in E2. cbn [dzero exact_ops]. rewrite E2.
    eexists. split; [reflexivity|]. constructor; cbn [c_eps c_p c_N c_head c_edge c_total cs1]; auto.
    + rewrite maxc_app, I1. unfold dmax, of_int. cbn [dlt dmuli done exact_ops].
      destruct (Z.ltb_spec (one * maxc pre) (one * in_cost a)) as [Q|Q].
      * apply Z.mul_lt_mono_pos_l in Q; auto. rewrite Z.max_r by lia. reflexivity.
      * apply Z.mul_le_mono_pos_l in Q; auto. rewrite Z.max_l by lia. reflexivity.
    + rewrite app_length. cbn [length]. fold k. replace (2 * (k + 1))%nat with (S (S (2 * k))) by lia. auto.
    + rewrite app_length. cbn [length]. fold k. replace (2 * (k + 1))%nat with (S (S (2 * k))) by lia. auto.
    + rewrite zsum_app, I6. cbn [zsum dadd dmuli exact_ops]. lia.
  - rewrite E. cbn [bind]. eexists. split; [reflexivity|]. cbn [c_eps c_p c_N c_head c_edge c_total].
    split; [exact I1|]. split; [exact I3|]. split; [apply vec_repeat|]. split; [exact I4|]. split; [exact I5|exact I6].
Qed.

(** ** The loop over epsilon *)
Definition covered : Prop := forall a, In a A -> 0 < in_cap a -> - in_cost a <= maxc A.

Lemma inrange_zero : inrange A zero.
Proof. intros e He. unfold ScaleNet.rc, xd. assert (B := sub_bounds n A HA e He). destruct (Nat.even e); lia. Qed.

Lemma opt_start : covered -> opt (one * maxc A) zero zero.
Proof.
  intros Hcov. apply (opt_iff one n A HA). split.
  - exact inrange_zero.
  - intros e He. unfold ScaleNet.rc, sub, xd, ScaleNet.cpi, NetMath.pe, sc. destruct (Nat.even e) eqn:Ev; [|lia].
    intros Hr. assert (Hin := ak_in A _ (div2_lt _ _ He)). assert (Q := Hcov _ Hin). unfold scap in Hr. specialize (Q ltac:(lia)). nia.
Qed.

Lemma exc_zero v : exc zero v = 0.
Proof.
  unfold NetMath.exc. apply zsum_zero. intros k _. destruct (Nat.eqb _ _), (Nat.eqb _ _); reflexivity.
Qed.

Variables (s : nat) (w : Z).
Hypothesis Hs : one = w * 2 ^ Z.of_nat s.
Hypothesis Hs2 : 2 * maxc A * (Z.of_nat n + 1) <= 2 ^ Z.of_nat s.

Definition eps_at (eps : Z) (j : nat) : Prop := 0 < eps /\ eps * 2 ^ Z.of_nat j = one * maxc A.

Lemma scale_loop_ok fuel : refine_fuel n A <= Z.of_nat fuel -> forall k j cs p x,
  maxc A * (Z.of_nat n + 1) < 2 ^ Z.of_nat (j + k) -> eps_at (c_eps cs) j ->
  c_N cs = (n + 1)%nat -> vec (c_p cs) (n + 1) p -> vec (c_head cs) (n + 1) hd -> vec (c_edge cs) (2 * m) (arcf A nx x) ->
  opt (c_eps cs) p x \/ one <= c_eps cs * (Z.of_nat n + 1) -> inrange A x -> (forall v, (v <= n)%nat -> exc x v = 0) ->
  exists b cs', scale_loop fuel k cs = Ok (b, cs') /\ (opt (c_eps cs) p x -> b = true) /\
   (b = true -> exists p' x', vec (c_edge cs') (2 * m) (arcf A nx x') /\ c_total cs' = c_total cs /\
    0 < c_eps cs' /\ c_eps cs' * (Z.of_nat n + 1) < one /\ opt (c_eps cs') p' x' /\ forall v, (v <= n)%nat -> exc x' v = 0).
Proof.
  intros Hf. assert (Hm1 := proj1 (maxc_ge A)).
  assert (Hw : 0 < w) by (assert (0 < 2 ^ Z.of_nat s) by (apply Z.pow_pos_nonneg; lia); nia).
  induction k as [|k IH]; intros j cs p x Hk [He1 He2] EN HP HH HE Ho Hr Hc;
    cbn [scale_loop]; rewrite EN; cbn [dle dmuli done exact_ops];
    destruct (Z.leb_spec one (c_eps cs * Z.of_nat (n + 1))) as [Hle|Hgt];
    try (destruct Ho as [Ho|Ho]; [|lia]; exists true, cs; split; [reflexivity|]; split; [reflexivity|]; intros _; exists p, x; repeat (split; auto); lia).
  - exfalso. rewrite Nat.add_0_r in Hk. assert (P := Z.pow_pos_nonneg 2 (Z.of_nat j) ltac:(lia) ltac:(lia)).
    set (P2 := 2 ^ Z.of_nat j) in *. replace (Z.of_nat (n + 1)) with (Z.of_nat n + 1) in Hle by lia. nia.
  - assert (P := Z.pow_pos_nonneg 2 (Z.of_nat j) ltac:(lia) ltac:(lia)).
    assert (Hj : (S j <= s)%nat).
    { assert (Q : 2 ^ Z.of_nat j <= maxc A * (Z.of_nat n + 1)).
      { set (P2 := 2 ^ Z.of_nat j) in *. replace (Z.of_nat (n + 1)) with (Z.of_nat n + 1) in Hle by lia. nia. }
      assert (Q2 : 2 ^ Z.of_nat (S j) <= 2 ^ Z.of_nat s).
      { rewrite Nat2Z.inj_succ, Z.pow_succ_r by lia. lia. }
      apply Z.pow_le_mono_r_iff in Q2; lia. }
    set (h := w * maxc A * 2 ^ Z.of_nat (s - S j)).
    assert (Heh : c_eps cs = 2 * h).
    { apply Z.mul_reg_r with (2 ^ Z.of_nat j); [lia|]. rewrite He2, Hs. unfold h.
      replace (Z.of_nat s) with (Z.of_nat (s - S j) + 1 + Z.of_nat j) by lia.
      rewrite (Z.pow_add_r 2 (Z.of_nat (s - S j) + 1) (Z.of_nat j)) by lia.
      rewrite (Z.pow_add_r 2 (Z.of_nat (s - S j)) 1) by lia. change (2 ^ 1) with 2. ring. }
    assert (Hh : 0 < h) by lia.
    destruct (refine_ok one n A HA nx hd hd_linked p x h (c_eps cs) Hh Heh Hr Hc (c_head cs) HH fuel cs) as
      (b & cs1 & R1 & R2 & R3); auto.
    rewrite R1. cbn [bind]. destruct b.
    2:{ eexists false, _. split; [reflexivity|]. split; [auto|discriminate]. }
    destruct (R3 eq_refl) as (R4 & R5 & R6 & R7 & p1 & x1 & R8 & R9 & R10 & R11).
    cbn [dhalf exact_ops]. rewrite R5, Heh.
    assert (Eq : Z.quot (2 * h) 2 = h) by (rewrite Z.mul_comm; apply Z.quot_mul; lia). rewrite Eq.
    destruct (IH (S j) (mkCs h (c_p cs1) (c_head cs1) (c_edge cs1) (c_N cs1) (c_total cs1)) p1 x1) as
      (b & cs' & Q1 & Q2 & Q3); cbn [c_eps c_p c_head c_edge c_N c_total]; auto.
    + replace (S j + k)%nat with (j + S k)%nat by lia. auto.
    + split; auto. rewrite Nat2Z.inj_succ, Z.pow_succ_r by lia. rewrite <- He2, Heh. ring.
    + lia.
    + rewrite R6. auto.
    + apply (proj1 (opt_iff one n A HA h p1 x1)); auto.
    + exists b, cs'. split; auto. split; [auto|]. intros Eb. destruct (Q3 Eb) as (p' & x' & T1 & T2 & T3). exists p', x'.
      split; auto. split; auto. rewrite T2. cbn [c_total]. auto.
Qed.

(** rounding the potentials *)
Lemma round_nu eps p x : 0 < eps -> eps * (Z.of_nat n + 1) < one -> opt eps p x ->
  exists nu, forall e, (e < 2 * m)%nat -> 0 < rc x e -> nu (sei e) - nu (sej e) <= sc A e.
Proof.
  intros He HN Ho. apply (opt_iff one n A HA) in Ho. destruct Ho as [_ Ho].
  destruct (avoid (flat_map (fun i => map (fun t => (Z.of_nat t - p i) mod one) (seq 0 (Z.to_nat eps))) nodes) (Z.to_nat one)) as (sh & Hsh & Hav).
  { assert (Q : forall L, length (flat_map (fun i => map (fun t => (Z.of_nat t - p i) mod one) (seq 0 (Z.to_nat eps))) L) = (length L * Z.to_nat eps)%nat).
    { induction L as [|a L IH]; [reflexivity|]. cbn [flat_map length]. rewrite app_length, map_length, seq_length, IH. lia. }
    rewrite Q, nodes_len. apply Nat2Z.inj_lt. rewrite Nat2Z.inj_mul, !Z2Nat.id by lia. lia. }
  rewrite Z2Nat.id in Hsh by lia.
  assert (Hr : forall i, (i <= n)%nat -> eps <= (p i + sh) mod one).
  { intros i Hi. destruct (Z.le_gt_cases eps ((p i + sh) mod one)) as [|Hlt]; auto. exfalso. apply Hav.
    apply in_flat_map. exists i. split; [apply in_nodes; auto|]. apply in_map_iff.
    assert (B := Z.mod_pos_bound (p i + sh) one Hone). assert (D := Z.div_mod (p i + sh) one ltac:(lia)).
    exists (Z.to_nat ((p i + sh) mod one)). split; [|apply in_seq; lia]. rewrite Z2Nat.id by lia.
    symmetry. apply Z.mod_unique_pos with (q := - ((p i + sh) / one)); [lia|]. lia. }
  exists (fun i => (p i + sh) / one). intros e Hee Hrc. specialize (Ho e Hee Hrc).
  assert (R1 := Hr _ (sei_le n A HA e Hee)). assert (B2 := Z.mod_pos_bound (p (sej e) + sh) one Hone).
  assert (D1 := Z.div_mod (p (sei e) + sh) one ltac:(lia)). assert (D2 := Z.div_mod (p (sej e) + sh) one ltac:(lia)).
  unfold ScaleNet.cpi, NetMath.pe in Ho.
  set (a := (p (sei e) + sh) / one) in *. set (b := (p (sej e) + sh) / one) in *.
  set (ra := (p (sei e) + sh) mod one) in *. set (rb := (p (sej e) + sh) mod one) in *.
  assert (one * (a - b) < one * (sc A e + 1)) by lia.
  apply Z.mul_lt_mono_pos_l in H; lia.
Qed.

(** the sum of the hinge functions cap * max(0, nu_u - nu_v - cost) *)
Definition hinges (nu : nat -> Z) : Z :=
  zsum A (fun a => in_cap a * Z.max 0 (nu (in_u a) - nu (in_v a) - in_cost a)).

Definition xcost (x : nat -> Z) : Z := zsum (seq 0 m) (fun k => x k * in_cost (ak A k)).

Lemma zsum_ak {B} (L : list B) d (f : B -> Z) : zsum L f = zsum (seq 0 (length L)) (fun k => f (nth k L d)).
Proof. rewrite <- sumZ_zsum. apply sumZ_nth. Qed.

Lemma circ_pot nu x : (forall v, (v <= n)%nat -> exc x v = 0) ->
  zsum (seq 0 m) (fun k => x k * (nu (in_u (ak A k)) - nu (in_v (ak A k)))) = 0.
Proof.
  intros H. assert (S := sum_exc n m _ sei sej (sG A) _ net nu x).
  rewrite (zsum_ext _ _ (fun k => (-1) * (x k * (nu (sej (2 * k)%nat) - nu (sei (2 * k)%nat))))).
  2:{ intros k _. unfold ScaleNet.sei, ScaleNet.sej. rewrite even_2k, div2_2k. lia. }
  rewrite zsum_scale, <- S. rewrite zsum_zero; [lia|].
  intros v Hv. apply in_nodes in Hv. rewrite H by auto. lia.
Qed.

Lemma inrange_k x k : inrange A x -> (k < m)%nat -> 0 <= x k <= in_cap (ak A k).
Proof.
  intros H Hk. assert (A1 := H (2 * k)%nat ltac:(lia)). assert (A2 := H (2 * k + 1)%nat ltac:(lia)).
  unfold ScaleNet.rc, sub, scap, xd in *. rewrite even_2k, div2_2k in A1. rewrite even_2k1, div2_2k1 in A2. lia.
Qed.

Lemma hinges_ge nu x : inrange A x -> (forall v, (v <= n)%nat -> exc x v = 0) -> - xcost x <= hinges nu.
Proof.
  intros Hr Hc. assert (Q := circ_pot nu x Hc). unfold hinges, xcost. rewrite (zsum_ak A (mkIn 0 0 0 0)). fold (ak A).
  enough (zsum (seq 0 m) (fun k => x k * (nu (in_u (ak A k)) - nu (in_v (ak A k)))) - zsum (seq 0 m) (fun k => x k * in_cost (ak A k)) <=
    zsum (seq 0 m) (fun k => in_cap (ak A k) * Z.max 0 (nu (in_u (ak A k)) - nu (in_v (ak A k)) - in_cost (ak A k)))) by (unfold ak in *; lia).
  rewrite <- zsum_sub. apply zsum_le. intros k Hk. apply in_seq in Hk. assert (B := inrange_k x k Hr ltac:(lia)).
  set (z := nu (in_u (ak A k)) - nu (in_v (ak A k))) in *. nia.
Qed.

Lemma hinges_eq nu x : inrange A x -> (forall v, (v <= n)%nat -> exc x v = 0) ->
  (forall e, (e < 2 * m)%nat -> 0 < rc x e -> nu (sei e) - nu (sej e) <= sc A e) -> hinges nu = - xcost x.
Proof.
  intros Hr Hc Hs'. assert (Q := circ_pot nu x Hc). unfold hinges, xcost. rewrite (zsum_ak A (mkIn 0 0 0 0)). fold (ak A).
  enough (zsum (seq 0 m) (fun k => x k * (nu (in_u (ak A k)) - nu (in_v (ak A k)))) - zsum (seq 0 m) (fun k => x k * in_cost (ak A k)) =
    zsum (seq 0 m) (fun k => in_cap (ak A k) * Z.max 0 (nu (in_u (ak A k)) - nu (in_v (ak A k)) - in_cost (ak A k)))) by (unfold ak in *; lia).
  rewrite <- zsum_sub. apply zsum_ext. intros k Hk. apply in_seq in Hk. assert (B := inrange_k x k Hr ltac:(lia)).
  assert (S1 := Hs' (2 * k)%nat ltac:(lia)). assert (S2 := Hs' (2 * k + 1)%nat ltac:(lia)).
  unfold ScaleNet.rc, sub, scap, xd, sc, ScaleNet.sei, ScaleNet.sej in S1, S2.
  rewrite even_2k, div2_2k in S1. rewrite even_2k1, div2_2k1 in S2.
  set (z := nu (in_u (ak A k)) - nu (in_v (ak A k))) in *.
  destruct (Z.lt_trichotomy z (in_cost (ak A k))) as [T|[T|T]].
  - assert (x k = 0) by (destruct (Z.eq_dec (x k) 0); [auto|exfalso; lia]). rewrite H, Z.max_l by lia. lia.
  - rewrite Z.max_l by lia. nia.
  - assert (x k = in_cap (ak A k)) by (destruct (Z.eq_dec (x k) (in_cap (ak A k))); [auto|exfalso; lia]). rewrite H, Z.max_r by lia. lia.
Qed.

Lemma vec_map {B} (l : list B) N f : vec l N f -> l = map f (seq 0 N).
Proof.
  intros [H1 H2]. apply nth_ext with (d := f 0%nat) (d' := f 0%nat); [rewrite map_length, seq_length; auto|].
  intros i Hi. rewrite map_nth, seq_nth by lia. apply nth_error_nth. apply H2. lia.
Qed.

Theorem cs_min_cost_ok fuel : refine_fuel n A + Z.log2 (maxc A * (Z.of_nat n + 1)) + 1 <= Z.of_nat fuel ->
  exists b v, cs_min_cost fuel (n + 1) A = Ok (b, v) /\ (covered -> b = true) /\ (b = false -> v = 0) /\
    (b = true -> exists x nu, inrange A x /\ (forall u, (u <= n)%nat -> exc x u = 0) /\ v = - xcost x /\ v = hinges nu).
Proof.
  intros Hf. assert (Hm1 := proj1 (maxc_ge A)).
  assert (Hlog := Z.log2_nonneg (maxc A * (Z.of_nat n + 1))).
  destruct cs_init_ok as (cs & E & I1 & I2 & I3 & I4 & I5 & I6). unfold cs_min_cost. rewrite E. cbn [bind].
  destruct (scale_loop_ok fuel ltac:(lia) fuel 0 cs zero zero) as (b & cs' & L1 & LB & L2); auto.
  - cbn [Nat.add]. assert (B := Z.log2_spec (maxc A * (Z.of_nat n + 1)) ltac:(nia)).
    eapply Z.lt_le_trans; [apply B|]. apply Z.pow_le_mono_r; [lia|].
    assert (0 <= refine_fuel n A) by (unfold refine_fuel; nia). lia.
  - split; [rewrite I1; nia|]. rewrite I1. simpl (Z.of_nat 0). rewrite Z.pow_0_r. lia.
  - right. rewrite I1. nia.
  - exact inrange_zero.
  - intros v _. apply exc_zero.
  - rewrite L1. cbn [bind]. destruct b.
    2:{ exists false, 0. split; [reflexivity|]. split; [intros Hc; apply LB; rewrite I1; apply opt_start; auto|]. split; [auto|discriminate]. }
    destruct (L2 eq_refl) as (p & x & L3 & L4 & L5 & L6 & L7 & L8).
    assert (Hr : inrange A x) by apply (proj1 (opt_iff one n A HA _ p x) L7).
    destruct (round_nu _ p x L5 L6 L7) as (nu & Hnu).
    assert (Hsum : forall (l : list (Arc Z)) t, for_each l t (fun t e => Ok (dsub t (dmuli (a_cap e) (a_cost e)))) =
      Ok (t - zsum l (fun e => a_cap e * a_cost e))).
    { induction l as [|a l IH]; intros t; cbn [for_each zsum bind]; [f_equal; lia|].
      rewrite IH. cbn [dsub dmuli exact_ops]. f_equal. lia. }
    rewrite Hsum. cbn [bind dhalf dopp exact_ops].
    assert (Ev : Z.quot (- (c_total cs' - zsum (c_edge cs') (fun e => a_cap e * a_cost e))) 2 = - xcost x).
    { rewrite L4, I6, (vec_map _ _ _ L3), zsum_map. unfold arcf. cbn [a_cap a_cost].
      rewrite zsum_pairs. rewrite (zsum_ak A (mkIn 0 0 0 0)). fold (ak A).
      assert (Q : zsum (seq 0 m) (fun k => in_cap (nth k A (mkIn 0 0 0 0)) * in_cost (nth k A (mkIn 0 0 0 0)))
        - zsum (seq 0 m) (fun k => rc x (2 * k) * sc A (2 * k) + rc x (2 * k + 1) * sc A (2 * k + 1)) = 2 * xcost x).
      { unfold xcost. rewrite <- zsum_scale, <- zsum_sub. apply zsum_ext. intros k _. fold (ak A k).
        unfold ScaleNet.rc, sub, scap, sc, xd. rewrite even_2k, div2_2k, even_2k1, div2_2k1. lia. }
      rewrite Q. replace (- (2 * xcost x)) with (- xcost x * 2) by lia. apply Z.quot_mul. lia. }
    rewrite Ev. eexists true, _. split; [reflexivity|]. split; [auto|]. split; [discriminate|].
    intros _. exists x, nu. repeat (split; auto). symmetry. apply hinges_eq; auto.
Qed.

End Run.
