(** * Optimality of the computed circulation and the value returned by min_cost *)
From Verif Require Import Base BaseLemmas Data UniqueQueue LCT ProblemDefine Flow.
From Verif Require Import LCTSpec LCTForest LCTOps UQProof Sums NetMath Spec Convex FlowNet PDProof FlowInv FlowPhase FlowRun FlowNew.
Local Open Scope Z_scope.

Lemma penalised_fext M o d : o_l o <= o_u o -> penalised M o d = fext (cost (o_fn o)) (o_l o) (o_u o) M d.
Proof.
  intros H. unfold penalised, clamp, fext. destruct (Z.ltb_spec d (o_l o)).
  - rewrite Z.max_l by lia. f_equal. rewrite Z.abs_neq by lia. f_equal. lia.
  - destruct (Z.ltb_spec (o_u o) d).
    + rewrite Z.min_l, Z.max_r by lia. f_equal. rewrite Z.abs_eq by lia. reflexivity.
    + rewrite Z.min_r, Z.max_r by lia. rewrite Z.sub_diag. simpl. lia.
Qed.

Lemma sumZ_nth {A} (f : A -> Z) (l : list A) d :
  sumZ (map f l) = zsum (seq 0 (length l)) (fun k => f (nth k l d)).
Proof.
  induction l as [|a l IH]; [reflexivity|]. cbn [map sumZ length seq zsum nth].
  rewrite IH. f_equal. rewrite <- seq_shift, zsum_map. reflexivity.
Qed.

Lemma sumZ_zsum {A} (f : A -> Z) (l : list A) : sumZ (map f l) = zsum l f.
Proof. induction l as [|a l IH]; [reflexivity|]. cbn [map sumZ zsum]. rewrite IH. reflexivity. Qed.

(** a residue avoided by a short list *)
Lemma avoid (L : list Z) (N : nat) : (length L < N)%nat -> exists s, 0 <= s < Z.of_nat N /\ ~ In s L.
Proof.
  intros H.
  destruct (existsb (fun k => if in_dec Z.eq_dec (Z.of_nat k) L then false else true) (seq 0 N)) eqn:E.
  - apply existsb_exists in E. destruct E as (k & Hk & E). apply in_seq in Hk. exists (Z.of_nat k).
    destruct (in_dec Z.eq_dec (Z.of_nat k) L); [discriminate|]. split; [lia|auto].
  - exfalso. assert (HI : incl (map Z.of_nat (seq 0 N)) L).
    { intros z Hz. apply in_map_iff in Hz. destruct Hz as (k & <- & Hk).
      destruct (in_dec Z.eq_dec (Z.of_nat k) L) as [|Hn]; auto. exfalso.
      assert (T : existsb (fun k => if in_dec Z.eq_dec (Z.of_nat k) L then false else true) (seq 0 N) = true).
      { apply existsb_exists. exists k. split; auto. destruct (in_dec Z.eq_dec (Z.of_nat k) L); [contradiction|reflexivity]. }
      congruence. }
    apply NoDup_incl_length in HI.
    + rewrite map_length, seq_length in HI. lia.
    + apply FinFun.Injective_map_NoDup; [intros a b; lia|apply seq_NoDup].
Qed.

Lemma zsum_pairs m (g : nat -> Z) :
  zsum (seq 0 (2 * m)) g = zsum (seq 0 m) (fun k => g (2 * k)%nat + g (2 * k + 1)%nat).
Proof.
  induction m as [|m IH]; [reflexivity|].
  replace (2 * S m)%nat with (2 * m + 2)%nat by lia. replace (S m) with (m + 1)%nat by lia.
  rewrite !seq_app, !zsum_app, IH. cbn [seq zsum Nat.add]. replace (S (2 * m)) with (2 * m + 1)%nat by lia. lia.
Qed.

Section FlowOpt.
Variable one : Z.
#[local] Hint Extern 0 (DataOps Z) => exact (exact_ops one) : typeclass_instances.

Section Net.
Variables (n m : nat) (M : Z) (E : list (OmegaLimit Z)) (Gl : list (list nat)).
Hypothesis HN : flownet n m M E Gl.

Notation ei := (nei E).
Notation ej := (nej E).
Notation lft := (lftE n M E).
Notation pe := (pe (nei E) (nej E)).
Notation exc := (exc m (nei E) (nej E)).
Notation opt := (opt m (nei E) (nej E) (lftE n M E)).
Notation Head := (Head n m M E Gl).

Let net := flownet_netok _ _ _ _ _ HN.

(** complementary slackness for integer node values *)
Definition slack (nu x : nat -> Z) : Prop :=
  forall e, (e < 2 * m)%nat ->
    eslope M (edge E e) (nu (ei e) - nu (ej e) - 1) <= xd x e <= eslope M (edge E e) (nu (ei e) - nu (ej e)).

(** rounding the potentials *)
Lemma round_potentials p x : opt 1 p x -> exists nu, slack nu x.
Proof.
  intros Ho. assert (HD := Dn_pos n). assert (HM := fn_M _ _ _ _ _ HN).
  destruct (avoid (map (fun i => (- p i) mod Dn n) (seq 0 (n + 1))) (2 * (n + 1))) as (s & Hs & Hav).
  { rewrite map_length, seq_length. lia. }
  fold (Dn n) in Hs.
  assert (Hr : forall i, (i <= n)%nat -> 1 <= (p i + s) mod Dn n <= Dn n - 1).
  { intros i Hi. assert (B := Z.mod_pos_bound (p i + s) (Dn n) ltac:(lia)).
    enough ((p i + s) mod Dn n <> 0) by lia. intros E0. apply Hav. apply in_map_iff. exists i. split; [|apply in_seq; lia].
    symmetry. apply (Z.mod_unique_pos _ _ (- ((p i + s) / Dn n))); [lia|].
    assert (E1 := Z.div_mod (p i + s) (Dn n) ltac:(lia)). lia. }
  exists (fun i => (p i + s) / Dn n). intros e He.
  assert (Hi : (ei e <= n)%nat) by apply (fn_i _ _ _ _ _ HN e He).
  assert (Hj : (ej e <= n)%nat).
  { unfold nej. destruct (fn_rev _ _ _ _ _ HN e He) as (A & _). rewrite <- A. apply (fn_i _ _ _ _ _ HN). apply rev_lt; auto. }
  assert (R1 := Hr _ Hi). assert (R2 := Hr _ Hj).
  assert (D1 := Z.div_mod (p (ei e) + s) (Dn n) ltac:(lia)). assert (D2 := Z.div_mod (p (ej e) + s) (Dn n) ltac:(lia)).
  assert (O1 := Ho e He). assert (O2 := Ho _ (rev_lt _ _ He)).
  rewrite xd_rev, (pe_rev _ _ _ _ _ _ _ net) in O2 by auto.
  assert (O2' : xd x e <= eslope M (edge E e) ((pe p e + 1) / Dn n)).
  { rewrite <- (lft_rev n M E Gl m) by auto. replace (- (pe p e + 1)) with (- pe p e - 1) by lia. lia. }
  assert (Ok_ := fn_ok _ _ _ _ _ HN e He).
  set (a := (p (ei e) + s) / Dn n) in *. set (b := (p (ej e) + s) / Dn n) in *.
  set (ra := (p (ei e) + s) mod Dn n) in *. set (rb := (p (ej e) + s) mod Dn n) in *.
  assert (Ep : pe p e = Dn n * (a - b) + (ra - rb)) by (unfold NetMath.pe; lia).
  split.
  - eapply Z.le_trans; [|exact O1]. unfold lftE. apply eslope_mono; auto.
    enough (a - b <= cdiv (pe p e - 1) (Dn n)) by lia. unfold cdiv.
    enough ((- (pe p e - 1)) / Dn n <= - (a - b)) by lia.
    apply Z.lt_succ_r. apply Z.div_lt_upper_bound; [lia|]. nia.
  - eapply Z.le_trans; [exact O2'|]. apply eslope_mono; auto.
    apply Z.lt_succ_r. apply Z.div_lt_upper_bound; [lia|]. nia.
Qed.

Definition ext (e : nat) : Z -> Z := fext (cost (o_fn (edge E e))) (o_l (edge E e)) (o_u (edge E e)) M.

(** total penalised cost of the network *)
Definition ncost (nu : nat -> Z) : Z := zsum (seq 0 m) (fun k => ext (2 * k) (nu (ei (2 * k)) - nu (ej (2 * k)))).

Lemma circ_zero nu x : (forall u, (u <= n)%nat -> exc x u = 0) ->
  zsum (seq 0 m) (fun k => x k * (nu (ei (2 * k)%nat) - nu (ej (2 * k)%nat))) = 0.
Proof.
  intros H. assert (S := sum_exc n m M ei ej (nG Gl) lft net nu x).
  rewrite (zsum_ext _ _ (fun k => (-1) * (x k * (nu (ej (2 * k)%nat) - nu (ei (2 * k)%nat))))) by (intros; lia).
  rewrite zsum_scale, <- S. rewrite zsum_zero; [lia|].
  intros v Hv. apply in_nodes in Hv. rewrite H by auto. lia.
Qed.

Variable fuel : nat.
Hypothesis Hfuel : (31 < fuel)%nat.
Hypothesis HR : forall e, (e < 2 * m)%nat -> int_range (o_l (edge E e)) (o_u (edge E e)).

(** the value the code adds for edge [e] *)
Definition part (x : nat -> Z) (e : nat) : Z :=
  match limit_min fuel (tilt (edge E e) (xd x e)) with Ok v => v | Err _ => 0 end.

Lemma part_ok x e : (e < 2 * m)%nat ->
  limit_min fuel (tilt (edge E e) (xd x e)) = Ok (part x e) /\
  (exists w, o_l (edge E e) <= w <= o_u (edge E e) /\ part x e = cost (o_fn (edge E e)) w - xd x e * w) /\
  (forall w, o_l (edge E e) <= w <= o_u (edge E e) -> part x e <= cost (o_fn (edge E e)) w - xd x e * w).
Proof.
  intros He. destruct (fn_ok _ _ _ _ _ HN e He) as [H1 H2 H3 H4]. set (o := edge E e) in *.
  assert (HC : forall w, o_l o <= w <= o_u o -> cost (o_fn (tilt o (xd x e))) w = cost (o_fn o) w - xd x e * w).
  { intros w Hw. unfold cost at 1. cbn [tilt o_fn]. rewrite (cost_ok _ _ _ w H2) by auto. reflexivity. }
  destruct (limit_min_ok one fuel (tilt o (xd x e))) as (w & Ew & Aw); cbn [tilt o_l o_u]; auto.
  { apply HR; auto. }
  { intros w Hw. cbn [tilt o_fn]. rewrite (cost_ok _ _ _ w H2) by auto. cbn [bind]. eauto. }
  { intros w Hw. rewrite !HC by lia. specialize (H3 w Hw). nia. }
  destruct Aw as [A1 A2]. cbn [tilt o_l o_u] in A1, A2. rewrite HC in Ew by auto.
  unfold part. fold o. rewrite Ew. split; [reflexivity|]. split; [exists w; auto|].
  intros w' Hw'. assert (X := A2 w' Hw').
  rewrite !HC in X by auto. exact X.
Qed.

Lemma part_slack nu x e : slack nu x -> (e < 2 * m)%nat ->
  part x e = ext e (nu (ei e) - nu (ej e)) - xd x e * (nu (ei e) - nu (ej e)).
Proof.
  intros Hs He. destruct (part_ok x e He) as (_ & (w & Hw & Ew) & Hmin).
  destruct (Hs e He) as [S1 S2]. set (d := nu (ei e) - nu (ej e)) in *.
  assert (HM := fn_M _ _ _ _ _ HN). destruct (fn_ok _ _ _ _ _ HN e He) as [H1 H2 H3 H4] eqn:Eok.
  assert (A := fext_sub _ _ _ M H1 H3 HM H4 d (xd x e) w S1 S2).
  rewrite (fext_in _ _ _ _ w) in A by auto.
  assert (B1 := eslope_bound M _ (d - 1) HM (fn_ok _ _ _ _ _ HN e He)).
  assert (B2 := eslope_bound M _ d HM (fn_ok _ _ _ _ _ HN e He)).
  destruct (fext_clamp (cost (o_fn (edge E e))) _ _ M H1 (xd x e) d ltac:(lia)) as (w' & Hw' & C).
  specialize (Hmin w' Hw'). unfold ext. lia.
Qed.

Lemma part_le nu x e : - M <= xd x e <= M -> (e < 2 * m)%nat ->
  part x e <= ext e (nu (ei e) - nu (ej e)) - xd x e * (nu (ei e) - nu (ej e)).
Proof.
  intros Hx He. destruct (part_ok x e He) as (_ & _ & Hmin).
  destruct (fn_ok _ _ _ _ _ HN e He) as [H1 H2 H3 H4].
  destruct (fext_clamp (cost (o_fn (edge E e))) _ _ M H1 (xd x e) (nu (ei e) - nu (ej e)) Hx) as (w' & Hw' & C).
  specialize (Hmin w' Hw'). unfold ext. lia.
Qed.

Lemma part_rev x e : (e < 2 * m)%nat -> part x (rev_id e) = part x e.
Proof.
  intros He. destruct (part_ok x e He) as (_ & (w & Hw & Ew) & Hmin).
  destruct (part_ok x _ (rev_lt _ _ He)) as (_ & (w' & Hw' & Ew') & Hmin').
  destruct (fn_rev _ _ _ _ _ HN e He) as (_ & _ & R3 & R4 & R5). rewrite R3, R4 in *. rewrite xd_rev in *.
  assert (A := Hmin' (- w) ltac:(lia)). rewrite R5 in A by auto.
  assert (B := Hmin (- w') ltac:(lia)).
  assert (C := R5 (- w') ltac:(lia)). replace (- - w') with w' in C by lia. lia.
Qed.

(** Flow.cpp:36-42 *)
Lemma sum_answer_ok s x : f_edges s = E -> vec (f_flows s) (2 * m) (xd x) ->
  exists s', sum_answer fuel s = Ok (s', zsum (seq 0 (2 * m)) (part x)).
Proof.
  intros EE Hfl. unfold sum_answer. rewrite EE, (fn_len _ _ _ _ _ HN).
  destruct (for_each_inv (fun pre (st : flow Z * Z) =>
      f_flows (fst st) = f_flows s /\ length (f_edges (fst st)) = (2 * m)%nat /\
      (forall e, (e < 2 * m)%nat -> ~ In e pre -> nth_error (f_edges (fst st)) e = Some (edge E e)) /\
      snd st = zsum pre (part x))
    (fun '(s, answer) e_id =>
       e <- vget (f_edges s) e_id ;; x <- vget (f_flows s) e_id ;;
       es <- vset (f_edges s) e_id (tilt e x) ;;
       m <- limit_min fuel (tilt e x) ;; Ok (with_edges s es, dadd answer m))
    (seq 0 (2 * m)) (s, dzero)) as ([s' v] & E1 & H1 & H2 & H3 & H4).
  - cbn [fst snd]. split; auto. split; [rewrite EE; apply (fn_len _ _ _ _ _ HN)|]. split; [|reflexivity].
    intros e He _. rewrite EE. apply nth_error_nth'. rewrite (fn_len _ _ _ _ _ HN). auto.
  - intros pre e post [s1 a1] Epre (H1 & H2 & H3 & H4). cbn [fst snd] in *.
    assert (HI : In e (seq 0 (2 * m))) by (rewrite Epre; apply in_or_app; simpl; auto).
    apply in_seq in HI. assert (He : (e < 2 * m)%nat) by lia. clear HI.
    assert (ND := seq_NoDup (2 * m) 0). rewrite Epre in ND. apply NoDup_remove_2 in ND.
    rewrite (vget_ok _ _ _ (H3 e He ltac:(intros X; apply ND, in_or_app; auto))). cbn [bind].
    rewrite H1, (vec_get _ _ _ _ Hfl) by auto. cbn [bind].
    rewrite vset_ok by lia. cbn [bind].
    destruct (part_ok x e He) as (Ep & _). rewrite Ep. cbn [bind].
    eexists. split; [reflexivity|]. cbn [fst snd f_flows f_edges with_edges].
    split; auto. split; [rewrite upd_length; auto|]. split.
    + intros e2 He2 Hn. rewrite nth_error_upd_neq.
      * apply H3; auto. intros X. apply Hn, in_or_app. auto.
      * intros ->. apply Hn, in_or_app. simpl. auto.
    + rewrite zsum_app, H4. cbn [zsum]. cbn [dadd exact_ops]. lia.
  - exists s'. cbn [snd] in H4. rewrite <- H4. exact E1.
Qed.

Lemma parts_even x : zsum (seq 0 (2 * m)) (part x) = 2 * zsum (seq 0 m) (fun k => part x (2 * k)).
Proof.
  rewrite zsum_pairs, <- zsum_scale. apply zsum_ext. intros k Hk. apply in_seq in Hk.
  rewrite <- (rev_even k), part_rev by lia. lia.
Qed.

Lemma parts_min nu x : slack nu x -> (forall u, (u <= n)%nat -> exc x u = 0) ->
  ncost nu = zsum (seq 0 m) (fun k => part x (2 * k)).
Proof.
  intros Hs Hc.
  rewrite (zsum_ext (seq 0 m) (fun k => part x (2 * k)) (fun k => ext (2 * k) (nu (ei (2 * k)%nat) - nu (ej (2 * k)%nat)) - x k * (nu (ei (2 * k)%nat) - nu (ej (2 * k)%nat)))).
  - rewrite zsum_sub, (circ_zero nu x Hc). unfold ncost. lia.
  - intros k Hk. apply in_seq in Hk. rewrite (part_slack nu) by (auto; lia). rewrite xd_even. reflexivity.
Qed.

Lemma parts_le nu x : (forall e, (e < 2 * m)%nat -> - M <= xd x e <= M) -> (forall u, (u <= n)%nat -> exc x u = 0) ->
  zsum (seq 0 m) (fun k => part x (2 * k)) <= ncost nu.
Proof.
  intros Hx Hc. eapply Z.le_trans.
  - apply zsum_le with (g := fun k => ext (2 * k) (nu (ei (2 * k)%nat) - nu (ej (2 * k)%nat)) - x k * (nu (ei (2 * k)%nat) - nu (ej (2 * k)%nat))).
    intros k Hk. apply in_seq in Hk. rewrite <- (xd_even x). apply part_le; [apply Hx|]; lia.
  - rewrite zsum_sub, (circ_zero nu x Hc). unfold ncost. lia.
Qed.

(** U = 0: no phase is run and the flow stays zero *)
Lemma parts_zero nu : (forall e, (e < 2 * m)%nat -> o_l (edge E e) = o_u (edge E e) /\ nu (ei e) - nu (ej e) = o_l (edge E e)) ->
  ncost nu = zsum (seq 0 m) (fun k => part (fun _ => 0) (2 * k)).
Proof.
  intros H. unfold ncost. apply zsum_ext. intros k Hk. apply in_seq in Hk.
  destruct (H (2 * k)%nat ltac:(lia)) as [H1 H2]. rewrite H2.
  destruct (part_ok (fun _ => 0) (2 * k) ltac:(lia)) as (_ & (w & Hw & Ew) & _).
  rewrite Ew, xd_even. unfold ext. rewrite fext_in by lia. replace w with (o_l (edge E (2 * k))) by lia. lia.
Qed.

End Net.

(** explicit fuel bound *)
Definition flow_fuel (n m : nat) (K : Z) : Z := phase_work n m 1 (Dn n * K) + 33.

Lemma phase_work_mono n m h k1 k2 : 1 <= h -> 0 <= k1 <= k2 -> 0 <= phase_work n m h k1 <= phase_work n m 1 k2.
Proof.
  intros Hh Hk. unfold phase_work.
  assert (A : 0 <= Z.of_nat n * (k1 + h) / h <= Z.of_nat n * (k2 + 1) / 1).
  { split; [apply Z.div_pos; nia|]. rewrite Z.div_1_r. apply Z.div_le_upper_bound; [lia|].
    assert (k1 <= k2 * h) by nia. assert (k1 + h <= (k2 + 1) * h) by lia. nia. }
  set (a := Z.of_nat n * (k1 + h) / h) in *. set (b := Z.of_nat n * (k2 + 1) / 1) in *.
  set (c := 8 * Z.of_nat m + 3 * Z.of_nat (n + 1)) in *. assert (0 <= c) by (unfold c; lia).
  assert (0 <= a * c <= b * c) by nia. lia.
Qed.

Lemma bit_ceil_lt x : 1 <= x -> bit_ceil x < 2 * x.
Proof.
  intros Hx. unfold bit_ceil. destruct (Z.eq_dec x 1) as [->|]; [reflexivity|].
  assert (A := Z.log2_up_spec x ltac:(lia)). assert (B := Z.log2_up_pos x ltac:(lia)).
  replace (2 ^ Z.log2_up x) with (2 * 2 ^ Z.pred (Z.log2_up x)) by (rewrite <- Z.pow_succ_r by lia; f_equal; lia). lia.
Qed.

Lemma bit_ceil_ge x : x <= bit_ceil x /\ 1 <= bit_ceil x.
Proof.
  unfold bit_ceil. assert (N := Z.log2_up_nonneg x). assert (P := Z.pow_pos_nonneg 2 (Z.log2_up x) ltac:(lia) N).
  destruct (Z.le_gt_cases x 1); [lia|]. assert (A := Z.log2_up_spec x ltac:(lia)). lia.
Qed.

Lemma pow_bit_ceil k x : 2 ^ Z.of_nat k < 2 * x -> 2 ^ Z.of_nat k <= bit_ceil x.
Proof.
  intros H. destruct (bit_ceil_ge x) as [B1 B2]. destruct k as [|k]; [change (2 ^ Z.of_nat 0) with 1; lia|].
  unfold bit_ceil in *. apply Z.pow_le_mono_r; [lia|].
  rewrite Nat2Z.inj_succ, Z.pow_succ_r in H by lia.
  enough (Z.of_nat k < Z.log2_up x) by lia. apply (Z.pow_lt_mono_r_iff 2); [lia|apply Z.log2_up_nonneg|lia].
Qed.

Section Main.
Variables (n : nat) (M K U : Z) (limits : list (OmegaLimit Z)).
Notation m := (length limits).
Hypothesis HM : 0 <= M.
Hypothesis HK : 1 <= K.
Hypothesis HL : forall o, In o limits -> limit_ok n M K o.
Hypothesis HU : 0 <= U.
(** all int computations fit *)
Hypothesis HI1 : 2 * K <= INT_MAX.
Hypothesis HI2 : Dn n <= INT_MAX.
Hypothesis HI3 : 4 * Z.of_nat (n + 1) * U <= INT_MAX.
Hypothesis HI4 : 0 < U -> Z.of_nat n * (Dn n * K + 4 * bit_ceil (Z.of_nat (n + 1) * U)) <= INT_MAX.
Variable fuel : nat.
Hypothesis Hfuel : flow_fuel n m K <= Z.of_nat fuel.
Lemma edge_range E Gl : flownet n m M E Gl ->
  (forall j, (j < m)%nat -> edge E (2 * j) = nth j limits OmegaLimit0) ->
  forall e, (e < 2 * m)%nat -> int_range (o_l (edge E e)) (o_u (edge E e)).
Proof.
  intros HN HE.
  assert (H0 : forall j, (j < m)%nat -> - K <= o_l (edge E (2 * j)) /\ o_u (edge E (2 * j)) <= K).
  { intros j Hj. rewrite HE by auto. destruct (HL (nth j limits OmegaLimit0)) as [_ _ _ A B]; auto. apply nth_In; auto. }
  intros e He. unfold int_range. destruct (edge_cases e) as [j [->| ->]].
  - assert (A := H0 j ltac:(lia)). unfold INT_MIN, INT_MAX in *. lia.
  - assert (A := H0 j ltac:(lia)).
    assert (R := fn_rev _ _ _ _ _ HN (2 * j)%nat ltac:(lia)). rewrite rev_even in R.
    destruct R as (_ & _ & R1 & R2 & _). rewrite R1, R2. unfold INT_MIN, INT_MAX in *. lia.
Qed.

Lemma ncost_network E Gl nu : flownet n m M E Gl ->
  (forall j, (j < m)%nat -> edge E (2 * j) = nth j limits OmegaLimit0) ->
  ncost m M E nu = network_cost M limits nu.
Proof.
  intros HN HE. unfold ncost, network_cost. rewrite (sumZ_nth _ limits OmegaLimit0).
  apply zsum_ext. intros k Hk. apply in_seq in Hk. unfold ext, nei, nej. rewrite HE by lia.
  rewrite penalised_fext; auto. destruct (HL (nth k limits OmegaLimit0)) as [[A _ _ _] _ _ _ _]; auto. apply nth_In; lia.
Qed.

(** the constructor and the main loop; nothing is required when U = 0 *)
Lemma run_ok : exists s E Gl s1 x,
  flow_new fuel n M U limits = Ok s /\ flownet n m M E Gl /\
  (forall j, (j < m)%nat -> edge E (2 * j) = nth j limits OmegaLimit0) /\
  scaling_loop fuel fuel s = Ok s1 /\ f_edges s1 = E /\ vec (f_flows s1) (2 * m) (xd x) /\
  (forall u, (u <= n)%nat -> exc m (nei E) (nej E) x u = 0) /\
  (forall e, (e < 2 * m)%nat -> - M <= xd x e <= M) /\
  ((U = 0 /\ x = fun _ => 0) \/ exists nu, slack m M E nu x).
Proof.
  assert (HD := Dn_pos n).
  assert (HPW := phase_work_mono n m 1 0 (Dn n * K) ltac:(lia) ltac:(nia)).
  unfold flow_fuel in Hfuel.
  assert (HF0 : 6 * Z.of_nat m + 2 * Z.of_nat (n + 1) <= phase_work n m 1 0).
  { unfold phase_work. rewrite Z.div_1_r. nia. }
  assert (HF1 : (n + 1 < fuel)%nat) by lia.
  assert (HF2 : (2 * m < fuel)%nat) by lia.
  destruct (flow_new_ok one n M K U limits HM ltac:(lia) HL HU HI2 HI3 fuel ltac:(lia))
    as (s & E & Gl & k & E1 & HN & HE & HH & Hk & Hk1 & Hk2).
  destruct (Z.eq_dec U 0) as [U0|U0].
  - destruct HH as [(par & val & cur & HS & _) Hexc _ HMx _ _].
    assert (k = 0%nat) by (destruct Hk2 as [|Hk2]; auto; subst U; assert (X := Z.pow_pos_nonneg 2 (Z.of_nat k) ltac:(lia) ltac:(lia)); lia).
    subst k. change (2 ^ Z.of_nat 0) with 1 in *.
    exists s, E, Gl, s, (fun _ => 0). split; [exact E1|]. split; [exact HN|]. split; [exact HE|]. split.
    { destruct fuel as [|fuel']; [lia|]. cbn [scaling_loop]. rewrite (st_eps _ _ _ _ _ _ _ _ _ _ _ _ _ HS). reflexivity. }
    split; [apply (st_E _ _ _ _ _ _ _ _ _ _ _ _ _ HS)|]. split; [apply (st_fl _ _ _ _ _ _ _ _ _ _ _ _ _ HS)|].
    split; [exact Hexc|]. split; [intros e He; apply (xd_M m M); auto|]. left. auto.
  - assert (Hk0 : k <> 0%nat).
    { intros ->. change (2 ^ Z.of_nat 0) with 1 in *. nia. }
    destruct k as [|k]; [congruence|]. destruct Hk2 as [|Hk2]; [congruence|].
    assert (Hp := Z.pow_pos_nonneg 2 (Z.of_nat k) ltac:(lia) ltac:(lia)).
    destruct (scaling_ok one n m M E Gl HN (fun _ => true) (fun _ _ => eq_refl) fuel HF1 HF2 k fuel s (fun _ => 0) (fun _ => 0) (Dn n * K)) as (s1 & p & x & Es & [W' HH1] & _); auto.
    { lia. }
    { lia. }
    { nia. }
    { eapply Z.le_trans; [|apply HI4; lia]. apply Z.mul_le_mono_nonneg_l; [lia|].
      rewrite Nat2Z.inj_succ, Z.pow_succ_r in * by lia.
      assert (X := pow_bit_ceil k (Z.of_nat (n + 1) * U) ltac:(lia)). lia. }
    { assert (X := phase_work_mono n m 1 2 (Dn n * K) ltac:(lia) ltac:(nia)). lia. }
    { assert (X := phase_work_mono n m (2 ^ Z.of_nat k) (Dn n * K) (Dn n * K) ltac:(lia) ltac:(nia)). lia. }
    destruct HH1 as [(par & val & cur & HS & _) Hexc Hopt HMx _ _].
    exists s, E, Gl, s1, x. split; [exact E1|]. split; [exact HN|]. split; [exact HE|]. split; [exact Es|].
    split; [apply (st_E _ _ _ _ _ _ _ _ _ _ _ _ _ HS)|].
    split; [apply (st_fl _ _ _ _ _ _ _ _ _ _ _ _ _ HS)|]. split; [exact Hexc|].
    split; [intros e He; apply (xd_M m M); auto|].
    right. apply (round_potentials n m M E Gl HN p x Hopt).
Qed.

(** U = 0: every limit has one value, and these values are consistent *)
Hypothesis HU0 : U = 0 -> exists nu, forall o, In o limits -> o_l o = o_u o /\ nu (o_i o) - nu (o_j o) = o_l o.

Theorem min_cost_ok : exists s s' v,
  flow_new fuel n M U limits = Ok s /\ min_cost fuel s = Ok (s', v) /\ network_min M limits v.
Proof.
  assert (HD := Dn_pos n).
  assert (HPW := phase_work_mono n m 1 0 (Dn n * K) ltac:(lia) ltac:(nia)).
  assert (HF1 : (31 < fuel)%nat) by (unfold flow_fuel in Hfuel; lia).
  destruct run_ok as (s & E & Gl & s1 & x & E1 & HN & HE & Es & EE & Hfl & Hexc & Hx & Hnu).
  assert (HR := edge_range E Gl HN HE).
  assert (HRun : exists nu, ncost m M E nu = zsum (seq 0 m) (fun k => part E fuel x (2 * k))).
  { destruct Hnu as [[U0 ->]|[nu Hnu]].
    - destruct (HU0 U0) as [nu Hnu]. exists nu. apply (parts_zero n m M E Gl HN fuel HF1 HR).
      assert (H2 : forall j, (j < m)%nat -> o_l (edge E (2 * j)) = o_u (edge E (2 * j)) /\ nu (nei E (2 * j)) - nu (nej E (2 * j)) = o_l (edge E (2 * j))).
      { intros j Hj. unfold nei, nej. rewrite HE by auto. apply Hnu, nth_In; auto. }
      intros e He. destruct (edge_cases e) as [j [->| ->]]; [apply H2; lia|].
      assert (R := fn_rev _ _ _ _ _ HN (2 * j)%nat ltac:(lia)). rewrite rev_even in R.
      destruct R as (R1 & R2 & R3 & R4 & _). assert (A := H2 j ltac:(lia)). unfold nei, nej in *. rewrite R1, R2, R3, R4. lia.
    - exists nu. apply (parts_min n m M E Gl HN fuel HF1 HR); auto. }
  destruct HRun as (nu & Enu).
  destruct (sum_answer_ok n m M E Gl HN fuel HF1 HR s1 x EE Hfl) as (s2 & Ea).
  exists s, s2, (zsum (seq 0 m) (fun k => part E fuel x (2 * k))). split; [exact E1|]. split.
  - unfold min_cost. rewrite Es. cbn [bind]. rewrite Ea. cbn [bind].
    rewrite (parts_even n m M E Gl HN fuel HF1 HR). cbn [dhalf exact_ops].
    rewrite Z.mul_comm, Z.quot_mul by lia. reflexivity.
  - split.
    + exists nu. rewrite <- (ncost_network E Gl) by auto. exact Enu.
    + intros nu'. rewrite <- (ncost_network E Gl) by auto. apply (parts_le n m M E Gl HN fuel HF1 HR); auto.
Qed.

End Main.
End FlowOpt.
