(** * CostScaling::MinCost on numbers that are only right while they are small *)
From Verif Require Import Base BaseLemmas Data ProblemDefine Flow CostScaling Sums NetMath Spec FlowOpt ScaleNet ScaleRefine ScaleRun Sim Hom ScaleRel.
Local Open Scope Z_scope.

(** an input arc for an input arc *)
Definition inR {D} (Rc : Z -> D -> Prop) (a : InputEdge Z) (b : InputEdge D) : Prop :=
  in_u b = in_u a /\ in_v b = in_v a /\ in_cost b = in_cost a /\ Rc (in_cap a) (in_cap b).




Section RunRel.
Context {D : Type} {ops : DataOps D}.
Variables (Rc Rp : Z -> D -> Prop) (Bc Bp : Z).
Hypothesis HC : hom ops Rc Bc.
Hypothesis HP : hom ops Rp Bp.

Variables (one : Z) (n : nat) (A : list (InputEdge Z)) (AD : list (InputEdge D)).
Notation m := (length A).
Hypothesis HA : arcs_ok n A.
Hypothesis HAD : Forall2 (inR Rc) A AD.

Notation Kmax := (6 * Z.of_nat n + 7).
Variable (C : Z).
Hypothesis H1 : Rp one done.
Hypothesis Hone : 0 < one.
Hypothesis HCc : forall a, In a A -> - C <= in_cost a <= C.
Hypothesis HCi : 1 <= C <= INT_MAX.
Hypothesis HBp : one * C * (2 * Kmax + 1) <= Bp.
Hypothesis HBc : 2 * (allcap A * C) <= Bc.
Hypothesis HnI : Z.of_nat n + 1 <= INT_MAX.

Notation sei := (sei A).
Notation sej := (sej A).
Notation exc := (exc m sei sej).
Notation opt := (opt m sei sej (slft one A)).
Notation rc := (rc A).
Notation nx := (nx A).
Notation hd := (hd A).
Notation lastof := (lastof A).
Notation arcf := (arcf A nx).
Notation zero := (fun _ : nat => 0).

Lemma allcap_part pre post : A = pre ++ post -> 0 <= zsum pre in_cap <= allcap A.
Proof using HA.
  intros E. unfold allcap. rewrite E, zsum_app.
  assert (0 <= zsum pre in_cap) by (apply zsum_nonneg; intros; apply (ao_cap _ _ HA); rewrite E; apply in_or_app; auto).
  assert (0 <= zsum post in_cap) by (apply zsum_nonneg; intros; apply (ao_cap _ _ HA); rewrite E; apply in_or_app; auto). lia.
Qed.

Lemma allcap_nonneg : 0 <= allcap A.
Proof using HA. assert (X := allcap_part [] A eq_refl). lia. Qed.

Lemma total_bound pre post : A = pre ++ post -> Z.abs (zsum pre (fun a => in_cap a * in_cost a)) <= allcap A * C.
Proof using HA HCc HCi.
  intros E. assert (Q := allcap_part pre post E).
  assert (Hb : forall a, In a pre -> - C * in_cap a <= in_cap a * in_cost a <= C * in_cap a).
  { intros a Ha. assert (Hi : In a A) by (rewrite E; apply in_or_app; auto).
    assert (B1 := ao_cap _ _ HA a Hi). assert (B2 := HCc a Hi). nia. }
  assert (U : zsum pre (fun a => in_cap a * in_cost a) <= zsum pre (fun a => C * in_cap a)) by (apply zsum_le; intros; apply Hb; auto).
  assert (L : zsum pre (fun a => - C * in_cap a) <= zsum pre (fun a => in_cap a * in_cost a)) by (apply zsum_le; intros; apply Hb; auto).
  rewrite zsum_scale in U, L.
  match type of Q with _ <= ?q <= _ => assert (C * q <= C * allcap A) by (apply Z.mul_le_mono_nonneg_l; lia) end. lia.
Qed.

Record init_rel (pre : list (InputEdge Z)) (cs : scaling D) : Prop := {
  ir_eps : Rp (one * maxc pre) (c_eps cs);
  ir_p : c_p cs = [];
  ir_N : c_N cs = (n + 1)%nat;
  ir_head : vec (c_head cs) (n + 1) (fun u => lastof u (2 * length pre));
  ir_edge : vrel (arcR Rc) (c_edge cs) (2 * length pre) (arcf zero);
  ir_total : Rc (zsum pre (fun a => in_cap a * in_cost a)) (c_total cs)
}.

Lemma add_edge_rel cs e c : vec (c_head cs) (n + 1) (fun u => lastof u e) -> vrel (arcR Rc) (c_edge cs) e (arcf zero) -> (e < 2 * m)%nat ->
  Rc (rc zero e) c ->
  exists head edge, add_edge cs (sei e) (sej e) (sc A e) c = Ok (mkCs (c_eps cs) (c_p cs) head edge (c_N cs) (c_total cs)) /\
    vec head (n + 1) (fun u => lastof u (S e)) /\ vrel (arcR Rc) edge (S e) (arcf zero).
Proof using HA one.
  intros G1 G2 He Rcc. assert (B := sei_le n A HA e He). unfold add_edge.
  rewrite (vec_get _ _ _ _ G1) by lia. cbn [bind]. rewrite (vec_set _ _ _ _ _ G1) by lia. cbn [bind].
  eexists _, _. split; [reflexivity|]. split.
  - eapply vec_ext; [apply vec_upd; [exact G1|lia]|]. intros i Hi. cbv beta. rewrite lastof_S. unfold fup.
    rewrite (vr_len _ _ _ _ G2).
    destruct (Nat.eqb_spec i (sei e)) as [->|N]; [rewrite Nat.eqb_refl; reflexivity|].
    destruct (Nat.eqb_spec (sei e) i); [congruence|reflexivity].
  - apply vrel_snoc; auto. unfold arcR, ScaleRefine.arcf. cbn [a_next a_v a_cost a_cap]. auto.
Qed.

Lemma cs_init_rel : exists cs, cs_init (n + 1) AD = Ok cs /\ Rp (one * maxc A) (c_eps cs) /\ c_N cs = (n + 1)%nat /\
  vrel Rp (c_p cs) (n + 1) zero /\ vec (c_head cs) (n + 1) hd /\ vrel (arcR Rc) (c_edge cs) (2 * m) (arcf zero) /\
  Rc (zsum A (fun a => in_cap a * in_cost a)) (c_total cs).
Proof.
  assert (AN := allcap_nonneg).
  unfold cs_init.
  match goal with |- context[for_each AD ?s0 ?b] =>
    destruct (for_each_inv (fun preD cs => exists pre post, A = pre ++ post /\ length pre = length preD /\ init_rel pre cs) b AD s0) as (cs & E & (pre & post & EA & EL & IR)) end.
  - exists [], A. split; auto. split; auto. constructor; cbn [c_eps c_p c_N c_head c_edge c_total]; auto.
    + unfold maxc. cbn [fold_left]. rewrite Z.mul_1_r. exact H1.
    + eapply vec_ext; [apply vec_repeat|]. intros i Hi. reflexivity.
    + constructor; [reflexivity|]. intros i Hi. simpl in Hi. lia.
    + cbn [zsum]. apply HC.
  - intros preD b postD cs Ep (pre & post & EA & EL & [I1 I2 I3 I4 I5 I6]). cbv zeta.
    assert (HAD' := HAD). rewrite EA, Ep in HAD'. apply Forall2_app_inv_l in HAD'.
    destruct HAD' as (l1 & l2 & F1 & F2 & Eapp).
    assert (L1 := Forall2_len _ _ _ F1). assert (l1 = preD /\ l2 = b :: postD) as [-> ->].
    { assert (Hl : length preD = length l1) by lia.
      clear - Eapp Hl. revert l1 Eapp Hl. induction preD as [|y preD IH]; intros [|z l1] E L; try discriminate; cbn in *; auto.
      inversion E. destruct (IH l1) as [-> <-]; auto. }
    inversion F2 as [|a b' post' postD' Hab F3]; subst post postD' b'. clear F2.
    destruct Hab as (Hab1 & Hab2 & Hab3 & Hab4).
    set (k := length pre) in *.
    assert (Hk : (k < m)%nat) by (rewrite EA, app_length; simpl; unfold k; lia).
    assert (Ea : ak A k = a).
    { unfold ak. rewrite EA. rewrite app_nth2 by (unfold k; lia). unfold k. rewrite Nat.sub_diag. reflexivity. }
    assert (Hin : In a A) by (rewrite EA; apply in_or_app; simpl; auto).
    assert (Hc := HCc a Hin). assert (Hcap := ao_cap _ _ HA a Hin).
    set (cs1 := mkCs _ _ _ _ _ _).
    destruct (add_edge_rel cs1 (2 * k) (in_cap b)) as (h1 & g1 & E1 & V1 & V2); auto; [lia| |].
    { unfold ScaleNet.rc, sub, scap, xd. rewrite even_2k, div2_2k, Ea, Z.sub_0_r. exact Hab4. }
    unfold ScaleNet.sei, ScaleNet.sej, sc in E1. rewrite even_2k, div2_2k, Ea in E1.
    rewrite <- Hab1, <- Hab2, <- Hab3 in E1. rewrite E1. cbn [bind].
    rewrite Hab3. rewrite ck_ok by (unfold INT_MIN, INT_MAX in *; lia). cbn [bind].
    destruct (add_edge_rel (mkCs (c_eps cs1) (c_p cs1) h1 g1 (c_N cs1) (c_total cs1)) (S (2 * k)) dzero) as (h2 & g2 & E2 & V3 & V4); auto; [lia| |].
    { replace (S (2 * k)) with (2 * k + 1)%nat by lia. unfold ScaleNet.rc, sub, scap, xd. rewrite even_2k1.
      change (0 - - 0) with 0. apply HC. }
    replace (S (2 * k)) with (2 * k + 1)%nat in E2 by lia.
    unfold ScaleNet.sei, ScaleNet.sej, sc in E2. rewrite even_2k1, div2_2k1, Ea in E2.
    rewrite <- Hab1, <- Hab2 in E2. rewrite E2.
    eexists. split; [reflexivity|]. exists (pre ++ [a]), post'. split; [rewrite <- app_assoc; exact EA|].
    split; [rewrite !app_length; simpl; lia|].
    assert (TB := total_bound (pre ++ [a]) post' ltac:(rewrite <- app_assoc; exact EA)).
    rewrite zsum_app in TB. cbn [zsum] in TB. rewrite Z.add_0_r in TB.
    assert (CB : in_cap a <= allcap A).
    { assert (X := allcap_part (pre ++ [a]) post' ltac:(rewrite <- app_assoc; exact EA)). rewrite zsum_app in X. cbn [zsum] in X.
      assert (Y := allcap_part pre (a :: post') EA). lia. }
    constructor; cbn [c_eps c_p c_N c_head c_edge c_total cs1]; auto.
    + rewrite maxc_app. rewrite <- Z.mul_max_distr_nonneg_l by lia. apply (h_max _ _ HP); auto. rewrite Hab3.
      unfold of_int. apply (h_mul _ _ _ HP); auto; [unfold INT_MIN, INT_MAX in *; lia|].
      assert (one * C <= one * C * (2 * Kmax + 1)) by (clear - Hone HCi; nia). rewrite Z.abs_mul, Z.abs_eq by lia. nia.
    + rewrite app_length. cbn [length]. fold k. replace (2 * (k + 1))%nat with (S (S (2 * k))) by lia. auto.
    + rewrite app_length. cbn [length]. fold k. replace (2 * (k + 1))%nat with (S (S (2 * k))) by lia. auto.
    + rewrite zsum_app. cbn [zsum]. rewrite Z.add_0_r. apply (h_add _ _ _ HC); auto; [|lia]. rewrite Hab3.
      apply (h_mul _ _ _ HC); auto; [unfold INT_MIN, INT_MAX in *; lia|]. rewrite Z.abs_mul, (Z.abs_eq (in_cap a)) by lia. nia.
  - assert (LA := Forall2_len _ _ _ HAD). assert (post = []) as ->.
    { rewrite EA, app_length in LA. apply length_zero_iff_nil. lia. }
    rewrite app_nil_r in EA. subst pre. destruct IR as [I1 I2 I3 I4 I5 I6].
    rewrite E. cbn [bind]. eexists. split; [reflexivity|]. cbn [c_eps c_p c_N c_head c_edge c_total].
    split; [exact I1|]. split; [exact I3|]. split; [apply vrel_repeat; apply HP|]. split; [exact I4|]. split; [exact I5|exact I6].
Qed.

Variables (s : nat) (w : Z).
Hypothesis Hs : one = w * 2 ^ Z.of_nat s.
Hypothesis Hs2 : 2 * maxc A * (Z.of_nat n + 1) <= 2 ^ Z.of_nat s.

Notation eps0 := (one * maxc A).

Lemma scale_loop_rel fuel : refine_fuel n A <= Z.of_nat fuel -> forall k j cs eps p x,
  maxc A * (Z.of_nat n + 1) < 2 ^ Z.of_nat (j + k) -> Rp eps (c_eps cs) -> eps_at one A eps j ->
  c_N cs = (n + 1)%nat -> vrel Rp (c_p cs) (n + 1) p -> vec (c_head cs) (n + 1) hd -> vrel (arcR Rc) (c_edge cs) (2 * m) (arcf x) ->
  (forall v, (v <= n)%nat -> Z.abs (p v) <= (eps0 - eps) * Kmax) ->
  opt eps p x \/ one <= eps * (Z.of_nat n + 1) -> inrange A x -> (forall v, (v <= n)%nat -> exc x v = 0) ->
  exists b cs', scale_loop fuel k cs = Ok (b, cs') /\ (opt eps p x -> b = true) /\
   (b = true -> exists eps' p' x', vrel (arcR Rc) (c_edge cs') (2 * m) (arcf x') /\ c_total cs' = c_total cs /\
    0 < eps' /\ eps' * (Z.of_nat n + 1) < one /\ opt eps' p' x' /\ forall v, (v <= n)%nat -> exc x' v = 0).
Proof.
  intros Hf. assert (Hm1 := proj1 (maxc_ge A)).
  assert (HmC : maxc A <= C) by (apply maxc_le; [lia|intros; apply HCc; auto]).
  assert (AN := allcap_nonneg).
  assert (Hw : 0 < w) by (assert (0 < 2 ^ Z.of_nat s) by (apply Z.pow_pos_nonneg; lia); nia).
  assert (HeC : eps0 <= one * C) by (apply Z.mul_le_mono_nonneg_l; lia).
  assert (HBc' : allcap A <= Bc) by (clear - AN HCi HBc; nia).
  induction k as [|k IH]; intros j cs eps p x Hk Re [He1 He2] EN HPv HH HE Hpb Ho Hr Hc;
    cbn [scale_loop]; rewrite EN;
    (assert (Hle0 : eps <= eps0) by (assert (P := Z.pow_pos_nonneg 2 (Z.of_nat j) ltac:(lia) ltac:(lia)); nia));
    (assert (HK3 : 3 * eps * (Z.of_nat n + 1) <= Bp)
       by (assert (one * C * (3 * (Z.of_nat n + 1)) <= one * C * (2 * Kmax + 1)) by (apply Z.mul_le_mono_nonneg_l; lia);
           assert (eps * (3 * (Z.of_nat n + 1)) <= one * C * (3 * (Z.of_nat n + 1))) by (apply Z.mul_le_mono_nonneg_r; lia); lia));
    (assert (RN : Rp (eps * Z.of_nat (n + 1)) (dmuli (c_eps cs) (Z.of_nat (n + 1))))
       by (apply (h_mul _ _ _ HP); auto; [unfold INT_MIN, INT_MAX in *; lia|]; rewrite Z.abs_eq by nia;
           replace (Z.of_nat (n + 1)) with (Z.of_nat n + 1) by lia; nia));
    rewrite (h_le _ _ _ HP _ _ _ _ H1 RN);
    destruct (Z.leb_spec one (eps * Z.of_nat (n + 1))) as [Hle|Hgt];
    try (destruct Ho as [Ho|Ho]; [|lia]; exists true, cs; split; [reflexivity|]; split; [reflexivity|]; intros _; exists eps, p, x; repeat (split; auto); lia).
  - exfalso. rewrite Nat.add_0_r in Hk. assert (P := Z.pow_pos_nonneg 2 (Z.of_nat j) ltac:(lia) ltac:(lia)).
    set (P2 := 2 ^ Z.of_nat j) in *. replace (Z.of_nat (n + 1)) with (Z.of_nat n + 1) in Hle by lia. clear - Hk He2 Hle P Hone. nia.
  - assert (P := Z.pow_pos_nonneg 2 (Z.of_nat j) ltac:(lia) ltac:(lia)).
    assert (Hj : (S j <= s)%nat).
    { assert (Q : 2 ^ Z.of_nat j <= maxc A * (Z.of_nat n + 1)).
      { set (P2 := 2 ^ Z.of_nat j) in *. replace (Z.of_nat (n + 1)) with (Z.of_nat n + 1) in Hle by lia. clear - Hle He2 P Hone. nia. }
      assert (Q2 : 2 ^ Z.of_nat (S j) <= 2 ^ Z.of_nat s).
      { rewrite Nat2Z.inj_succ, Z.pow_succ_r by lia. lia. }
      apply Z.pow_le_mono_r_iff in Q2; lia. }
    set (h := w * maxc A * 2 ^ Z.of_nat (s - S j)).
    assert (Heh : eps = 2 * h).
    { apply Z.mul_reg_r with (2 ^ Z.of_nat j); [lia|]. rewrite He2, Hs. unfold h.
      replace (Z.of_nat s) with (Z.of_nat (s - S j) + 1 + Z.of_nat j) by lia.
      rewrite (Z.pow_add_r 2 (Z.of_nat (s - S j) + 1) (Z.of_nat j)) by lia.
      rewrite (Z.pow_add_r 2 (Z.of_nat (s - S j)) 1) by lia. change (2 ^ 1) with 2. ring. }
    assert (Hh : 0 < h) by lia. clearbody h.
    assert (HPP : (eps0 - eps) * Kmax + h * Kmax <= one * C * Kmax) by (clear - HeC Heh Hh; nia).
    assert (HBp' : one * C + 2 * (one * C * Kmax) <= Bp) by (clear - HBp; nia).
    assert (HP00 : 0 <= (eps0 - eps) * Kmax) by (apply Z.mul_nonneg_nonneg; lia).
    destruct (refine_rel Rc Rp Bc Bp HC HP one n A HA nx hd (hd_linked n A) C (one * C * Kmax) H1 Hone HCc ltac:(lia) HBp' HBc'
      p x h eps ((eps0 - eps) * Kmax) (c_eps cs) Hh Heh Re Hr Hc Hpb HPP HP00 HnI HK3 (c_head cs) HH fuel cs) as
      (b & cs1 & R1 & R2 & R3); auto.
    rewrite R1. cbn [bind]. destruct b.
    2:{ eexists false, _. split; [reflexivity|]. split; [auto|discriminate]. }
    destruct (R3 eq_refl) as (R4 & R5 & R6 & R7 & p1 & x1 & R8 & R9 & R10 & R11 & R12).
    destruct (IH (S j) (mkCs (dhalf (c_eps cs1)) (c_p cs1) (c_head cs1) (c_edge cs1) (c_N cs1) (c_total cs1)) h p1 x1) as
      (b & cs' & Q1 & Q2 & Q3); cbn [c_eps c_p c_head c_edge c_N c_total]; auto.
    + replace (S j + k)%nat with (j + S k)%nat by lia. auto.
    + rewrite R5. apply (h_half _ _ _ HP). rewrite <- Heh. exact Re.
    + split; auto. rewrite Nat2Z.inj_succ, Z.pow_succ_r by lia. rewrite <- He2, Heh. ring.
    + lia.
    + rewrite R6. auto.
    + intros v Hv. specialize (R12 v Hv). rewrite Heh in R12. lia.
    + apply (proj1 (opt_iff one n A HA h p1 x1)); auto.
    + exists b, cs'. split; auto. split; [auto|]. intros Eb. destruct (Q3 Eb) as (eps' & p' & x' & T1 & T2 & T3). exists eps', p', x'.
      split; auto. split; auto. rewrite T2. cbn [c_total]. auto.
Qed.

(** the residual capacities add up to the capacities *)
Lemma rc_sum x : inrange A x -> forall j, (j <= 2 * m)%nat -> 0 <= zsum (seq 0 j) (fun e => rc x e) <= allcap A.
Proof.
  intros Hr j Hj. split.
  - apply zsum_nonneg. intros e He. apply in_seq in He. apply Hr. lia.
  - assert (T : zsum (seq 0 (2 * m)) (fun e => rc x e) = allcap A).
    { rewrite zsum_pairs. unfold allcap. rewrite (zsum_ak A (mkIn 0 0 0 0) in_cap). fold (ak A).
      apply zsum_ext. intros k _. fold (ak A k). unfold ScaleNet.rc, sub, scap, xd. rewrite even_2k, div2_2k, even_2k1, div2_2k1. unfold ak. lia. }
    rewrite <- T. replace (2 * m)%nat with (j + (2 * m - j))%nat by lia. rewrite seq_app, zsum_app.
    assert (0 <= zsum (seq (0 + j) (2 * m - j)) (fun e => rc x e)); [|lia].
    apply zsum_nonneg. intros e He. apply in_seq in He. apply Hr. lia.
Qed.

Lemma rcsc_bound x j : inrange A x -> (j <= 2 * m)%nat -> Z.abs (zsum (seq 0 j) (fun e => rc x e * sc A e)) <= allcap A * C.
Proof.
  intros Hr Hj. assert (Q := rc_sum x Hr j Hj).
  assert (Hb : forall e, In e (seq 0 j) -> - C * rc x e <= rc x e * sc A e <= C * rc x e).
  { intros e He. apply in_seq in He. assert (B1 := Hr e ltac:(lia)).
    assert (B2 : - C <= sc A e <= C) by (apply (sc_bound A C HCc); lia). nia. }
  assert (U : zsum (seq 0 j) (fun e => rc x e * sc A e) <= zsum (seq 0 j) (fun e => C * rc x e)) by (apply zsum_le; intros; apply Hb; auto).
  assert (L : zsum (seq 0 j) (fun e => - C * rc x e) <= zsum (seq 0 j) (fun e => rc x e * sc A e)) by (apply zsum_le; intros; apply Hb; auto).
  rewrite (zsum_scale _ C (fun e => rc x e)) in U. rewrite (zsum_scale _ (- C) (fun e => rc x e)) in L. cbv beta in Q, U, L.
  match type of Q with _ <= ?q <= _ => assert (C * q <= C * allcap A) by (apply Z.mul_le_mono_nonneg_l; lia) end. lia.
Qed.

Lemma total_rel x E T t : vrel (arcR Rc) E (2 * m) (arcf x) -> inrange A x -> Rc T t -> Z.abs T <= allcap A * C ->
  exists t', for_each E t (fun t e => Ok (dsub t (dmuli (a_cap e) (a_cost e)))) = Ok t' /\
    Rc (T - zsum (seq 0 (2 * m)) (fun e => rc x e * sc A e)) t'.
Proof.
  intros HE Hr Ht HT.
  destruct (for_each_inv (fun pre t => Rc (T - zsum (seq 0 (length pre)) (fun e => rc x e * sc A e)) t)
    (fun t e => Ok (dsub t (dmuli (a_cap e) (a_cost e)))) E t) as (t' & E1 & R1).
  - cbn [length seq zsum]. rewrite Z.sub_0_r. exact Ht.
  - intros pre a post t1 Ep Ht1. eexists. split; [reflexivity|].
    destruct HE as [HE1 HE2]. assert (Hlen : (length pre < 2 * m)%nat) by (rewrite <- HE1, Ep, app_length; simpl; lia).
    destruct (HE2 _ Hlen) as (a' & Ea & Ra). rewrite Ep in Ea. rewrite nth_error_app2, Nat.sub_diag in Ea by lia. cbn in Ea. inversion Ea; subst a'.
    destruct Ra as (_ & _ & Ac & Acap). cbn [ScaleRefine.arcf a_cost a_cap] in Ac, Acap.
    rewrite app_length. cbn [length]. replace (length pre + 1)%nat with (S (length pre)) by lia.
    rewrite seq_S, zsum_app. cbn [zsum Nat.add].
    assert (B1 := rcsc_bound x (S (length pre)) Hr ltac:(lia)). rewrite seq_S, zsum_app in B1. cbn [zsum Nat.add] in B1.
    assert (B2 := rc_sum x Hr (S (length pre)) ltac:(lia)). rewrite seq_S, zsum_app in B2. cbn [zsum Nat.add] in B2.
    assert (B3 := rc_sum x Hr (length pre) ltac:(lia)). assert (B4 := Hr _ Hlen).
    assert (B5 : - C <= sc A (length pre) <= C) by (apply (sc_bound A C HCc); lia).
    replace (T - (zsum (seq 0 (length pre)) (fun e => rc x e * sc A e) + (rc x (length pre) * sc A (length pre) + 0)))
      with ((T - zsum (seq 0 (length pre)) (fun e => rc x e * sc A e)) - rc x (length pre) * sc A (length pre)) by lia.
    apply (h_sub _ _ _ HC); auto; [|lia]. rewrite Ac. apply (h_mul _ _ _ HC); auto; [unfold INT_MIN, INT_MAX in *; lia|].
    assert (rc x (length pre) <= allcap A) by lia. rewrite Z.abs_mul, (Z.abs_eq (rc x _)) by lia.
    assert (AN := allcap_nonneg). nia.
  - exists t'. split; auto. rewrite <- (vr_len _ _ _ _ HE). exact R1.
Qed.

Theorem cs_min_cost_rel fuel : refine_fuel n A + Z.log2 (maxc A * (Z.of_nat n + 1)) + 1 <= Z.of_nat fuel ->
  exists b vD, cs_min_cost fuel (n + 1) AD = Ok (b, vD) /\ (covered A -> b = true) /\ (b = false -> vD = dzero) /\
    (b = true -> exists v x nu, Rc v vD /\ inrange A x /\ (forall u, (u <= n)%nat -> exc x u = 0) /\ v = - xcost A x /\ v = hinges A nu).
Proof.
  intros Hf. assert (Hm1 := proj1 (maxc_ge A)).
  assert (Hlog := Z.log2_nonneg (maxc A * (Z.of_nat n + 1))).
  destruct cs_init_rel as (cs & E & I1 & I2 & I3 & I4 & I5 & I6). unfold cs_min_cost. rewrite E. cbn [bind].
  destruct (scale_loop_rel fuel ltac:(lia) fuel 0 cs eps0 zero zero) as (b & cs' & L1 & LB & L2); auto.
  - cbn [Nat.add]. assert (B := Z.log2_spec (maxc A * (Z.of_nat n + 1)) ltac:(nia)).
    eapply Z.lt_le_trans; [apply B|]. apply Z.pow_le_mono_r; [lia|].
    assert (0 <= refine_fuel n A) by (unfold refine_fuel; nia). lia.
  - split; [nia|]. simpl (Z.of_nat 0). rewrite Z.pow_0_r. lia.
  - intros v _. rewrite Z.sub_diag. cbn. lia.
  - right. clear - Hone Hm1. nia.
  - exact (inrange_zero n A HA).
  - intros v _. apply exc_zero.
  - rewrite L1. cbn [bind]. destruct b.
    2:{ exists false, dzero. split; [reflexivity|]. split; [intros Hc; apply LB; apply (opt_start one Hone n A HA); auto|]. split; [auto|discriminate]. }
    destruct (L2 eq_refl) as (eps & p & x & L3 & L4 & L5 & L6 & L7 & L8).
    assert (Hr : inrange A x) by apply (proj1 (opt_iff one n A HA _ p x) L7).
    destruct (round_nu one Hone n A HA s eps p x L5 L6 L7) as (nu & Hnu).
    destruct (total_rel x (c_edge cs') (zsum A (fun a => in_cap a * in_cost a)) (c_total cs') L3 Hr) as (t' & ET & RT).
    { rewrite L4. exact I6. }
    { apply (total_bound A []). rewrite app_nil_r. reflexivity. }
    rewrite ET. cbn [bind].
    eexists true, _. split; [reflexivity|]. split; [auto|]. split; [discriminate|].
    intros _. exists (- xcost A x), x, nu. split; [|repeat (split; auto); symmetry; apply (hinges_eq one n A HA s); auto].
    apply (h_half _ _ _ HC).
    assert (Q : zsum A (fun a => in_cap a * in_cost a) - zsum (seq 0 (2 * m)) (fun e => rc x e * sc A e) = 2 * xcost A x).
    { rewrite zsum_pairs. rewrite (zsum_ak A (mkIn 0 0 0 0)). fold (ak A). unfold xcost. rewrite <- zsum_scale, <- zsum_sub. apply zsum_ext. intros k _. fold (ak A k).
      unfold ScaleNet.rc, sub, scap, sc, xd. rewrite even_2k, div2_2k, even_2k1, div2_2k1. unfold ak. lia. }
    rewrite Q in RT. replace (2 * - xcost A x) with (- (2 * xcost A x)) by lia. apply (h_opp _ _ _ HC). exact RT.
Qed.

End RunRel.
