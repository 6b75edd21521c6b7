(** * The exhaustive search on numbers that are only right while they are small *)
From Verif Require Import Base BaseLemmas Data ProblemDefine Oracles Sums Spec Convex Sim SolverSim Hom OracleProof FlowOpt.
Local Open Scope Z_scope.

Section OracleRel.
Context {D : Type} {ops : DataOps D}.
Variables (Rc : Z -> D -> Prop) (Bc : Z).
Hypothesis HC : hom ops Rc Bc.
Variable one : Z.
#[local] Hint Extern 0 (DataOps Z) => exact (exact_ops one) : typeclass_instances.

(** limits after pre_processing, with their values bounded by [b] *)
Record preB (b : Z) (o : OmegaLimit Z) (o' : OmegaLimit D) : Prop := {
  pb_i : o_i o' = o_i o;
  pb_j : o_j o' = o_j o;
  pb_u : o_u o' = o_u o;
  pb_fn : forall d, d <= o_u o -> sim (fun a a' => Rc a a' /\ Z.abs a <= b) (o_fn o d) (o_fn o' d)
}.

Inductive preL : Z -> list (OmegaLimit Z) -> list (OmegaLimit D) -> Prop :=
| preL_nil : preL 0 [] []
| preL_cons b o o' B l l' : 0 <= b -> preB b o o' -> preL B l l' -> preL (b + B) (o :: l) (o' :: l').

Lemma preL_pos B l l' : preL B l l' -> 0 <= B.
Proof. induction 1; lia. Qed.

Lemma cost_eq (f : Fn Z) x a : f x = Ok a -> cost f x = a.
Proof. intro E. unfold cost. rewrite E. reflexivity. Qed.

Lemma bf_prepare_sim fuel (wo : nat -> Z) oms omsD : Forall2 (omR Rc) oms omsD -> forall k0,
  (forall o, In o oms -> o_l o <= o_u o) -> (forall k, 0 <= wo k) ->
  (forall k o x, nth_error oms k = Some o -> o_l o <= x <= o_u o -> Z.abs (cost (o_fn o) x) <= wo (k0 + k)%nat) ->
  sim (preL (zsum (seq k0 (length oms)) wo)) (bf_prepare fuel oms) (bf_prepare fuel omsD).
Proof using HC.
  induction 1 as [|o oD oms omsD Ho HF IH]; intros k0 HL HW HB; cbn [bf_prepare length seq zsum]; [apply sim_ok; constructor|].
  assert (L1 := HL o (or_introl eq_refl)). assert (B1 := fun x => HB 0%nat o x eq_refl). rewrite Nat.add_0_r in B1.
  destruct Ho as [l u f g i j Hfg]. cbn [o_l o_u o_fn] in *.
  apply (sim_bind (preB (wo k0))).
  - unfold pre_processing. cbn [o_l o_u o_fn o_i o_j].
    apply (sim_bind (fun a b => a = b /\ l <= a <= u)).
    { apply (search_sim Rc); auto. intros; symmetry; apply (h_lt _ _ _ HC); auto. }
    intros p ? [<- Hp]. apply sim_ok. constructor; cbn [o_i o_j o_u o_fn]; auto.
    intros d Hd a Ea. assert (Hr : l <= Z.max p d <= u) by lia. destruct (Hfg _ Hr a Ea) as (a' & E' & Ra).
    exists a'. split; [exact E'|]. split; [exact Ra|]. rewrite <- (cost_eq f _ _ Ea). apply B1. exact Hr.
  - intros o o' HO. eapply sim_bind; [apply (IH (S k0))|].
    + intros; apply HL; simpl; auto.
    + exact HW.
    + intros k o1 x Ek Hx. replace (S k0 + k)%nat with (k0 + S k)%nat by lia. apply (HB (S k)); auto.
    + intros L L' HLL. apply sim_ok. constructor; auto.
Qed.

Lemma bf_leaf_sim v : forall B oms omsD, preL B oms omsD -> forall now nowD, Rc now nowD -> Z.abs now + B <= Bc ->
  sim (optR Rc) (bf_leaf oms v now) (bf_leaf omsD v nowD).
Proof using HC.
  induction 1 as [|b o o' B l l' Hb HO HL IH]; intros now nowD Rn HB; cbn [bf_leaf]; [apply sim_ok; exact Rn|].
  rewrite (pb_i _ _ _ HO), (pb_j _ _ _ HO), (pb_u _ _ _ HO).
  apply sim_bind_eq; intros x. apply sim_bind_eq; intros y. apply sim_bind_eq; intros d.
  destruct (Z.ltb_spec (o_u o) d); [apply sim_ok; exact I|].
  eapply sim_bind; [apply (pb_fn _ _ _ HO); lia|]. intros c c' [Rcc Hc]. assert (P := preL_pos _ _ _ HL).
  apply IH; [apply (h_add _ _ _ HC); auto; lia|]. cbn [dadd exact_ops]. lia.
Qed.

Definition stR (a : list Z * option Z) (b : list Z * option D) : Prop := fst a = fst b /\ optR Rc (snd a) (snd b).

Lemma bf_range_sim (rec : list Z -> Z -> option Z -> res (list Z * option Z)) recD l u f g p b N :
  (forall v now nowD ret retD, Rc now nowD -> Z.abs now <= N + b -> optR Rc ret retD -> sim stR (rec v now ret) (recD v nowD retD)) ->
  (forall x, l <= x <= u -> sim Rc (f x) (g x)) -> (forall x, l <= x <= u -> Z.abs (cost f x) <= b) -> N + b <= Bc ->
  forall now nowD, Rc now nowD -> Z.abs now <= N ->
  forall fuel i v ret retD, l <= i -> optR Rc ret retD ->
  sim stR (bf_range fuel rec (mkMu l u f) p i v now ret) (bf_range fuel recD (mkMu l u g) p i v nowD retD).
Proof using HC.
  intros Hrec Hfg Hb HN now nowD Rn Hn. induction fuel as [|fuel IH]; intros i v ret retD Hi HR; cbn [bf_range m_u m_fn];
    apply sim_bind_eq; intros v1; (destruct (Z.leb_spec i u); [|apply sim_ok; split; auto]).
  { apply sim_err. }
  intros r E. apply bind_inv in E. destruct E as (c & Ec & E). destruct (Hfg i ltac:(lia) c Ec) as (c' & Ec' & Rcc). rewrite Ec'. cbn [bind].
  assert (Bc1 := Hb i ltac:(lia)). rewrite (cost_eq _ _ _ Ec) in Bc1.
  revert r E. eapply sim_bind.
  { apply Hrec; [|cbn [dadd exact_ops]; lia|exact HR]. apply (h_add _ _ _ HC); auto. lia. }
  intros [v2 r2] [v2' r2'] [E2 R2]. cbn [fst snd] in *. subst v2'.
  intros r E. apply bind_inv in E. destruct E as (i' & E1 & E). rewrite E1. apply ck_inv in E1. destruct E1 as [-> _]. cbn [bind].
  revert r E. apply IH; [lia|exact R2].
Qed.

Section Dfs.
Variables (n : nat) (mus : list (MuLimit Z)) (musD : list (MuLimit D)) (fuel : nat) (wm : nat -> Z) (B : Z)
  (oms : list (OmegaLimit Z)) (omsD : list (OmegaLimit D)).
Hypothesis HM : musR Rc mus musD.
Hypothesis HL : preL B oms omsD.
Hypothesis Hw0 : forall i, 0 <= wm i.
Hypothesis Hwm : forall i m x, (1 <= i <= n)%nat -> nth_error mus i = Some m -> m_l m <= x <= m_u m -> Z.abs (cost (m_fn m) x) <= wm i.

Lemma bf_dfs_sim : forall k p, (p + k = n)%nat -> forall v now nowD ret retD,
  Rc now nowD -> Z.abs now + zsum (seq (S p) k) wm + B <= Bc -> optR Rc ret retD ->
  sim stR (bf_dfs fuel mus oms k p v now ret) (bf_dfs fuel musD omsD k p v nowD retD).
Proof using HC HM HL Hw0 Hwm.
  assert (HB0 := preL_pos _ _ _ HL).
  induction k as [|k IH]; intros p Hp v now nowD ret retD Rn HB HR; cbn [bf_dfs].
  - cbn [seq zsum] in HB. eapply sim_bind; [apply (bf_leaf_sim v B _ _ HL now nowD Rn); lia|].
    intros [s|] [s'|] Hs; cbn [optR] in Hs; try contradiction; apply sim_ok; split; cbn [fst snd]; auto.
    destruct ret as [w|], retD as [w'|]; cbn [optR] in *; try contradiction; auto.
    assert (Q := h_min _ _ HC _ _ _ _ HR Hs). unfold dmin at 1. cbn [dlt exact_ops].
    destruct (Z.ltb_spec s w); [rewrite Z.min_r in Q|rewrite Z.min_l in Q]; auto; lia.
  - cbn [seq zsum] in HB. assert (ZN : 0 <= zsum (seq (S (S p)) k) wm) by (apply zsum_nonneg; intros; apply Hw0).
    intros r E. apply bind_inv in E. destruct E as (m & Em & E). apply vget_inv in Em.
    destruct (proj2 HM (S p) m ltac:(lia) Em) as (m' & Em' & Hm). rewrite (vget_ok _ _ _ Em'). cbn [bind].
    assert (W := fun x => Hwm (S p) m x ltac:(lia) Em). destruct Hm as [l u f g Hfg]. cbn [m_l m_u m_fn] in *.
    revert r E. apply (bf_range_sim _ _ l u f g (S p) (wm (S p)) (Bc - B - zsum (seq (S (S p)) k) wm - wm (S p))); auto; try lia.
    intros v1 now1 nowD1 ret1 retD1 R1 B1 R2. apply IH; auto; lia.
Qed.
End Dfs.

Theorem bf_solve_rel n mus oms musD omsD K A fuel :
  well_formed n mus oms -> bounded_by n mus oms K -> 0 <= K -> 2 * K + 1 <= INT_MAX -> costs_within n mus oms A -> A <= Bc ->
  musR Rc mus musD -> Forall2 (omR Rc) oms omsD -> 2 * K + 32 <= Z.of_nat fuel ->
  exists r rD, bf_solve fuel n musD omsD = Ok rD /\ optR Rc r rD /\ solution n mus oms r.
Proof using HC one.
  intros HWF HBB HK HKI HA HAB RM RO Hf.
  destruct (bf_solve_ok one n mus oms K fuel HWF HBB HKI Hf HK) as (r & E & S). exists r.
  destruct HA as (wm & wo & Wm & Wo & WA). rewrite !sumZ_zsum in WA.
  destruct HWF as (Hlen & Hmu & Hom).
  assert (Wm0 : forall i, In i (seq 1 n) -> 0 <= wm i).
  { intros i Hi. apply in_seq in Hi. destruct (nth_error mus i) as [m|] eqn:Em; [|apply nth_error_None in Em; lia].
    destruct (Hmu i m ltac:(lia) Em) as (W1 & _). assert (Y := Wm i m (m_l m) ltac:(lia) Em ltac:(lia)). lia. }
  assert (Wo0 : forall k, In k (seq 0 (length oms)) -> 0 <= wo k).
  { intros k Hk. apply in_seq in Hk. destruct (nth_error oms k) as [o|] eqn:Ek; [|apply nth_error_None in Ek; lia].
    destruct (Hom o (nth_error_In _ _ Ek)) as (W1 & _). assert (Y := Wo k o (o_l o) Ek ltac:(lia)). lia. }
  assert (SM : zsum (seq 1 n) (fun i => Z.max 0 (wm i)) = zsum (seq 1 n) wm) by (apply zsum_ext; intros i Hi; specialize (Wm0 i Hi); lia).
  assert (SO : zsum (seq 0 (length oms)) (fun k => Z.max 0 (wo k)) = zsum (seq 0 (length oms)) wo) by (apply zsum_ext; intros i Hi; specialize (Wo0 i Hi); lia).
  revert E. unfold bf_solve.
  assert (SIM : sim (optR Rc) (bf_solve fuel n mus oms) (bf_solve fuel n musD omsD)).
  { unfold bf_solve. eapply sim_bind.
    - apply (bf_prepare_sim fuel (fun k => Z.max 0 (wo k)) oms omsD RO 0).
      + intros o Ho. apply (Hom o Ho).
      + intros; lia.
      + intros k o x Ek Hx. cbn [Nat.add]. assert (Y := Wo k o x Ek Hx). lia.
    - intros L L' HL. rewrite SO in HL. eapply sim_bind.
      + apply (bf_dfs_sim n mus musD fuel (fun i => Z.max 0 (wm i)) _ L L' RM HL); try lia.
        * intros i m x Hi Em Hx. assert (Y := Wm i m x Hi Em Hx). lia.
        * apply HC.
        * rewrite SM. change (Z.abs dzero) with 0. lia.
        * exact I.
      + intros [v1 r1] [v2 r2] [_ HR]. cbn [fst snd] in HR. apply sim_ok. exact HR. }
  intro E. destruct (SIM r E) as (rD & ED & HR). eauto.
Qed.
End OracleRel.
