(** * The answer is concave in the costs *)
From Verif Require Import Base BaseLemmas Data ProblemDefine Flow ProblemSolver.
From Verif Require Import Sums Spec SpecLemmas MixSpec SolverProof SolverProps.
Local Open Scope Z_scope.

Lemma nth_error_combine {A B} (l : list A) : forall (l' : list B) i,
  nth_error (combine l l') i = match nth_error l i, nth_error l' i with Some a, Some b => Some (a, b) | _, _ => None end.
Proof.
  induction l as [|x l IH]; intros [|y l'] [|i]; cbn [combine nth_error]; try reflexivity.
  - destruct (nth_error l i); reflexivity.
  - apply IH.
Qed.

Lemma mix_def a b f g l u : defined_on f l u -> defined_on g l u -> defined_on (mix_fn a b f g) l u /\
  forall x, l <= x <= u -> cost (mix_fn a b f g) x = a * cost f x + b * cost g x.
Proof.
  intros H1 H2. split; intros x Hx; destruct (H1 x Hx) as [v E]; destruct (H2 x Hx) as [w E']; unfold mix_fn, cost; rewrite E, E'; cbn [bind]; eauto.
Qed.

Section Mix.
Variables a b : Z.
Hypothesis Ha : 0 <= a.
Hypothesis Hb : 0 <= b.
Variable n : nat.
Variables mus mus' : list (MuLimit Z).
Variables oms oms' : list (OmegaLimit Z).
Variables K K' : Z.
Hypothesis HS : same_shape mus oms mus' oms'.
Hypothesis HA : admissible n mus oms K.
Hypothesis HA' : admissible n mus' oms' K'.

Let mmus := mix_mus a b mus mus'.
Let moms := mix_oms a b oms oms'.

Lemma mix_mus_nth i m : (1 <= i <= n)%nat -> nth_error mmus i = Some m ->
  exists x y, nth_error mus i = Some x /\ nth_error mus' i = Some y /\ m = mix_mu a b (x, y).
Proof.
  intros Hi E. unfold mmus, mix_mus in E. rewrite nth_error_map, nth_error_combine in E.
  destruct (nth_error mus i) as [x|]; [|discriminate]. destruct (nth_error mus' i) as [y|]; [|discriminate]. injection E as <-. eauto.
Qed.

Lemma oms_length : length oms = length oms'.
Proof. destruct HS as (_ & _ & F). clear - F. induction F; cbn; auto. Qed.

Lemma oms_nth k o : nth_error oms k = Some o -> exists o', nth_error oms' k = Some o' /\ nth_error moms k = Some (mix_om a b (o, o')) /\
  o_l o = o_l o' /\ o_u o = o_u o' /\ o_i o = o_i o' /\ o_j o = o_j o'.
Proof.
  intro E. destruct HS as (_ & _ & F). unfold moms, mix_oms. rewrite nth_error_map, nth_error_combine, E.
  clear - F E. revert k E. induction F as [|p p' l l' H F IH]; intros [|k] E; cbn [nth_error] in *; try discriminate.
  - injection E as ->. exists p'. auto.
  - exact (IH k E).
Qed.

Lemma moms_nth k o : nth_error moms k = Some o -> exists p p', nth_error oms k = Some p /\ nth_error oms' k = Some p' /\ o = mix_om a b (p, p') /\
  o_l p = o_l p' /\ o_u p = o_u p' /\ o_i p = o_i p' /\ o_j p = o_j p'.
Proof.
  intro E. pose proof E as E0. unfold moms, mix_oms in E. rewrite nth_error_map, nth_error_combine in E. destruct (nth_error oms k) as [p|] eqn:Ep; [|discriminate].
  destruct (oms_nth k p Ep) as (p' & E1 & E2 & E3). exists p, p'. rewrite E0 in E2. injection E2 as ->. auto.
Qed.

Lemma mix_admissible : admissible n mmus moms K.
Proof.
  destruct HA as ((L & M & O) & (BM & BO) & I). destruct HA' as ((L' & M' & O') & _). destruct HS as (SL & SM & _). split; [|split; auto].
  - split; [unfold mmus, mix_mus; rewrite map_length, combine_length; lia|]. split.
    + intros i m Hi E. destruct (mix_mus_nth i m Hi E) as (x & y & Ex & Ey & ->). destruct (SM i x y ltac:(lia) Ex Ey) as [E1 E2].
      destruct (M i x Hi Ex) as (A1 & A2 & A3). destruct (M' i y Hi Ey) as (B1 & B2 & B3). rewrite <- E1, <- E2 in *.
      destruct (mix_def a b _ _ _ _ A2 B2) as [D1 D2]. unfold mu_wf. cbn [mix_mu fst snd m_l m_u m_fn]. split; [exact A1|]. split; [exact D1|].
      intros z Hz. rewrite !D2 by lia. specialize (A3 z Hz). specialize (B3 z Hz). nia.
    + intros o Ho. apply In_nth_error in Ho. destruct Ho as [k E]. destruct (moms_nth k o E) as (p & p' & Ep & Ep' & -> & E1 & E2 & E3 & E4).
      destruct (O p (nth_error_In _ _ Ep)) as (A1 & A2 & A3 & A4). destruct (O' p' (nth_error_In _ _ Ep')) as (B1 & B2 & B3 & _). rewrite <- E1, <- E2 in *.
      destruct (mix_def a b _ _ _ _ A2 B2) as [D1 D2]. unfold om_wf. cbn [mix_om fst snd o_l o_u o_fn o_i o_j]. split; [exact A1|]. split; [exact D1|]. split; [|exact A4].
      intros z Hz. rewrite !D2 by lia. specialize (A3 z Hz). specialize (B3 z Hz). nia.
  - split.
    + intros i m Hi E. destruct (mix_mus_nth i m Hi E) as (x & y & Ex & Ey & ->). exact (BM i x Hi Ex).
    + intros o Ho. apply In_nth_error in Ho. destruct Ho as [k E]. destruct (moms_nth k o E) as (p & p' & Ep & _ & -> & _). exact (BO p (nth_error_In _ _ Ep)).
Qed.

Lemma moms_length : length moms = length oms.
Proof. unfold moms, mix_oms. rewrite map_length, combine_length, oms_length. lia. Qed.

Lemma feasible_same mu om : feasible n mus oms mu om <-> feasible n mus' oms' mu om.
Proof.
  destruct HA as ((L & _) & _). destruct HA' as ((L' & _) & _). destruct HS as (SL & SM & _). split; intros [F1 F2]; split.
  - intros i Hi. destruct (F1 i Hi) as (m & E & B). destruct (nth_error mus' i) as [m'|] eqn:E'; [|apply nth_error_None in E'; lia].
    destruct (SM i m m' ltac:(lia) E E'). exists m'. split; [exact E'|lia].
  - intros k o' E'. destruct (nth_error oms k) as [o|] eqn:E.
    2:{ apply nth_error_None in E. assert (X := oms_length). assert (Y : nth_error oms' k <> None) by congruence. apply nth_error_Some in Y. lia. }
    destruct (oms_nth k o E) as (p & Ep & _ & E1 & E2 & E3 & E4). rewrite E' in Ep. injection Ep as <-. specialize (F2 k o E). rewrite <- E1, <- E2, <- E3, <- E4. exact F2.
  - intros i Hi. destruct (F1 i Hi) as (m & E & B). destruct (nth_error mus i) as [m'|] eqn:E'; [|apply nth_error_None in E'; lia].
    destruct (SM i m' m ltac:(lia) E' E). exists m'. split; [exact E'|lia].
  - intros k o E. destruct (oms_nth k o E) as (p & Ep & _ & E1 & E2 & E3 & E4). specialize (F2 k p Ep). rewrite E1, E2, E3, E4. exact F2.
Qed.

Lemma feasible_mix mu om : feasible n mus oms mu om <-> feasible n mmus moms mu om.
Proof.
  destruct HA as ((L & _) & _). destruct HA' as ((L' & _) & _). destruct HS as (SL & SM & _). split; intros [F1 F2]; split.
  - intros i Hi. destruct (F1 i Hi) as (m & E & B). destruct (nth_error mus' i) as [m'|] eqn:E'; [|apply nth_error_None in E'; lia].
    exists (mix_mu a b (m, m')). split; [|exact B]. unfold mmus, mix_mus. rewrite nth_error_map, nth_error_combine, E, E'. reflexivity.
  - intros k o E. destruct (moms_nth k o E) as (p & p' & Ep & _ & -> & _). exact (F2 k p Ep).
  - intros i Hi. destruct (F1 i Hi) as (m & E & B). destruct (mix_mus_nth i m Hi E) as (x & y & Ex & Ey & ->). exists x. split; [exact Ex|exact B].
  - intros k o E. destruct (oms_nth k o E) as (p & _ & Em & _). exact (F2 k _ Em).
Qed.

Lemma mix_cost mu om : feasible n mus oms mu om ->
  total_cost n mmus moms mu om = a * total_cost n mus oms mu om + b * total_cost n mus' oms' mu om.
Proof.
  intros [F1 F2]. destruct HA as ((L & M & O) & _). destruct HA' as ((L' & M' & O') & _). destruct HS as (SL & SM & _). unfold total_cost. rewrite moms_length, <- oms_length.
  assert (X : forall Q, (forall i, In i Q -> (1 <= i <= n)%nat) ->
     sumZ (map (mu_cost mmus mu) Q) = a * sumZ (map (mu_cost mus mu) Q) + b * sumZ (map (mu_cost mus' mu) Q)).
  { induction Q as [|i Q IH]; intro HQ; cbn [map sumZ]; [lia|]. rewrite IH by (intros j Hj; apply HQ; right; exact Hj). assert (Hi := HQ i (or_introl eq_refl)).
    destruct (F1 i Hi) as (x & Ex & Bx). destruct (nth_error mus' i) as [y|] eqn:Ey; [|apply nth_error_None in Ey; lia]. destruct (SM i x y ltac:(lia) Ex Ey) as [E1 E2].
    destruct (M i x Hi Ex) as (_ & A2 & _). destruct (M' i y Hi Ey) as (_ & B2 & _). rewrite <- E1, <- E2 in B2. destruct (mix_def a b _ _ _ _ A2 B2) as [_ D2].
    unfold mu_cost at 1 4 6. unfold mmus at 1, mix_mus at 1. rewrite nth_error_map, nth_error_combine, Ex, Ey. cbn [option_map mix_mu fst snd m_fn]. rewrite D2 by lia. lia. }
  assert (Y : forall Q, (forall k, In k Q -> (k < length oms)%nat) ->
     sumZ (map (om_cost moms om) Q) = a * sumZ (map (om_cost oms om) Q) + b * sumZ (map (om_cost oms' om) Q)).
  { induction Q as [|k Q IH]; intro HQ; cbn [map sumZ]; [lia|]. rewrite IH by (intros j Hj; apply HQ; right; exact Hj). assert (Hk := HQ k (or_introl eq_refl)).
    destruct (nth_error oms k) as [p|] eqn:Ep; [|apply nth_error_None in Ep; lia]. destruct (oms_nth k p Ep) as (p' & Ep' & Em & E1 & E2 & _).
    destruct (O p (nth_error_In _ _ Ep)) as (_ & A2 & _). destruct (O' p' (nth_error_In _ _ Ep')) as (_ & B2 & _). rewrite <- E1, <- E2 in B2.
    destruct (mix_def a b _ _ _ _ A2 B2) as [_ D2]. destruct (F2 k p Ep) as [Bp _].
    unfold om_cost at 1 4 6. rewrite Ep, Ep', Em. cbn [mix_om fst snd o_fn]. rewrite D2 by lia. lia. }
  rewrite X by (intros i Hi; apply in_seq in Hi; lia). rewrite Y by (intros i Hi; apply in_seq in Hi; lia). lia.
Qed.
End Mix.

Section Solve.
Variable one : Z.
Hypothesis H1 : 0 < one.
#[local] Hint Extern 0 (DataOps Z) => exact (exact_ops one) : typeclass_instances.

Theorem mix_concave a b n mus oms mus' oms' K fuel :
  0 <= a -> 0 <= b -> same_shape mus oms mus' oms' -> admissible n mus oms K -> admissible n mus' oms' K ->
  solver_fuel n (length oms) K <= Z.of_nat fuel ->
  exists r r' s, run_solver fuel (Z.of_nat n) mus oms = Ok r /\ run_solver fuel (Z.of_nat n) mus' oms' = Ok r' /\
    run_solver fuel (Z.of_nat n) (mix_mus a b mus mus') (mix_oms a b oms oms') = Ok s /\
    match r, r', s with
    | Some v, Some v', Some w => a * v + b * v' <= w /\
        ((exists mu om, best n mus oms mu om /\ best n mus' oms' mu om) -> w = a * v + b * v') /\
        (0 < a -> 0 < b -> w = a * v + b * v' -> exists mu om, best n mus oms mu om /\ best n mus' oms' mu om)
    | None, None, None => True
    | _, _, _ => False
    end.
Proof.
  intros Ha Hb HS HA HA' HF.
  destruct (solve_solution one H1 n mus oms K fuel HA HF) as (r & E & S).
  destruct (solve_solution one H1 n mus' oms' K fuel HA') as (r' & E' & S'). { rewrite <- (oms_length mus mus' oms oms' HS). exact HF. }
  destruct (solve_solution one H1 n _ _ K fuel (mix_admissible a b Ha Hb n mus mus' oms oms' K K HS HA HA')) as (s & Es & Ss).
  { rewrite (moms_length a b mus mus' oms oms' HS). exact HF. }
  exists r, r', s. split; [exact E|]. split; [exact E'|]. split; [exact Es|].
  assert (FS := feasible_same a b n mus mus' oms oms' K K HS HA HA').
  assert (FM := feasible_mix a b n mus mus' oms oms' K K HS HA HA').
  assert (FC := mix_cost a b n mus mus' oms oms' K K HS HA HA').
  destruct r as [v|], r' as [v'|], s as [w|]; cbn [solution] in *; try exact I.
  - destruct S as [(mu1 & om1 & G1 & G2) G3]. destruct S' as [(mu2 & om2 & I1 & I2) I3]. destruct Ss as [(mu & om & J1 & J2) J3].
    apply FM in J1. assert (X1 := G3 mu om J1). assert (X2 := I3 mu om (proj1 (FS mu om) J1)). rewrite (FC mu om J1) in J2.
    assert (LE : a * v + b * v' <= w) by nia. split; [exact LE|]. split.
    + intros (mu3 & om3 & [B1 B2] & [B3 B4]). assert (Y1 := B2 _ _ G1). assert (Y2 := B4 _ _ I1).
      assert (Z1 := J3 mu3 om3 (proj1 (FM mu3 om3) B1)). rewrite (FC mu3 om3 B1) in Z1. nia.
    + intros Ha' Hb' EW. exists mu, om. assert (Q1 : total_cost n mus oms mu om = v) by nia. assert (Q2 : total_cost n mus' oms' mu om = v') by nia.
      split; (split; [auto; apply FS; auto|]); intros mu4 om4 Q; [rewrite Q1; exact (G3 _ _ Q)|rewrite Q2; exact (I3 _ _ Q)].
  - destruct S as [(mu1 & om1 & G1 & G2) G3]. apply (Ss mu1 om1), FM, G1.
  - destruct S as [(mu1 & om1 & G1 & G2) G3]. apply (S' mu1 om1), FS, G1.
  - destruct S as [(mu1 & om1 & G1 & G2) G3]. apply (S' mu1 om1), FS, G1.
  - destruct S' as [(mu1 & om1 & G1 & G2) G3]. apply (S mu1 om1), FS, G1.
  - destruct S' as [(mu1 & om1 & G1 & G2) G3]. apply (S mu1 om1), FS, G1.
  - destruct Ss as [(mu1 & om1 & G1 & G2) G3]. apply (S mu1 om1), FM, G1.
Qed.
End Solve.
