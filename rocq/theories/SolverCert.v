(** * Infeasibility and negative cycles; nearby problems *)
From Verif Require Import Base BaseLemmas Data ProblemDefine Flow ProblemSolver Oracles.
From Verif Require Import Sums Spec SpecLemmas FlowOpt SolverNet SolverProof OracleProof SolverProps CertSpec.
Local Open Scope Z_scope.

Section Cycle.
Variables (n : nat) (mus : list (MuLimit Z)) (oms : list (OmegaLimit Z)).
Hypothesis HW : well_formed n mus oms.

Lemma walk_app a b c w v : walk n mus oms a b w -> walk n mus oms b c v -> walk n mus oms a c (w + v).
Proof.
  intro H. revert v. induction H as [a|a b' d w1 v1 L H IH]; intros v HB; [exact HB|].
  replace (w1 + v1 + v) with (w1 + (v1 + v)) by lia. eapply walk_step; eauto.
Qed.

Lemma link_walk a b w : link n mus oms a b w -> walk n mus oms a b w.
Proof. intro H. replace w with (w + 0) by lia. eapply walk_step; [exact H|apply walk_stay]. Qed.

Definition at0 (mu : nat -> Z) (i : nat) : Z := if Nat.eqb i 0 then 0 else mu i.

Lemma walk_bound mu om : feasible n mus oms mu om -> forall a b w, walk n mus oms a b w -> at0 mu a - at0 mu b <= w.
Proof.
  intros [F1 F2]. assert (L : forall a b w, link n mus oms a b w -> at0 mu a - at0 mu b <= w).
  { intros a b w [i m Hi E|i m Hi E|o Ho]; unfold at0.
    - destruct (F1 i Hi) as (m' & E' & B). destruct i; [lia|]. cbn [Nat.eqb]. assert (m' = m) by congruence. subst. lia.
    - destruct (F1 i Hi) as (m' & E' & B). destruct i; [lia|]. cbn [Nat.eqb]. assert (m' = m) by congruence. subst. lia.
    - destruct HW as (_ & _ & HO). destruct (HO o Ho) as (_ & _ & _ & Hi & Hj & _). apply In_nth_error in Ho. destruct Ho as [k Ek].
      destruct (F2 k o Ek) as [B1 B2]. destruct (o_i o); [lia|]. destruct (o_j o); [lia|]. cbn [Nat.eqb]. lia. }
  intros a b w H. induction H as [a|a b c w v H1 H2 IH]; [lia|]. specialize (L _ _ _ H1). lia.
Qed.

Lemma cycle_infeasible : negative_cycle n mus oms -> infeasible n mus oms.
Proof. intros (a & w & H & Hw) mu om F. assert (X := walk_bound mu om F a a w H). lia. Qed.

(** relaxation from the upper bounds downwards *)
Definition low (i : nat) : Z := match nth_error mus i with Some m => m_l m | None => 0 end.
Definition reached (d : nat -> Z) : Prop :=
  forall i m, (1 <= i <= n)%nat -> nth_error mus i = Some m -> walk n mus oms i 0 (d i) /\ m_l m <= d i <= m_u m.

Definition tight (d : nat -> Z) (o : OmegaLimit Z) : bool := d (o_i o) - d (o_j o) <=? o_u o.

Lemma mus_at i : (1 <= i <= n)%nat -> exists m, nth_error mus i = Some m.
Proof. intro H. destruct HW as (HL & _). destruct (nth_error mus i) eqn:E; [eauto|]. apply nth_error_None in E. lia. Qed.

Lemma relax_all : forall (k : nat) d, reached d -> sumZ (map (fun i => d i - low i) (seq 1 n)) <= Z.of_nat k ->
  negative_cycle n mus oms \/ exists mu om, feasible n mus oms mu om.
Proof.
  induction k as [k IH] using lt_wf_ind. intros d HR HS.
  destruct (forallb (tight d) oms) eqn:E.
  - right. exists d, (fun k => match nth_error oms k with Some o => o_u o | None => 0 end). rewrite forallb_forall in E. split.
    + intros i Hi. destruct (mus_at i Hi) as [m Em]. destruct (HR i m Hi Em) as [_ B]. exists m. auto.
    + intros j o Ej. rewrite Ej. assert (Ho := nth_error_In _ _ Ej). specialize (E o Ho). apply Z.leb_le in E.
      destruct HW as (_ & _ & HO). destruct (HO o Ho) as (B & _). lia.
  - assert (X : exists o, In o oms /\ tight d o = false).
    { clear - E. induction oms as [|o l IH]; cbn in E; [discriminate|]. destruct (tight d o) eqn:T; [|exists o; simpl; auto].
      destruct (IH E) as (x & H1 & H2). exists x. simpl; auto. }
    destruct X as (o & Ho & T). apply Z.leb_gt in T.
    destruct HW as (_ & _ & HO). destruct (HO o Ho) as (_ & _ & _ & Hi & Hj & Hne).
    destruct (mus_at _ Hi) as [mi Ei]. destruct (mus_at _ Hj) as [mj Ej].
    destruct (HR _ _ Hi Ei) as [Wi Bi]. destruct (HR _ _ Hj Ej) as [Wj Bj].
    assert (W : walk n mus oms (o_i o) 0 (o_u o + d (o_j o))) by (eapply walk_step; [apply link_omega; exact Ho|exact Wj]).
    destruct (Z.lt_ge_cases (o_u o + d (o_j o)) (m_l mi)) as [C|C].
    + left. exists (o_i o), (o_u o + d (o_j o) + - m_l mi). split; [|lia]. eapply walk_app; [exact W|].
      apply link_walk. apply (link_lower n mus oms (o_i o) mi Hi Ei).
    + set (x := o_u o + d (o_j o)) in *. set (d' := fun i => if Nat.eqb i (o_i o) then x else d i).
      assert (HR' : reached d').
      { intros i m Him Em. unfold d'. destruct (Nat.eqb_spec i (o_i o)) as [->|Hn]; [|apply HR; auto].
        assert (m = mi) by congruence. subst. split; [exact W|lia]. }
      assert (HS' : sumZ (map (fun i => d' i - low i) (seq 1 n)) + 1 <= sumZ (map (fun i => d i - low i) (seq 1 n))).
      { clear - Hi T. fold x in T |- *.
        assert (G : forall L, NoDup L -> (forall i, d' i <= d i) ->
          sumZ (map (fun i => d' i - low i) L) + (if in_dec Nat.eq_dec (o_i o) L then 1 else 0) <= sumZ (map (fun i => d i - low i) L)).
        { induction L as [|i L IHL]; intros ND HD; cbn [map sumZ]; [destruct (in_dec Nat.eq_dec (o_i o) []) as [[]|]; lia|].
          inversion ND as [|? ? N1 N2]; subst. specialize (IHL N2 HD). specialize (HD i).
          destruct (in_dec Nat.eq_dec (o_i o) (i :: L)) as [H|H], (in_dec Nat.eq_dec (o_i o) L) as [H'|H']; [lia| |exfalso; apply H; right; exact H'|lia].
          destruct H as [H|H]; [|contradiction]. assert (Hd : d' i = x) by (unfold d'; rewrite H, Nat.eqb_refl; reflexivity).
          assert (Hi' : d i = d (o_i o)) by (rewrite H; reflexivity). lia. }
        specialize (G (seq 1 n) (seq_NoDup _ _)). destruct (in_dec Nat.eq_dec (o_i o) (seq 1 n)) as [|H]; [|exfalso; apply H, in_seq; lia].
        apply G. intro j. unfold d'. destruct (Nat.eqb_spec j (o_i o)) as [->|]; lia. }
      assert (P : 0 <= sumZ (map (fun i => d' i - low i) (seq 1 n))).
      { assert (G : forall L, (forall i, In i L -> (1 <= i <= n)%nat) -> 0 <= sumZ (map (fun i => d' i - low i) L)).
        { induction L as [|i L IHL]; intro HL; cbn [map sumZ]; [lia|]. specialize (IHL (fun y Hy => HL y (or_intror Hy))).
          destruct (mus_at i (HL i (or_introl eq_refl))) as [m Em]. destruct (HR' i m (HL i (or_introl eq_refl)) Em) as [_ B].
          unfold low at 1. rewrite Em. lia. }
        apply G. intros i Hin. apply in_seq in Hin. lia. }
      destruct k as [|k]; [lia|]. apply (IH k ltac:(lia) d' HR'). lia.
Qed.

Lemma cycle_or_feasible : negative_cycle n mus oms \/ exists mu om, feasible n mus oms mu om.
Proof.
  set (d := fun i => match nth_error mus i with Some m => m_u m | None => 0 end).
  apply (relax_all (Z.to_nat (sumZ (map (fun i => d i - low i) (seq 1 n)))) d); [|lia].
  intros i m Hi Em. unfold d. rewrite Em. destruct HW as (_ & HM & _). destruct (HM i m Hi Em) as (B & _). split; [|lia].
  apply link_walk, link_upper; auto.
Qed.

Theorem infeasible_cycle : infeasible n mus oms <-> negative_cycle n mus oms.
Proof.
  split; [|exact cycle_infeasible]. intro H. destruct cycle_or_feasible as [C|(mu & om & F)]; [exact C|]. destruct (H mu om F).
Qed.
End Cycle.

Section Solve.
Variable one : Z.
Hypothesis Hone : 0 < one.
#[local] Hint Extern 0 (DataOps Z) => exact (exact_ops one) : typeclass_instances.

Theorem nullopt_cycle n mus oms K fuel : admissible n mus oms K -> solver_fuel n (length oms) K <= Z.of_nat fuel ->
  (run_solver fuel (Z.of_nat n) mus oms = Ok None <-> negative_cycle n mus oms).
Proof.
  intros A F. destruct (solve_solution one Hone n mus oms K fuel A F) as (r & E & S). destruct A as (W & _).
  rewrite <- (infeasible_cycle n mus oms W). rewrite E. destruct r as [v|]; cbn [solution] in S.
  - split; [discriminate|]. intro H. destruct S as ((mu & om & Hf & _) & _). destruct (H mu om Hf).
  - split; auto.
Qed.

(** ** Nearby problems *)
Lemma nearby_sym n mus mus' oms oms' dm dk : nearby n mus mus' oms oms' dm dk -> nearby n mus' mus oms' oms dm dk.
Proof.
  intros (H0 & H1 & H2). split; [auto|]. split.
  - intros i m m' Hi E E'. destruct (H1 i m' m Hi E' E) as (A & B & C). split; [auto|]. split; [auto|]. intros x Hx. specialize (C x ltac:(lia)). lia.
  - intros k o o' E E'. destruct (H2 k o' o E' E) as (A & B & C & D & G). repeat (split; [auto|]). intros x Hx. specialize (G x ltac:(lia)). lia.
Qed.

Lemma nearby_le n mus mus' oms oms' dm dk mu om : well_formed n mus oms -> well_formed n mus' oms' -> nearby n mus mus' oms oms' dm dk ->
  feasible n mus oms mu om ->
  feasible n mus' oms' mu om /\ total_cost n mus' oms' mu om <= total_cost n mus oms mu om + total_change n (length oms) dm dk.
Proof.
  intros W W' (H0 & H1 & H2) [F1 F2]. split; [split|].
  - intros i Hi. destruct (F1 i Hi) as (m & E & B). destruct (mus_at n mus' oms' W' i Hi) as (m' & E').
    destruct (H1 i m m' Hi E E') as (A1 & A2 & _). exists m'. split; [exact E'|lia].
  - intros k o' E'. assert (Hk : (k < length oms)%nat) by (rewrite <- H0; apply nth_error_Some; congruence).
    destruct (nth_error oms k) as [o|] eqn:E; [|apply nth_error_None in E; lia].
    destruct (H2 k o o' E E') as (A1 & A2 & A3 & A4 & _). specialize (F2 k o E). rewrite A1, A2, A3, A4. exact F2.
  - unfold total_cost, total_change. rewrite H0.
    assert (G1 : forall L, (forall i, In i L -> (1 <= i <= n)%nat) ->
      sumZ (map (mu_cost mus' mu) L) <= sumZ (map (mu_cost mus mu) L) + sumZ (map dm L)).
    { induction L as [|i L IH]; intro HL; cbn [map sumZ]; [lia|]. specialize (IH (fun y Hy => HL y (or_intror Hy))).
      assert (Hi := HL i (or_introl eq_refl)). destruct (F1 i Hi) as (m & E & B). destruct (mus_at n mus' oms' W' i Hi) as (m' & E').
      destruct (H1 i m m' Hi E E') as (_ & _ & C). specialize (C (mu i) B). unfold mu_cost at 1 3. rewrite E, E'. lia. }
    assert (G2 : forall L, (forall k, In k L -> (k < length oms)%nat) ->
      sumZ (map (om_cost oms' om) L) <= sumZ (map (om_cost oms om) L) + sumZ (map dk L)).
    { induction L as [|k L IH]; intro HL; cbn [map sumZ]; [lia|]. specialize (IH (fun y Hy => HL y (or_intror Hy))).
      assert (Hk := HL k (or_introl eq_refl)). destruct (nth_error oms k) as [o|] eqn:E; [|apply nth_error_None in E; lia].
      destruct (nth_error oms' k) as [o'|] eqn:E'; [|apply nth_error_None in E'; lia].
      destruct (H2 k o o' E E') as (_ & _ & _ & _ & C). destruct (F2 k o E) as [B _]. specialize (C (om k) B).
      unfold om_cost at 1 3. rewrite E, E'. lia. }
    specialize (G1 (seq 1 n) ltac:(intros i Hi; apply in_seq in Hi; lia)). specialize (G2 (seq 0 (length oms)) ltac:(intros i Hi; apply in_seq in Hi; lia)). lia.
Qed.

Theorem solve_nearby n mus mus' oms oms' K dm dk fuel : admissible n mus oms K -> admissible n mus' oms' K ->
  nearby n mus mus' oms oms' dm dk -> solver_fuel n (length oms) K <= Z.of_nat fuel ->
  exists r r', run_solver fuel (Z.of_nat n) mus oms = Ok r /\ run_solver fuel (Z.of_nat n) mus' oms' = Ok r' /\
    ((r = None /\ r' = None) \/
     exists v v', r = Some v /\ r' = Some v' /\ Z.abs (v' - v) <= total_change n (length oms) dm dk).
Proof.
  intros A A' N F. assert (F' : solver_fuel n (length oms') K <= Z.of_nat fuel) by (destruct N as (-> & _); exact F).
  destruct (solve_solution one Hone n mus oms K fuel A F) as (r & E & S). destruct (solve_solution one Hone n mus' oms' K fuel A' F') as (r' & E' & S').
  exists r, r'. split; [exact E|]. split; [exact E'|]. destruct A as (W & _), A' as (W' & _). assert (N' := nearby_sym _ _ _ _ _ _ _ N).
  assert (L := fun mu om => nearby_le n mus mus' oms oms' dm dk mu om W W' N). assert (L' := fun mu om => nearby_le n mus' mus oms' oms dm dk mu om W' W N').
  destruct N as (NL & _). rewrite NL in L'. destruct r as [v|], r' as [v'|]; cbn [solution] in S, S'.
  - right. exists v, v'. split; [reflexivity|]. split; [reflexivity|]. destruct S as ((mu & om & Hf & Hv) & Hm), S' as ((mu' & om' & Hf' & Hv') & Hm').
    destruct (L mu om Hf) as [G1 G2]. destruct (L' mu' om' Hf') as [G1' G2']. specialize (Hm _ _ G1'). specialize (Hm' _ _ G1). lia.
  - exfalso. destruct S as ((mu & om & Hf & _) & _). destruct (L mu om Hf) as [G _]. destruct (S' mu om G).
  - exfalso. destruct S' as ((mu & om & Hf & _) & _). destruct (L' mu om Hf) as [G _]. destruct (S mu om G).
  - left. auto.
Qed.
End Solve.
