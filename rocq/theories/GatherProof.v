(** * The answer does not depend on how the limits are gathered *)
From Coq Require Import Permutation.
From Verif Require Import Base BaseLemmas Data ProblemDefine Flow ProblemSolver Gather.
From Verif Require Import Sums NetMath Spec SpecLemmas SolverProps FlowSpec Convex FlowNet PDProof FlowPhase FlowNew FlowOpt SolverNet SolverProof.
Local Open Scope Z_scope.

Section Gather.
Variable one : Z.
#[local] Hint Extern 0 (DataOps Z) => exact (exact_ops one) : typeclass_instances.

(** [r] is a fair account of the limits [oms] and the ranges [mus] *)
Definition gathered (n : nat) (mus : list (MuLimit Z)) (K R : Z) (oms : list (OmegaLimit Z)) (r : res (option (list (OmegaLimit Z)))) : Prop :=
  (exists L, r = Ok (Some L) /\ (forall o, In o L -> lgood n K R o) /\ (length L <= length oms + n)%nat /\
     (forall o, In o (map (mu_limit mus) (seq 1 n)) -> In o L) /\
     forall nu, (sat L nu <-> sat oms nu /\ sat (map (mu_limit mus) (seq 1 n)) nu) /\
       (sat L nu -> lcost L nu = lcost oms nu + lcost (map (mu_limit mus) (seq 1 n)) nu)) \/
  (r = Ok None /\ forall nu, ~ sat oms nu).

Variable gather : solver Z -> res (option (list (OmegaLimit Z))).

Theorem run_gather_gen n mus oms Bd K R fuel :
  0 < one -> well_formed n mus oms -> bounded_by n mus oms Bd -> 0 <= Bd -> 3 * Bd <= INT_MAX ->
  near n mus oms K R -> flow_fits n K R ->
  flow_fuel n (length oms + n) K <= Z.of_nat fuel ->
  (forall oms', length oms' = length oms -> (forall o, In o oms' -> lgood n K R o) ->
     (forall i, (1 <= i <= n)%nat -> lgood n K R (mu_limit mus i)) -> gathered n mus K R oms' (gather (mkSolver (Z.of_nat n) mus oms'))) ->
  exists r, run_solver_b gather fuel (Z.of_nat n) mus oms = Ok r /\ solution n mus oms r.
Proof.
  intros H1 (Hlen & Hmu & Hom) (BM & BO) HB0 HK3 HNear (FR & HK & FK & FN & FR4 & FB) Hfuel HGat.
  assert (HN1 : 1 <= Z.of_nat (n + 1)) by lia.
  assert (HD : Dn n <= INT_MAX) by (unfold Dn; lia).
  assert (Hn : Z.of_nat n < INT_MAX) by (unfold INT_MAX in *; lia).
  assert (HRb : 0 <= R <= INT_MAX) by nia.
  assert (HFF : 2 * Z.of_nat (n + 1) + 33 <= flow_fuel n (length oms + n) K).
  { unfold flow_fuel, phase_work. rewrite Z.div_1_r. assert (HD2 := Dn_pos n). nia. }
  assert (Hf1 : (n + 1 < fuel)%nat) by lia. assert (Hf2 : (31 < fuel)%nat) by lia.
  unfold run_solver_b, solver_new.
  rewrite Z.mod_small by (unfold SIZE_MAX, INT_MAX in *; lia).
  destruct (Z.eqb_spec (Z.of_nat (length mus)) (Z.of_nat n + 1)); [|lia]. cbn [negb].
  destruct (check_mus_ok n mus Hlen n 1 fuel ltac:(lia) ltac:(lia)) as (b & Eb & Hb). rewrite Eb. cbn [bind].
  assert (b = true). { apply Hb. intros k m Hk Hm. apply (Hmu k m); auto. }
  subst b. cbn [negb].
  destruct (check_omegas_ok one n mus Bd fuel ltac:(lia) HK3 Hf2 Hlen Hmu BM oms Hom BO) as (r & Er & Hr). rewrite Er. cbn [bind].
  destruct r as [oms'|].
  2:{ cbn [bind]. exists None. split; [reflexivity|]. intros mu om [F1 F2]. destruct Hr as (o & Ho & Hlt).
      assert (HL := low_le n mus mu o F1 (Hom o Ho)). apply In_nth_error in Ho. destruct Ho as [k Hk].
      specialize (F2 k o Hk). unfold diff in HL. lia. }
  destruct Hr as [HF2 HG0].
  assert (HG' : forall o, In o oms' -> lgood n K R o).
  { intros o' Ho'. destruct (Forall2_in_r _ _ _ HF2 o' Ho') as (o & Ho & HR0). exact (near_good n mus oms K R o o' HNear Ho (Hom o Ho) Hlen HR0 _ _ (HG0 o' Ho')). }
  clear HG0. cbn [bind]. unfold solve_b. cbn [s_n].
  destruct (Z.eqb_spec (Z.of_nat n) SIZE_MAX); [unfold SIZE_MAX, INT_MAX in *; lia|].
  set (s := mkSolver (Z.of_nat n) mus oms').
  assert (HlenO : length oms' = length oms) by (clear - HF2; induction HF2; simpl; auto).
  destruct (HGat oms' HlenO HG' ltac:(intros i Hi; apply (near_mu_good n mus oms); auto; lia)) as [(LL & EL & HG & HLL & HIn & HSat)|[EL HSat]]; fold s in EL.
  2:{ rewrite EL. cbn [bind]. exists None. split; [reflexivity|]. intros mu om [F1 F2].
      destruct (om_best n mus oms oms' mu om HF2 Hom F1 F2) as [S _]. apply (HSat mu S). }
  rewrite EL. cbn [bind].
  destruct (calc_ok one fuel Hf2 n K R LL ltac:(lia) ltac:(lia) HG) as (U & EC & HU & HUo).
  rewrite EC. cbn [bind].
  destruct (slopes_ok one fuel Hf2 n K R _ LL ltac:(lia) ltac:(lia) HG ltac:(lia) eq_refl) as [HM HLo].
  set (M := one + zsum LL (fun o => hi o - lo one fuel o)) in *.
  assert (Hm : (length LL <= length oms + n)%nat).
  { lia. }
  destruct (min_cost_ok one n M K U LL HM ltac:(lia) HLo ltac:(lia)) with (fuel := fuel)
    as (fs & fs' & v & E1 & E2 & Hmin).
  { exact FK. }
  { exact HD. }
  { nia. }
  { intros HU0. assert (X := bit_ceil_mono (Z.of_nat (n + 1) * U) (Z.of_nat (n + 1) * R) ltac:(nia)).
    specialize (FB ltac:(lia)). unfold Dn. 
    set (b1 := bit_ceil (Z.of_nat (n + 1) * U)) in *. set (b2 := bit_ceil (Z.of_nat (n + 1) * R)) in *. clearbody b1 b2. nia. }
  { eapply Z.le_trans; [|exact Hfuel]. apply flow_fuel_mono; lia. }
  { intros U0.
    assert (HE : forall o, In o LL -> o_l o = o_u o).
    { intros o Ho. assert (A := HUo o Ho). assert (B := lg_lu _ _ _ _ (HG o Ho)). lia. }
    set (nu := fun i => match i with O => 0 | _ => match nth_error mus i with Some m => m_l m | None => 0 end end).
    assert (HmE : forall i m, (1 <= i <= n)%nat -> nth_error mus i = Some m -> m_l m = m_u m).
    { intros i m Hi Em. assert (X := HE (mu_limit mus i)). unfold mu_limit in X. rewrite Em in X. apply X.
      apply HIn. apply in_map_iff. exists i. unfold mu_limit. rewrite Em. split; auto. apply in_seq. lia. }
    assert (HB : in_bounds n mus (fun i => nu i - nu 0%nat)).
    { intros i Hi. destruct (nth_error mus i) as [m|] eqn:Em; [|apply nth_error_None in Em; lia].
      exists m. split; auto. assert (A := HmE i m Hi Em). destruct i as [|i]; [lia|]. unfold nu. rewrite Em. lia. }
    assert (HB' : in_bounds n mus nu).
    { intros i Hi. destruct (HB i Hi) as (m & E & B). exists m. split; auto. unfold nu at 2 4 in B. lia. }
    assert (HS0 : sat oms' nu).
    { assert (H : forall o o', om_rel mus o o' -> In o oms -> lgood n K R o' -> sat1 nu o').
      { intros o o' HR Ho G. unfold sat1. rewrite (or_l _ _ _ HR). assert (Glu := lg_lu _ _ _ _ G). rewrite (or_l _ _ _ HR) in Glu.
        assert (Ed : diff nu o' = low mus o).
        { unfold diff, low. rewrite (or_i _ _ _ HR), (or_j _ _ _ HR). destruct (Hom o Ho) as (_ & _ & _ & W4 & W5 & _).
          destruct (nth_error mus (o_i o)) as [a|] eqn:EEa; [|apply nth_error_None in EEa; lia].
          destruct (nth_error mus (o_j o)) as [b|] eqn:EEb; [|apply nth_error_None in EEb; lia].
          assert (X1 := HmE _ _ W4 EEa). assert (X2 := HmE _ _ W5 EEb).
          destruct (HB' _ W4) as (a' & Ea' & Ba). destruct (HB' _ W5) as (b' & Eb' & Bb).
          assert (a' = a) by congruence. assert (b' = b) by congruence. subst. lia. }
        rewrite Ed. lia. }
      clear - HF2 HG' H. induction HF2 as [|o o' l l' HR _ IH]; [intros x []|].
      intros x [<-|Hx].
      - apply (H o); simpl; auto. apply HG'; simpl; auto.
      - apply IH; auto; [intros; apply HG'; simpl; auto|intros; apply (H o0); simpl; auto]. }
    assert (HSL : sat LL nu).
    { apply HSat. split; [auto|]. apply mu_limits_sat; auto. }
    exists nu. intros o Ho. split; [auto|]. assert (A := HSL o Ho). assert (B := HE o Ho). unfold sat1, diff in A. lia. }
  rewrite Nat2Z.id, E1. cbn [bind]. rewrite E2. cbn [bind]. cbn [dlt exact_ops].
  destruct (threshold one fuel Hf2 n K R M (zsum LL hi) LL v H1 ltac:(lia) ltac:(lia) HG eq_refl eq_refl HM Hmin) as [T1 T2].
  assert (Hfeas : forall mu om, feasible n mus oms mu om ->
     let nu := fun i => match i with O => 0 | _ => mu i end in sat LL nu /\ lcost LL nu <= total_cost n mus oms mu om).
  { intros mu om [F1 F2] nu.
    assert (Eoms : forall o, In o oms' -> diff nu o = diff mu o).
    { intros o' Ho'. destruct (Forall2_in_r _ _ _ HF2 o' Ho') as (o & Ho & HR). unfold diff. rewrite (or_i _ _ _ HR), (or_j _ _ _ HR).
      destruct (Hom o Ho) as (_ & _ & _ & W4 & W5 & _). unfold nu.
      destruct (o_i o); [lia|]. destruct (o_j o); [lia|]. reflexivity. }
    destruct (om_best n mus oms oms' mu om HF2 Hom F1 F2) as [S1 S2].
    assert (S1' : sat oms' nu). { intros o Ho. unfold sat1. rewrite Eoms by auto. apply S1; auto. }
    assert (C1 : lcost oms' nu = lcost oms' mu). { apply zsum_ext. intros o Ho. unfold cost1. rewrite Eoms by auto. reflexivity. }
    destruct (HSat nu) as [Q1 Q2].
    assert (Emu : forall i, (1 <= i)%nat -> nu i - nu 0%nat = mu i) by (intros [|i] Hi; [lia|unfold nu; lia]).
    assert (SL : sat LL nu).
    { apply Q1. split; auto. apply mu_limits_sat; auto. intros i Hi. rewrite Emu by lia. auto. }
    split; [exact SL|].
    - rewrite Q2 by auto. rewrite C1. rewrite (mu_limits_cost n mus Hlen).
      unfold total_cost. fold (om_total oms om).
      enough (sumZ (map (mu_cost mus (fun i => nu i - nu 0%nat)) (seq 1 n)) = sumZ (map (mu_cost mus mu) (seq 1 n))) by lia.
      f_equal. apply map_ext_in. intros i Hi. apply in_seq in Hi. unfold mu_cost. rewrite Emu by lia. reflexivity. }
  destruct (Z.ltb_spec (zsum LL hi) v) as [C|C].
  - exists None. split; [reflexivity|]. intros mu om F. destruct (Hfeas mu om F) as [S _]. apply (T2 C _ S).
  - exists (Some v). split; [reflexivity|]. destruct (T1 C) as [(nu & S & Ev) Hmn]. split.
    + destruct (HSat nu) as [Q1 Q2]. destruct (proj1 Q1 S) as [SL SM].
      set (mu := fun i => nu i - nu 0%nat).
      assert (Eoms : forall o, diff mu o = diff nu o) by (intros o; unfold diff, mu; lia).
      assert (SO : sat oms' mu). { intros o Ho. unfold sat1. rewrite Eoms. exact (SL o Ho). }
      destruct (om_exists mus oms oms' mu HF2 SO) as (om & F & T).
      exists mu, om. split; [split|].
      * apply mu_limits_sat in SM; auto.
      * exact F.
      * unfold total_cost. fold (om_total oms om). rewrite T.
        rewrite <- Ev. rewrite Q2 by auto. rewrite (mu_limits_cost n mus Hlen). fold mu.
        assert (lcost oms' mu = lcost oms' nu) by (apply zsum_ext; intros o _; unfold cost1; rewrite Eoms; reflexivity). lia.
    + intros mu om F. destruct (Hfeas mu om F) as [S2 C2]. eapply Z.le_trans; [apply (Hmn _ S2)|exact C2].
Qed.

Theorem run_gather_ok n mus oms K fuel :
  0 < one -> admissible n mus oms K -> solver_fuel n (length oms) K <= Z.of_nat fuel ->
  (forall oms', length oms' = length oms -> (forall o, In o oms' -> lgood n (2 * K) (3 * K) o) ->
     (forall i, (1 <= i <= n)%nat -> lgood n (2 * K) (3 * K) (mu_limit mus i)) ->
     gathered n mus (2 * K) (3 * K) oms' (gather (mkSolver (Z.of_nat n) mus oms'))) ->
  run_solver_b gather fuel (Z.of_nat n) mus oms = run_solver fuel (Z.of_nat n) mus oms.
Proof.
  intros H1 HA Hfuel HG. destruct (solve_solution one H1 n mus oms K fuel HA Hfuel) as (r0 & E0 & S0).
  pose proof HA as (HW & HB & HK & HI). assert (HN1 : 1 <= Z.of_nat (n + 1)) by lia. pose proof HW as (Hlen & Hmu & Hom).
  destruct (run_gather_gen n mus oms K (2 * K) (3 * K) fuel H1 HW HB ltac:(lia) ltac:(nia)) as (r & E & S); auto.
  - apply bounded_near; auto; lia.
  - apply fits_flow; auto.
  - rewrite E, E0. f_equal. exact (solution_unique n mus oms r0 r S0 S).
Qed.
End Gather.

Section Ways.
Variable one : Z.
#[local] Hint Extern 0 (DataOps Z) => exact (exact_ops one) : typeclass_instances.
Variable shuffle : list (OmegaLimit Z) -> list (OmegaLimit Z).
Hypothesis HP : forall l, Permutation l (shuffle l).

Lemma gathered_perm n mus K R oms L L' : Permutation L L' -> gathered n mus K R oms (Ok (Some L)) -> gathered n mus K R oms (Ok (Some L')).
Proof.
  intros P [(L0 & E & H1 & H2 & H3 & H4)|[E _]]; [|discriminate]. injection E as <-. left. exists L'. split; [reflexivity|].
  assert (IN : forall o, In o L' <-> In o L) by (intro o; split; apply Permutation_in; [apply Permutation_sym|]; exact P).
  split; [intros o Ho; apply H1, IN, Ho|]. split; [rewrite <- (Permutation_length P); exact H2|]. split; [intros o Ho; apply IN, H3, Ho|].
  intro nu. destruct (H4 nu) as [A B]. assert (SS : sat L' nu <-> sat L nu) by (unfold sat; split; intros S o Ho; apply S, IN, Ho).
  split; [tauto|]. intro S. unfold lcost at 1. rewrite <- (zsum_perm L L' (cost1 nu) P). apply B. tauto.
Qed.

Lemma any_order_same n mus oms K fuel :
  0 < one -> admissible n mus oms K -> solver_fuel n (length oms) K <= Z.of_nat fuel ->
  run_solver_b (merge_any_order shuffle) fuel (Z.of_nat n) mus oms = run_solver fuel (Z.of_nat n) mus oms.
Proof.
  intros H1 HA HF. apply (run_gather_ok one _ n mus oms K fuel H1 HA HF). intros oms' HL HG HM. pose proof HA as ((Hlen & _) & _ & HK & HI).
  set (s := mkSolver (Z.of_nat n) mus oms').
  assert (EU : merge_any_order shuffle s = match merge_limits s with
      | Ok None => Ok None
      | Ok (Some _) => match merge_loop (s_oms s) [] with
          | Ok (Some mp) => Ok (Some (shuffle (map snd mp) ++ map (mu_limit mus) (seq 1 n))) | _ => Ok None end
      | Err e => Err e end).
  { unfold merge_any_order, merge_limits. destruct (merge_loop (s_oms s) []) as [[mp|]|]; cbn [bind]; try reflexivity.
    unfold s. cbn [s_n s_mus]. rewrite Nat2Z.id. rewrite mu_loop_ok by (intros i Hi; apply in_seq in Hi; lia). reflexivity. }
  rewrite EU. clear EU. unfold s. clear s.
  destruct (merge_limits_ok one n (2 * K) (3 * K) ltac:(unfold INT_MAX in *; nia) (mkSolver (Z.of_nat n) mus oms')) as [(L & EL & HGL & HLL & HSat)|[EL HSat]];
    cbn [s_n s_mus s_oms] in *; try rewrite !Nat2Z.id in *; auto; try lia.
  - rewrite EL. unfold merge_limits in EL. cbn [s_oms] in EL.
    destruct (merge_loop oms' []) as [[mp|]|]; cbn [bind] in EL; try discriminate. cbn [s_n s_mus] in EL. rewrite Nat2Z.id in EL.
    rewrite mu_loop_ok in EL by (intros i Hi; apply in_seq in Hi; lia). cbn [bind app] in EL. injection EL as EL. apply app_inv_tail in EL. subst L.
    apply (gathered_perm _ _ _ _ _ (map snd mp ++ map (mu_limit mus) (seq 1 n))); [apply Permutation_app_tail, HP|].
    left. eexists. split; [reflexivity|]. split.
    { intros o Ho. apply in_app_or in Ho. destruct Ho as [Ho|Ho]; [auto|]. apply in_map_iff in Ho. destruct Ho as (i & <- & Hi). apply in_seq in Hi. apply HM. lia. }
    split; [rewrite app_length, (map_length (mu_limit mus)), seq_length; lia|]. split; [intros o Ho; apply in_or_app; auto|].
    intro nu. destruct (HSat nu) as [A B]. rewrite sat_app. split; [tauto|]. intros [S1 S2]. unfold lcost at 1. rewrite zsum_app. fold (lcost (map snd mp) nu). rewrite (B S1). reflexivity.
  - rewrite EL. right. split; [reflexivity|exact HSat].
Qed.

Lemma no_merge_same n mus oms K fuel :
  0 < one -> admissible n mus oms K -> solver_fuel n (length oms) K <= Z.of_nat fuel ->
  run_solver_b (no_merge shuffle) fuel (Z.of_nat n) mus oms = run_solver fuel (Z.of_nat n) mus oms.
Proof.
  intros H1 HA HF. apply (run_gather_ok one _ n mus oms K fuel H1 HA HF). intros oms' HL HG HM. pose proof HA as ((Hlen & _) & _ & HK & HI).
  unfold no_merge. cbn [s_n s_mus s_oms]. rewrite Nat2Z.id. rewrite mu_loop_ok by (intros i Hi; apply in_seq in Hi; lia). cbn [bind app].
  eapply gathered_perm; [apply HP|]. left. eexists. split; [reflexivity|]. split.
  { intros o Ho. apply in_app_or in Ho. destruct Ho as [Ho|Ho]; [auto|]. apply in_map_iff in Ho. destruct Ho as (i & <- & Hi). apply in_seq in Hi. apply HM. lia. }
  split; [rewrite app_length, map_length, seq_length; lia|]. split; [intros o Ho; apply in_or_app; auto|].
  intro nu. rewrite sat_app. split; [tauto|]. intros [S1 S2]. unfold lcost at 1. rewrite zsum_app. reflexivity.
Qed.
End Ways.
