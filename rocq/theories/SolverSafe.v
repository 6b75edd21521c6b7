(** * Malformed input; the network built by the constructor; independent parts *)
From Verif Require Import Base BaseLemmas Data ProblemDefine Flow ProblemSolver.
From Verif Require Import Sums Spec SpecLemmas Convex FlowNet PDProof FlowOpt SolverNet SolverProof SolverProps.
Local Open Scope Z_scope.

Section Safe.
Variable one : Z.
#[local] Hint Extern 0 (DataOps Z) => exact (exact_ops one) : typeclass_instances.

(** without convexity the search still stays in the range *)
Lemma pre_processing_safe fuel (o : OmegaLimit Z) :
  (31 < fuel)%nat -> o_l o <= o_u o -> int_range (o_l o) (o_u o) -> defined_on (o_fn o) (o_l o) (o_u o) ->
  exists o', pre_processing fuel o = Ok o' /\ o_l o' = o_l o /\ o_u o' = o_u o /\ o_i o' = o_i o /\ o_j o' = o_j o.
Proof.
  intros Hf Hlu (R1 & R2 & R3) HD. unfold pre_processing.
  destruct (partition_point_ok (decreasing_at (o_fn o)) (fun x => cost (o_fn o) (x + 1) <? cost (o_fn o) x) 31 fuel (o_l o) (o_u o))
    as (p & E & _); auto using pow32.
  { intros x Hx. unfold decreasing_at. rewrite (cost_ok _ _ _ x HD) by lia. cbn [bind].
    rewrite ck_ok by lia. cbn [bind]. rewrite (cost_ok _ _ _ (x + 1) HD) by lia. reflexivity. }
  rewrite E. cbn [bind]. eexists. split; [reflexivity|]. auto.
Qed.

Definition om_bad (n : Z) (o : OmegaLimit Z) : Prop :=
  ~ 1 <= Z.of_nat (o_i o) <= n \/ ~ 1 <= Z.of_nat (o_j o) <= n \/ o_i o = o_j o \/ o_u o < o_l o.

Section Run.
Variables (n : nat) (mus : list (MuLimit Z)) (K : Z) (fuel : nat).
Hypothesis HK : 3 * K <= INT_MAX.
Hypothesis Hfuel : (31 < fuel)%nat.
Hypothesis Hlen : length mus = (n + 1)%nat.
Hypothesis HmuK : forall i m, (1 <= i <= n)%nat -> nth_error mus i = Some m -> - K <= m_l m <= K /\ - K <= m_u m <= K.

Lemma check_omega_safe o : (o_l o <= o_u o -> - K <= o_l o /\ o_u o <= K /\ defined_on (o_fn o) (o_l o) (o_u o)) ->
  exists r, check_omega fuel (Z.of_nat n) mus o = Ok r /\ (om_bad (Z.of_nat n) o -> r = None).
Proof.
  intros HB. unfold check_omega, om_bad.
  destruct (Z.leb_spec 1 (Z.of_nat (o_i o))); cbn [negb andb]; [|eauto].
  destruct (Z.leb_spec (Z.of_nat (o_i o)) (Z.of_nat n)); cbn [negb andb]; [|eauto].
  destruct (Z.leb_spec 1 (Z.of_nat (o_j o))); cbn [negb andb]; [|eauto].
  destruct (Z.leb_spec (Z.of_nat (o_j o)) (Z.of_nat n)); cbn [negb andb]; [|eauto].
  destruct (Nat.eqb_spec (o_i o) (o_j o)); [eauto|].
  destruct (Z.leb_spec (o_l o) (o_u o)) as [Hlu|Hlu]; cbn [negb]; [|eauto].
  destruct (HB Hlu) as (B1 & B2 & B3).
  destruct (pre_processing_safe fuel o Hfuel Hlu) as (o1 & Ep & P1 & P2 & P3 & P4); auto.
  { unfold int_range, INT_MIN, INT_MAX in *. lia. }
  rewrite Ep. cbn [bind]. rewrite P3, P4.
  destruct (nth_error mus (o_i o)) as [a|] eqn:Ea; [|apply nth_error_None in Ea; lia].
  destruct (nth_error mus (o_j o)) as [b|] eqn:Eb; [|apply nth_error_None in Eb; lia].
  rewrite (vget_ok _ _ _ Ea). cbn [bind]. rewrite (vget_ok _ _ _ Eb). cbn [bind].
  assert (Ba := HmuK (o_i o) a ltac:(lia) Ea). assert (Bb := HmuK (o_j o) b ltac:(lia) Eb).
  rewrite ck_ok by (unfold INT_MIN, INT_MAX in *; lia). cbn [bind].
  match goal with |- exists r, (if ?c then _ else _) = _ /\ _ => destruct c end; eexists; (split; [reflexivity|]); auto.
  intros [X|[X|[X|X]]]; (contradiction || lia).
Qed.

Lemma check_omegas_safe oms :
  (forall o, In o oms -> o_l o <= o_u o -> - K <= o_l o /\ o_u o <= K /\ defined_on (o_fn o) (o_l o) (o_u o)) ->
  exists r, check_omegas fuel (Z.of_nat n) mus oms = Ok r /\ ((exists o, In o oms /\ om_bad (Z.of_nat n) o) -> r = None).
Proof.
  induction oms as [|o oms IH]; intros HB; cbn [check_omegas].
  - exists (Some []). split; auto. intros (o & [] & _).
  - destruct (check_omega_safe o (HB o (or_introl eq_refl))) as (r & E & Hr). rewrite E. cbn [bind].
    destruct r as [o'|]; [|exists None; auto].
    destruct IH as (r & E' & Hr'); [intros; apply HB; simpl; auto|]. rewrite E'. cbn [bind].
    destruct r as [l|]; [|exists None; auto]. exists (Some (o' :: l)). split; auto.
    intros (x & [<-|Hx] & Hb); [discriminate (Hr Hb)|]. discriminate (Hr' (ex_intro _ x (conj Hx Hb))).
Qed.

End Run.

Theorem malformed_rejected n mus oms K fuel :
  0 <= n < SIZE_MAX -> 3 * K <= INT_MAX -> 32 <= Z.of_nat fuel -> n <= Z.of_nat fuel ->
  (forall i m, 1 <= Z.of_nat i <= n -> nth_error mus i = Some m -> - K <= m_l m <= K /\ - K <= m_u m <= K) ->
  (forall o, In o oms -> o_l o <= o_u o -> - K <= o_l o /\ o_u o <= K /\ defined_on (o_fn o) (o_l o) (o_u o)) ->
  malformed n mus oms ->
  run_solver fuel n mus oms = Ok None.
Proof.
  intros Hn HK Hf1 Hf2 HM HO HB.
  assert (INV : solve fuel (@invalid Z) = Ok None).
  { unfold solve, invalid. cbn [s_n]. rewrite Z.eqb_refl. reflexivity. }
  unfold run_solver, solver_new. rewrite Z.mod_small by lia.
  destruct (Z.eqb_spec (Z.of_nat (length mus)) (n + 1)) as [E|E]; cbn [negb bind]; [|exact INV].
  set (k := Z.to_nat n). assert (Ek : n = Z.of_nat k) by lia. clearbody k. subst n.
  destruct (check_mus_ok k mus ltac:(lia) k 1 fuel ltac:(lia) ltac:(lia)) as (b & Eb & Hb). rewrite Eb. cbn [bind].
  destruct b; cbn [negb bind]; [|exact INV].
  destruct (check_omegas_safe k mus K fuel HK ltac:(lia) ltac:(lia)) with (oms := oms) as (r & Er & Hr); auto.
  { intros i m Hi Em. apply (HM i m); auto. lia. }
  rewrite Er. cbn [bind]. destruct HB as [HB|[(i & m & Hi & Em & Hlu)|HB]].
  - lia.
  - assert (X := proj1 Hb eq_refl i m ltac:(lia) Em). lia.
  - rewrite (Hr HB). cbn [bind]. exact INV.
Qed.

(** ** C28 *)
Theorem network_preserves n mus oms K fuel :
  well_formed n mus oms -> bounded_by n mus oms K -> 1 <= K -> 3 * K <= INT_MAX -> Z.of_nat n < INT_MAX ->
  32 + Z.of_nat n <= Z.of_nat fuel ->
  exists s, solver_new fuel (Z.of_nat n) mus oms = Ok s /\
    (s_n s = SIZE_MAX -> infeasible n mus oms) /\
    (s_n s <> SIZE_MAX -> exists r, merge_limits s = Ok r /\
       match r with
       | None => infeasible n mus oms
       | Some limits => forall mu, mu 0%nat = 0 ->
           ((exists om, feasible n mus oms mu om) <->
              (forall o, In o limits -> o_l o <= mu (o_i o) - mu (o_j o) <= o_u o)) /\
           ((forall o, In o limits -> o_l o <= mu (o_i o) - mu (o_j o) <= o_u o) ->
              (exists om, feasible n mus oms mu om /\
                 total_cost n mus oms mu om = sumZ (map (fun o => cost (o_fn o) (mu (o_i o) - mu (o_j o))) limits)) /\
              (forall om, feasible n mus oms mu om ->
                 sumZ (map (fun o => cost (o_fn o) (mu (o_i o) - mu (o_j o))) limits) <= total_cost n mus oms mu om))
       end).
Proof.
  intros (Hlen & Hmu & Hom) (BM & BO) HK HK3 Hn Hf.
  unfold solver_new.
  rewrite Z.mod_small by (unfold SIZE_MAX, INT_MAX in *; lia).
  destruct (Z.eqb_spec (Z.of_nat (length mus)) (Z.of_nat n + 1)); [|lia]. cbn [negb].
  destruct (check_mus_ok n mus Hlen n 1 fuel ltac:(lia) ltac:(lia)) as (b & Eb & Hb). rewrite Eb. cbn [bind].
  assert (b = true). { apply Hb. intros k m Hk Hm. apply (Hmu k m); auto. }
  subst b. cbn [negb].
  destruct (check_omegas_ok one n mus K fuel ltac:(lia) HK3 ltac:(lia) Hlen Hmu BM oms Hom BO) as (r & Er & Hr). rewrite Er. cbn [bind].
  destruct r as [oms'|].
  2:{ exists invalid. split; auto. split; [|cbn [invalid s_n]; congruence]. intros _ mu om [F1 F2]. destruct Hr as (o & Ho & Hlt).
      assert (HL := low_le n mus mu o F1 (Hom o Ho)). apply In_nth_error in Ho. destruct Ho as [k Hk].
      specialize (F2 k o Hk). unfold diff in HL. lia. }
  destruct Hr as [HF2 HG'].
  set (s := mkSolver (Z.of_nat n) mus oms'). exists s. split; auto.
  split; [cbn [s s_n]; unfold SIZE_MAX, INT_MAX in *; lia|]. intros _.
  destruct (merge_limits_ok one n (2 * K) (3 * K) ltac:(lia) s) as [(L & EL & HGL & HLL & HSat)|[EL HSat]];
    cbn [s s_n s_mus s_oms] in *; try rewrite !Nat2Z.id in *; auto; try lia.
  2:{ exists None. split; auto. intros mu om [F1 F2].
      destruct (om_best n mus oms oms' mu om HF2 Hom F1 F2) as [S _]. apply (HSat mu S). }
  exists (Some (L ++ map (mu_limit mus) (seq 1 n))). split; auto. intros mu H0.
  set (LL := L ++ map (mu_limit mus) (seq 1 n)).
  change (forall o, In o LL -> o_l o <= mu (o_i o) - mu (o_j o) <= o_u o) with (sat LL mu).
  rewrite sumZ_zsum. change (zsum LL (fun o => cost (o_fn o) (mu (o_i o) - mu (o_j o)))) with (lcost LL mu).
  destruct (HSat mu) as [Q1 Q2].
  assert (Emu : forall i, mu i - mu 0%nat = mu i) by (intros; lia).
  assert (EP : sumZ (map (mu_cost mus (fun i => mu i - mu 0%nat)) (seq 1 n)) = sumZ (map (mu_cost mus mu) (seq 1 n))).
  { f_equal. apply map_ext_in. intros i Hi. unfold mu_cost. rewrite Emu. reflexivity. }
  assert (S1 : sat LL mu <-> sat oms' mu /\ in_bounds n mus mu).
  { unfold LL. rewrite sat_app, mu_limits_sat by auto. rewrite Q1. apply and_iff_compat_l.
    unfold in_bounds. split; intros H i Hi; specialize (H i Hi); cbv beta in *; [rewrite Emu in H|rewrite Emu]; auto. }
  assert (C1 : sat LL mu -> lcost LL mu = lcost oms' mu + sumZ (map (mu_cost mus mu) (seq 1 n))).
  { intros H. apply S1 in H. destruct H as [H _]. unfold LL, lcost. rewrite zsum_app.
    fold (lcost L mu). fold (lcost (map (mu_limit mus) (seq 1 n)) mu). rewrite Q2 by (apply (proj2 Q1); auto).
    rewrite (mu_limits_cost n mus Hlen), EP. reflexivity. }
  assert (X1 : forall om, feasible n mus oms mu om -> sat LL mu /\ lcost LL mu <= total_cost n mus oms mu om).
  { intros om [F1 F2]. destruct (om_best n mus oms oms' mu om HF2 Hom F1 F2) as [T1 T2].
    assert (sat LL mu) by (apply S1; auto). split; auto. rewrite C1 by auto. unfold total_cost. fold (om_total oms om). lia. }
  assert (X2 : sat LL mu -> exists om, feasible n mus oms mu om /\ total_cost n mus oms mu om = lcost LL mu).
  { intros H. destruct (proj1 S1 H) as [T1 T2]. destruct (om_exists mus oms oms' mu HF2 T1) as (om & F & T).
    exists om. split; [split; auto|]. rewrite C1 by auto. unfold total_cost. fold (om_total oms om). lia. }
  split; [|split; auto].
  - split; [intros (om & F); apply (X1 om F)|]. intros H. destruct (X2 H) as (om & F & _). eauto.
  - intros om F. apply X1. auto.
Qed.

End Safe.

(** ** Two independent parts *)
Section Parts.
Variable one : Z.
#[local] Hint Extern 0 (DataOps Z) => exact (exact_ops one) : typeclass_instances.
Hypothesis H1 : 0 < one.

Definition opt_add (a b : option Z) : option Z :=
  match a, b with Some x, Some y => Some (x + y) | _, _ => None end.

Lemma solution_sum n mus oms r n1 mus1 oms1 r1 n2 mus2 oms2 r2 :
  (forall v, attains n mus oms v <-> exists v1 v2, attains n1 mus1 oms1 v1 /\ attains n2 mus2 oms2 v2 /\ v = v1 + v2) ->
  solution n mus oms r -> solution n1 mus1 oms1 r1 -> solution n2 mus2 oms2 r2 -> r = opt_add r1 r2.
Proof.
  intros H S S1 S2. rewrite solution_iff in S, S1, S2.
  destruct r as [v|].
  - destruct S as [A B]. apply H in A. destruct A as (v1 & v2 & A1 & A2 & ->).
    destruct r1 as [w1|]; [|destruct (S1 _ A1)]. destruct r2 as [w2|]; [|destruct (S2 _ A2)]. cbn [opt_add]. f_equal.
    destruct S1 as [P1 P2], S2 as [Q1 Q2]. specialize (P2 _ A1). specialize (Q2 _ A2).
    assert (X : v1 + v2 <= w1 + w2) by (apply B, H; eauto 6). lia.
  - destruct r1 as [w1|], r2 as [w2|]; cbn [opt_add]; auto. destruct S1 as [P1 _], S2 as [Q1 _].
    exfalso. apply (S (w1 + w2)), H. eauto 6.
Qed.

Lemma sum_seq_split (f : nat -> Z) n1 n2 : sumZ (map f (seq 1 (n1 + n2))) =
  sumZ (map f (seq 1 n1)) + sumZ (map (fun i => f (n1 + i)%nat) (seq 1 n2)).
Proof.
  rewrite seq_app, map_app.
  assert (A : forall a b, sumZ (a ++ b) = sumZ a + sumZ b) by (induction a; intros; cbn [app sumZ]; [lia|rewrite IHa; lia]).
  rewrite A. f_equal. f_equal.
  assert (G : forall m s, map f (seq (n1 + s) m) = map (fun i => f (n1 + i)%nat) (seq s m)).
  { induction m as [|m IH]; intros s; cbn [seq map]; auto. f_equal. rewrite <- IH. f_equal. f_equal. lia. }
  rewrite <- G. f_equal. f_equal. lia.
Qed.

Theorem solve_parts n1 mus1 oms1 n2 m0 mus2 oms2 K fuel :
  admissible n1 mus1 oms1 K -> admissible n2 (m0 :: mus2) oms2 K -> int_fits (n1 + n2) K ->
  solver_fuel n1 (length oms1) K <= Z.of_nat fuel -> solver_fuel n2 (length oms2) K <= Z.of_nat fuel ->
  solver_fuel (n1 + n2) (length oms1 + length oms2) K <= Z.of_nat fuel ->
  exists r1 r2, run_solver fuel (Z.of_nat n1) mus1 oms1 = Ok r1 /\ run_solver fuel (Z.of_nat n2) (m0 :: mus2) oms2 = Ok r2 /\
    run_solver fuel (Z.of_nat (n1 + n2)) (mus1 ++ mus2) (oms1 ++ map (om_rename (Nat.add n1)) oms2) = Ok (opt_add r1 r2).
Proof.
  intros A1 A2 HI F1 F2 F.
  destruct (solve_solution one H1 n1 mus1 oms1 K fuel A1 F1) as (r1 & E1 & S1).
  destruct (solve_solution one H1 n2 (m0 :: mus2) oms2 K fuel A2 F2) as (r2 & E2 & S2).
  exists r1, r2. split; auto. split; auto.
  destruct A1 as ((L1 & M1 & O1) & (BM1 & BO1) & _). destruct A2 as ((L2 & M2 & O2) & (BM2 & BO2) & _).
  cbn [length] in L2.
  set (mus := mus1 ++ mus2). set (oms := oms1 ++ map (om_rename (Nat.add n1)) oms2).
  assert (N1 : forall i, (1 <= i <= n1)%nat -> nth_error mus i = nth_error mus1 i) by (intros; apply nth_error_app1; lia).
  assert (N2 : forall i, (1 <= i <= n2)%nat -> nth_error mus (n1 + i) = nth_error (m0 :: mus2) i).
  { intros i Hi. unfold mus. rewrite nth_error_app2 by lia. destruct i as [|i]; [lia|]. cbn [nth_error]. f_equal. lia. }
  assert (NC : forall i, (1 <= i <= n1 + n2)%nat -> (1 <= i <= n1)%nat \/ exists j, (1 <= j <= n2)%nat /\ i = (n1 + j)%nat).
  { intros i Hi. destruct (le_lt_dec i n1); [left; lia|right; exists (i - n1)%nat; lia]. }
  assert (A : admissible (n1 + n2) mus oms K).
  { split; [|split; auto].
    - split; [unfold mus; rewrite app_length; lia|]. split.
      + intros i m Hi Em. destruct (NC i Hi) as [Hi1|(j & Hj & ->)]; [rewrite N1 in Em by auto; eauto|rewrite N2 in Em by auto; eauto].
      + intros o Ho. apply in_app_or in Ho. destruct Ho as [Ho|Ho].
        * destruct (O1 o Ho) as (X1 & X2 & X3 & X4 & X5 & X6). repeat (split; auto); lia.
        * apply in_map_iff in Ho. destruct Ho as (o0 & <- & Ho). destruct (O2 o0 Ho) as (X1 & X2 & X3 & X4 & X5 & X6).
          unfold om_wf. cbn [om_rename o_l o_u o_fn o_i o_j]. repeat (split; auto); lia.
    - split.
      + intros i m Hi Em. destruct (NC i Hi) as [Hi1|(j & Hj & ->)]; [rewrite N1 in Em by auto; eauto|rewrite N2 in Em by auto; eauto].
      + intros o Ho. apply in_app_or in Ho. destruct Ho as [Ho|Ho]; auto.
        apply in_map_iff in Ho. destruct Ho as (o0 & <- & Ho). apply (BO2 o0 Ho). }
  destruct (solve_solution one H1 (n1 + n2) mus oms K fuel A) as (r & E & S).
  { unfold oms. rewrite app_length, map_length. auto. }
  rewrite E. f_equal. eapply solution_sum; [|exact S|exact S1|exact S2].
  assert (EO1 : forall l mu mu', (forall o, In o l -> om_wf n1 o) -> (forall i, (1 <= i <= n1)%nat -> mu' i = mu i) -> forall v, om_val l mu v -> om_val l mu' v).
  { clear. induction l as [|o l IH]; intros mu mu' HW HE v; cbn [om_val]; auto.
    destruct (HW o (or_introl eq_refl)) as (_ & _ & _ & X4 & X5 & _). rewrite !HE by auto.
    intros (w & y & A & B & C & D). exists w, y. split; auto. split; auto. split; auto. eapply IH; [|exact HE|exact C]. intros; apply HW; simpl; auto. }
  assert (EO2 : forall l mu mu', (forall o, In o l -> om_wf n2 o) -> (forall i, (1 <= i <= n2)%nat -> mu' (n1 + i)%nat = mu i) ->
            forall v, om_val l mu v <-> om_val (map (om_rename (Nat.add n1)) l) mu' v).
  { clear. induction l as [|o l IH]; intros mu mu' HW HE v; cbn [om_val map]; [reflexivity|].
    destruct (HW o (or_introl eq_refl)) as (_ & _ & _ & X4 & X5 & _). cbn [om_rename o_l o_u o_fn o_i o_j]. rewrite !HE by auto.
    assert (IH' := IH mu mu' (fun o Ho => HW o (or_intror Ho)) HE).
    split; intros (w & y & A & B & C & D); exists w, y; (split; [auto|split; [auto|split; [apply IH'; auto|auto]]]). }
  intros v. rewrite attains_iff. split.
  - intros (mu & v' & X1 & X2 & ->). apply om_val_app in X2. destruct X2 as (a & b & Y1 & Y2 & ->).
    exists (mu_part n1 mus1 mu + a), (mu_part n2 (m0 :: mus2) (fun i => mu (n1 + i)%nat) + b).
    split; [|split].
    + apply attains_iff. exists mu, a. split; auto. intros i Hi. unfold mu_bound. rewrite <- N1 by auto. apply X1. lia.
    + apply attains_iff. exists (fun i => mu (n1 + i)%nat), b. split; [|split; auto].
      * intros i Hi. unfold mu_bound. rewrite <- N2 by auto. apply X1. lia.
      * apply (EO2 oms2 _ mu); auto.
    + unfold mu_part at 1. rewrite sum_seq_split.
      replace (sumZ (map (mu_cost mus mu) (seq 1 n1))) with (mu_part n1 mus1 mu).
      2:{ unfold mu_part. f_equal. apply map_ext_in. intros i Hi. apply in_seq in Hi. unfold mu_cost. rewrite N1 by lia. auto. }
      replace (sumZ (map (fun i => mu_cost mus mu (n1 + i)) (seq 1 n2))) with (mu_part n2 (m0 :: mus2) (fun i => mu (n1 + i)%nat)).
      2:{ unfold mu_part. f_equal. apply map_ext_in. intros i Hi. apply in_seq in Hi. unfold mu_cost. rewrite N2 by lia. auto. }
      lia.
  - intros (v1 & v2 & T1 & T2 & ->). apply attains_iff in T1, T2. destruct T1 as (mua & a & X1 & Y1 & ->). destruct T2 as (mub & b & X2 & Y2 & ->).
    set (mu := fun i => if (i <=? n1)%nat then mua i else mub (i - n1)%nat).
    assert (Ma : forall i, (1 <= i <= n1)%nat -> mu i = mua i) by (intros i Hi; unfold mu; destruct (Nat.leb_spec i n1); [auto|lia]).
    assert (Mb : forall i, (1 <= i <= n2)%nat -> mu (n1 + i)%nat = mub i).
    { intros i Hi. unfold mu. destruct (Nat.leb_spec (n1 + i) n1); [lia|]. f_equal. lia. }
    exists mu, (a + b). split; [|split].
    + intros i Hi. destruct (NC i Hi) as [Hi1|(j & Hj & ->)]; unfold mu_bound.
      * rewrite N1, Ma by auto. apply X1; auto.
      * rewrite N2, Mb by auto. apply X2; auto.
    + apply om_val_app. exists a, b. split; [apply (EO1 oms1 mua); auto|]. split; auto. apply (EO2 oms2 mub mu); auto.
    + unfold mu_part at 3. rewrite sum_seq_split.
      replace (sumZ (map (mu_cost mus mu) (seq 1 n1))) with (mu_part n1 mus1 mua).
      2:{ unfold mu_part. f_equal. apply map_ext_in. intros i Hi. apply in_seq in Hi. unfold mu_cost. rewrite N1, Ma by lia. auto. }
      replace (sumZ (map (fun i => mu_cost mus mu (n1 + i)) (seq 1 n2))) with (mu_part n2 (m0 :: mus2) mub).
      2:{ unfold mu_part. f_equal. apply map_ext_in. intros i Hi. apply in_seq in Hi. unfold mu_cost. rewrite N2, Mb by lia. auto. }
      lia.
Qed.

End Parts.
