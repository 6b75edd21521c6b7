(** * Optimal solutions form a lattice *)
From Verif Require Import Base BaseLemmas Data ProblemDefine Sums Spec FracSpec FracProof SpecLemmas SolverProof SolverProps ExampleData ProblemSolver Convex FlowOpt.
Local Open Scope Z_scope.

(** values of given sum that are closer together cost less *)
Lemma closer F l u a b c d : convex_on F l u -> l <= a -> b <= u -> a <= c <= b -> a <= d <= b -> c + d = a + b -> F c + F d <= F a + F b.
Proof.
  intros HC Ha Hb Hc Hd E. assert (G : forall k : nat, forall c d, a <= c -> c <= d -> d <= b -> c + d = a + b -> c = a + Z.of_nat k -> F c + F d <= F a + F b).
  { induction k as [|k IH]; intros x y H1 H2 H3 H4 H5.
    - replace x with a by lia. replace y with b by lia. lia.
    - assert (IH' := IH (x - 1) (y + 1) ltac:(lia) ltac:(lia) ltac:(lia) ltac:(lia) ltac:(lia)).
      assert (D := diff_mono F l u (x - 1) y HC ltac:(lia) ltac:(lia) ltac:(lia)). replace (x - 1 + 1) with x in D by lia. lia. }
  destruct (Z.le_ge_cases c d).
  - apply (G (Z.to_nat (c - a)) c d); lia.
  - rewrite Z.add_comm. apply (G (Z.to_nat (d - a)) d c); lia.
Qed.

Section Lattice.
Variables (n : nat) (mus : list (MuLimit Z)) (oms : list (OmegaLimit Z)).
Hypothesis HW : well_formed n mus oms.

Lemma split_omega o (mi mj mi' mj' a b : Z) : om_wf n o -> o_l o <= a <= o_u o -> o_l o <= b <= o_u o -> mi - mj <= a -> mi' - mj' <= b ->
  exists c d, o_l o <= c <= o_u o /\ o_l o <= d <= o_u o /\ Z.max mi mi' - Z.max mj mj' <= c /\ Z.min mi mi' - Z.min mj mj' <= d /\
    cost (o_fn o) c + cost (o_fn o) d <= cost (o_fn o) a + cost (o_fn o) b.
Proof.
  intros (_ & _ & HC & _). revert mi mj mi' mj' a b.
  assert (G : forall mi mj mi' mj' a b, o_l o <= a <= o_u o -> o_l o <= b <= o_u o -> mi - mj <= a -> mi' - mj' <= b -> mi' <= mi ->
    exists c d, o_l o <= c <= o_u o /\ o_l o <= d <= o_u o /\ Z.max mi mi' - Z.max mj mj' <= c /\ Z.min mi mi' - Z.min mj mj' <= d /\
    cost (o_fn o) c + cost (o_fn o) d <= cost (o_fn o) a + cost (o_fn o) b).
  { intros mi mj mi' mj' a b Ha Hb Da Db Hi. rewrite (Z.max_l mi mi'), (Z.min_r mi mi') by lia.
    destruct (Z.le_gt_cases mj' mj) as [Hj|Hj].
    - exists a, b. rewrite Z.max_l, Z.min_r by lia. repeat split; lia.
    - rewrite (Z.max_r mj mj'), (Z.min_l mj mj') by lia. destruct (Z.le_gt_cases a b) as [Hab|Hab].
      + exists a, b. repeat split; lia.
      + exists (Z.max b (mi - mj')), (a + b - Z.max b (mi - mj')). repeat split; try lia.
        rewrite (Z.add_comm (cost _ a)). eapply closer; [exact HC|..]; lia. }
  intros mi mj mi' mj' a b Ha Hb Da Db. destruct (Z.le_ge_cases mi' mi) as [Hi|Hi]; [apply G; assumption|].
  destruct (G mi' mj' mi mj b a Hb Ha Db Da Hi) as (c & d & H1 & H2 & H3 & H4 & H5). exists c, d.
  rewrite (Z.max_comm mi), (Z.max_comm mj), (Z.min_comm mi), (Z.min_comm mj). repeat split; lia.
Qed.

(** finitely many choices *)
Lemma choose_omegas (P : nat -> Z -> Z -> Prop) : forall k : nat, (forall j, (j < k)%nat -> exists c d, P j c d) ->
  exists c d : nat -> Z, forall j, (j < k)%nat -> P j (c j) (d j).
Proof.
  induction k as [|k IH]; intros H; [exists (fun _ => 0), (fun _ => 0); intros; lia|].
  destruct IH as (c & d & IH); [intros; apply H; lia|]. destruct (H k ltac:(lia)) as (ck & dk & Hk).
  exists (fup c k ck), (fup d k dk). intros j Hj. destruct (Nat.eq_dec j k) as [->|N].
  - rewrite !fup_eq. exact Hk.
  - rewrite !fup_neq by exact N. apply IH. lia.
Qed.

Lemma submodular mu om mu' om' : feasible n mus oms mu om -> feasible n mus oms mu' om' ->
  exists c d, feasible n mus oms (fun i => Z.max (mu i) (mu' i)) c /\ feasible n mus oms (fun i => Z.min (mu i) (mu' i)) d /\
    total_cost n mus oms (fun i => Z.max (mu i) (mu' i)) c + total_cost n mus oms (fun i => Z.min (mu i) (mu' i)) d <=
    total_cost n mus oms mu om + total_cost n mus oms mu' om'.
Proof.
  intros [A1 A2] [B1 B2]. destruct HW as (HL & HM & HO).
  destruct (choose_omegas (fun k c d => forall o, nth_error oms k = Some o -> o_l o <= c <= o_u o /\ o_l o <= d <= o_u o /\
    Z.max (mu (o_i o)) (mu' (o_i o)) - Z.max (mu (o_j o)) (mu' (o_j o)) <= c /\ Z.min (mu (o_i o)) (mu' (o_i o)) - Z.min (mu (o_j o)) (mu' (o_j o)) <= d /\
    cost (o_fn o) c + cost (o_fn o) d <= cost (o_fn o) (om k) + cost (o_fn o) (om' k)) (length oms)) as (c & d & HCD).
  { intros k Hk. destruct (nth_error oms k) as [o|] eqn:E; [|apply nth_error_None in E; lia].
    destruct (A2 k o E) as [Ha Da]. destruct (B2 k o E) as [Hb Db].
    destruct (split_omega o _ _ _ _ _ _ (HO o (nth_error_In _ _ E)) Ha Hb Da Db) as (x & y & HX). exists x, y. intros o' Eo. injection Eo as <-. exact HX. }
  exists c, d. assert (X : forall k o, nth_error oms k = Some o -> (k < length oms)%nat) by (intros k o E; apply nth_error_Some; congruence).
  split; [|split].
  - split.
    + intros i Hi. destruct (A1 i Hi) as (m & Em & Hm). destruct (B1 i Hi) as (m' & Em' & Hm'). rewrite Em in Em'. injection Em' as <-. exists m. split; [exact Em|lia].
    + intros k o E. destruct (HCD k (X k o E) o E) as (H1 & H2 & H3 & H4 & H5). split; assumption.
  - split.
    + intros i Hi. destruct (A1 i Hi) as (m & Em & Hm). destruct (B1 i Hi) as (m' & Em' & Hm'). rewrite Em in Em'. injection Em' as <-. exists m. split; [exact Em|lia].
    + intros k o E. destruct (HCD k (X k o E) o E) as (H1 & H2 & H3 & H4 & H5). split; assumption.
  - unfold total_cost. rewrite !sumZ_zsum.
    assert (P1 : zsum (seq 1 n) (mu_cost mus (fun i => Z.max (mu i) (mu' i))) + zsum (seq 1 n) (mu_cost mus (fun i => Z.min (mu i) (mu' i))) =
                 zsum (seq 1 n) (mu_cost mus mu) + zsum (seq 1 n) (mu_cost mus mu')).
    { rewrite <- !zsum_add. apply zsum_ext. intros i _. unfold mu_cost. destruct (nth_error mus i); [|reflexivity].
      destruct (Z.le_ge_cases (mu i) (mu' i)); [rewrite Z.max_r, Z.min_l by lia|rewrite Z.max_l, Z.min_r by lia]; lia. }
    assert (P2 : zsum (seq 0 (length oms)) (om_cost oms c) + zsum (seq 0 (length oms)) (om_cost oms d) <=
                 zsum (seq 0 (length oms)) (om_cost oms om) + zsum (seq 0 (length oms)) (om_cost oms om')).
    { rewrite <- !zsum_add. apply zsum_le. intros k Hk. apply in_seq in Hk. unfold om_cost. destruct (nth_error oms k) as [o|] eqn:E; [|lia].
      destruct (HCD k ltac:(lia) o E) as (_ & _ & _ & _ & H5). exact H5. }
    lia.
Qed.

Lemma optima_lattice v mu mu' : optimum n mus oms v -> solves n mus oms v mu -> solves n mus oms v mu' ->
  solves n mus oms v (fun i => Z.max (mu i) (mu' i)) /\ solves n mus oms v (fun i => Z.min (mu i) (mu' i)).
Proof.
  intros [_ HV] (om & F & E) (om' & F' & E'). destruct (submodular mu om mu' om' F F') as (c & d & Fc & Fd & Hle).
  assert (Vc := HV _ _ Fc). assert (Vd := HV _ _ Fd). split; [exists c|exists d]; (split; [assumption|lia]).
Qed.


End Lattice.

(** ** Narrowing the range of a variable *)
Lemma nth_narrowed mus i l u m : nth_error mus i = Some m -> nth_error (narrowed mus i l u) i = Some (mkMu l u (m_fn m)).
Proof. intros E. unfold narrowed. rewrite E. apply nth_error_upd_eq. apply nth_error_Some. congruence. Qed.
Lemma nth_narrowed_neq mus i l u j : i <> j -> nth_error (narrowed mus i l u) j = nth_error mus j.
Proof. intros N. unfold narrowed. destruct (nth_error mus i); [|reflexivity]. apply nth_error_upd_neq. auto. Qed.

Lemma narrowed_feasible n mus oms i l u mu om : subrange mus i l u -> (1 <= i <= n)%nat ->
  (feasible n (narrowed mus i l u) oms mu om <-> feasible n mus oms mu om /\ l <= mu i <= u).
Proof.
  intros (m & Em & Hl & Hlu & Hu) Hi. split.
  - intros [F1 F2]. split; [split|].
    + intros j Hj. destruct (F1 j Hj) as (m' & Em' & Hm). destruct (Nat.eq_dec i j) as [<-|N].
      * rewrite (nth_narrowed _ _ _ _ _ Em) in Em'. injection Em' as <-. cbn [m_l m_u] in Hm. exists m. split; [exact Em|lia].
      * rewrite nth_narrowed_neq in Em' by exact N. exists m'. split; assumption.
    + exact F2.
    + destruct (F1 i Hi) as (m' & Em' & Hm). rewrite (nth_narrowed _ _ _ _ _ Em) in Em'. injection Em' as <-. exact Hm.
  - intros [[F1 F2] H]. split; [|exact F2]. intros j Hj. destruct (Nat.eq_dec i j) as [<-|N].
    + exists (mkMu l u (m_fn m)). split; [apply nth_narrowed; exact Em|exact H].
    + destruct (F1 j Hj) as (m' & Em' & Hm). exists m'. rewrite nth_narrowed_neq by exact N. split; assumption.
Qed.

Lemma narrowed_cost n mus oms i l u mu om : total_cost n (narrowed mus i l u) oms mu om = total_cost n mus oms mu om.
Proof.
  unfold total_cost. f_equal. f_equal. apply map_ext. intros j. unfold mu_cost. destruct (Nat.eq_dec i j) as [<-|N].
  - destruct (nth_error mus i) as [m|] eqn:E; [rewrite (nth_narrowed _ _ _ _ _ E); reflexivity|]. unfold narrowed. rewrite E, E. reflexivity.
  - rewrite nth_narrowed_neq by exact N. reflexivity.
Qed.

Lemma narrowed_admissible n mus oms K i l u : subrange mus i l u -> admissible n mus oms K -> admissible n (narrowed mus i l u) oms K.
Proof.
  intros (m & Em & Hl & Hlu & Hu) ((HL & HM & HO) & (HBM & HBO) & HI). split; [|split; [|exact HI]].
  - split; [|split; [|exact HO]].
    + unfold narrowed. rewrite Em, upd_length. exact HL.
    + intros j m' Hj E. destruct (Nat.eq_dec i j) as [<-|N].
      * rewrite (nth_narrowed _ _ _ _ _ Em) in E. injection E as <-. destruct (HM i m Hj Em) as (A & B & C). unfold mu_wf. cbn [m_l m_u m_fn]. split; [exact Hlu|split].
        -- intros x Hx. apply B. lia.
        -- intros x Hx. apply C. lia.
      * rewrite nth_narrowed_neq in E by exact N. apply (HM j); assumption.
  - split; [|exact HBO]. intros j m' Hj E. destruct (Nat.eq_dec i j) as [<-|N].
    + rewrite (nth_narrowed _ _ _ _ _ Em) in E. injection E as <-. specialize (HBM i m Hj Em). cbn [m_l m_u]. lia.
    + rewrite nth_narrowed_neq in E by exact N. apply (HBM j); assumption.
Qed.

Section Runs.
Variable one : Z.
Hypothesis H1 : 0 < one.
Variables (n : nat) (mus : list (MuLimit Z)) (oms : list (OmegaLimit Z)) (K : Z) (fuel : nat) (v : Z).
Hypothesis HA : admissible n mus oms K.
Hypothesis HF : solver_fuel n (length oms) K <= Z.of_nat fuel.
Hypothesis HR : @run_solver Z (exact_ops one) fuel (Z.of_nat n) mus oms = Ok (Some v).

Lemma narrowed_run i l u : subrange mus i l u -> (1 <= i <= n)%nat ->
  (@run_solver Z (exact_ops one) fuel (Z.of_nat n) (narrowed mus i l u) oms = Ok (Some v) <->
   exists mu, solves n mus oms v mu /\ l <= mu i <= u).
Proof.
  intros HP Hi. assert (HA' := narrowed_admissible n mus oms K i l u HP HA).
  assert (HO := solve_optimum one H1 n mus oms K fuel v HA HF HR).
  destruct (solve_solution one H1 n _ oms K fuel HA' HF) as (r & Er & Hr). split.
  - intros E. rewrite E in Er. injection Er as <-. destruct Hr as [(mu & om & Hf & Hc) _]. apply narrowed_feasible in Hf; [|assumption..].
    rewrite narrowed_cost in Hc. exists mu. split; [exists om; tauto|tauto].
  - intros (mu & (om & Hf & Hc) & Hm). rewrite Er. f_equal. destruct r as [w|].
    + f_equal. destruct Hr as [(mu' & om' & Hf' & Hc') Hmin]. apply narrowed_feasible in Hf'; [|assumption..]. rewrite narrowed_cost in Hc'.
      assert (Y1 := Hmin mu om ltac:(apply narrowed_feasible; [assumption..|split; assumption])). rewrite narrowed_cost in Y1.
      assert (Y2 := proj2 HO mu' om' ltac:(tauto)). lia.
    + exfalso. apply (Hr mu om). apply narrowed_feasible; [assumption..|split; assumption].
Qed.

Lemma near_dec i l u : subrange mus i l u -> (1 <= i <= n)%nat ->
  (exists mu, solves n mus oms v mu /\ l <= mu i <= u) \/ ~ exists mu, solves n mus oms v mu /\ l <= mu i <= u.
Proof.
  intros HP Hi. rewrite <- (narrowed_run i l u HP Hi).
  destruct (@run_solver Z (exact_ops one) fuel (Z.of_nat n) (narrowed mus i l u) oms) as [[w|]|e]; [|right; discriminate|right; discriminate].
  destruct (Z.eq_dec w v) as [->|N]; [left; reflexivity|right; congruence].
Qed.

Lemma within i m mu : (1 <= i <= n)%nat -> nth_error mus i = Some m -> solves n mus oms v mu -> m_l m <= mu i <= m_u m.
Proof. intros Hi Em (om & [F1 _] & _). destruct (F1 i Hi) as (m' & Em' & Hm). rewrite Em in Em'. injection Em' as <-. exact Hm. Qed.

Lemma some_solution : exists mu, solves n mus oms v mu.
Proof. destruct (solve_optimum one H1 n mus oms K fuel v HA HF HR) as [(mu & om & H) _]. exists mu, om. exact H. Qed.

Lemma least_value i : (1 <= i <= n)%nat -> exists mu, solves n mus oms v mu /\ forall mu', solves n mus oms v mu' -> mu i <= mu' i.
Proof.
  intros Hi. destruct some_solution as (mu0 & S0). destruct (nth_error mus i) as [m|] eqn:Em; [|apply nth_error_None in Em; destruct HA as ((HL & _) & _); lia].
  assert (G : forall k : nat, forall mu, solves n mus oms v mu -> mu i <= m_l m + Z.of_nat k ->
    exists mu, solves n mus oms v mu /\ forall mu', solves n mus oms v mu' -> mu i <= mu' i).
  { induction k as [|k IH]; intros mu HS Hk.
    - exists mu. split; [exact HS|]. intros mu' HS'. assert (X := within i m mu' Hi Em HS'). lia.
    - assert (W := within i m mu Hi Em HS). destruct (Z.eq_dec (mu i) (m_l m)) as [E0|N0].
      { exists mu. split; [exact HS|]. intros mu' HS'. assert (X := within i m mu' Hi Em HS'). lia. }
      destruct (near_dec i (m_l m) (mu i - 1)) as [(mu' & HS' & Hm')|N]; [exists m; repeat split; try assumption; lia|exact Hi|apply (IH mu' HS'); lia|].
      exists mu. split; [exact HS|]. intros mu' HS'. destruct (Z.le_gt_cases (mu i) (mu' i)) as [C|C]; [exact C|].
      exfalso. apply N. exists mu'. split; [exact HS'|]. assert (X := within i m mu' Hi Em HS'). lia. }
  apply (G (Z.to_nat (mu0 i - m_l m)) mu0 S0). assert (X := within i m mu0 Hi Em S0). lia.
Qed.

Lemma greatest_value i : (1 <= i <= n)%nat -> exists mu, solves n mus oms v mu /\ forall mu', solves n mus oms v mu' -> mu' i <= mu i.
Proof.
  intros Hi. destruct some_solution as (mu0 & S0). destruct (nth_error mus i) as [m|] eqn:Em; [|apply nth_error_None in Em; destruct HA as ((HL & _) & _); lia].
  assert (G : forall k : nat, forall mu, solves n mus oms v mu -> m_u m - Z.of_nat k <= mu i ->
    exists mu, solves n mus oms v mu /\ forall mu', solves n mus oms v mu' -> mu' i <= mu i).
  { induction k as [|k IH]; intros mu HS Hk.
    - exists mu. split; [exact HS|]. intros mu' HS'. assert (X := within i m mu' Hi Em HS'). lia.
    - assert (W := within i m mu Hi Em HS). destruct (Z.eq_dec (mu i) (m_u m)) as [E0|N0].
      { exists mu. split; [exact HS|]. intros mu' HS'. assert (X := within i m mu' Hi Em HS'). lia. }
      destruct (near_dec i (mu i + 1) (m_u m)) as [(mu' & HS' & Hm')|N]; [exists m; repeat split; try assumption; lia|exact Hi|apply (IH mu' HS'); lia|].
      exists mu. split; [exact HS|]. intros mu' HS'. destruct (Z.le_gt_cases (mu' i) (mu i)) as [C|C]; [exact C|].
      exfalso. apply N. exists mu'. split; [exact HS'|]. assert (X := within i m mu' Hi Em HS'). lia. }
  apply (G (Z.to_nat (m_u m - mu0 i)) mu0 S0). assert (X := within i m mu0 Hi Em S0). lia.
Qed.

Theorem run_lattice mu mu' : solves n mus oms v mu -> solves n mus oms v mu' ->
  solves n mus oms v (fun i => Z.max (mu i) (mu' i)) /\ solves n mus oms v (fun i => Z.min (mu i) (mu' i)).
Proof. apply optima_lattice; [apply HA|]. exact (solve_optimum one H1 n mus oms K fuel v HA HF HR). Qed.

Lemma least_on : forall l, (forall i, In i l -> (1 <= i <= n)%nat) ->
  exists mu, solves n mus oms v mu /\ forall mu', solves n mus oms v mu' -> forall i, In i l -> mu i <= mu' i.
Proof.
  induction l as [|i l IH]; intros Hl.
  - destruct some_solution as (mu & HS). exists mu. split; [exact HS|]. intros mu' _ i [].
  - destruct IH as (mu & HS & Hmu); [intros; apply Hl; right; assumption|]. destruct (least_value i (Hl i ltac:(left; reflexivity))) as (nu & HN & Hnu).
    exists (fun i => Z.min (mu i) (nu i)). split; [apply (run_lattice mu nu HS HN)|].
    intros mu' HS' j [<-|Hj]; [specialize (Hnu mu' HS')|specialize (Hmu mu' HS' j Hj)]; cbv beta; lia.
Qed.

Lemma greatest_on : forall l, (forall i, In i l -> (1 <= i <= n)%nat) ->
  exists mu, solves n mus oms v mu /\ forall mu', solves n mus oms v mu' -> forall i, In i l -> mu' i <= mu i.
Proof.
  induction l as [|i l IH]; intros Hl.
  - destruct some_solution as (mu & HS). exists mu. split; [exact HS|]. intros mu' _ i [].
  - destruct IH as (mu & HS & Hmu); [intros; apply Hl; right; assumption|]. destruct (greatest_value i (Hl i ltac:(left; reflexivity))) as (nu & HN & Hnu).
    exists (fun i => Z.max (mu i) (nu i)). split; [apply (run_lattice mu nu HS HN)|].
    intros mu' HS' j [<-|Hj]; [specialize (Hnu mu' HS')|specialize (Hmu mu' HS' j Hj)]; cbv beta; lia.
Qed.

Theorem run_extremes : exists lo hi, solves n mus oms v lo /\ solves n mus oms v hi /\
  forall mu, solves n mus oms v mu -> forall i, (1 <= i <= n)%nat -> lo i <= mu i <= hi i.
Proof.
  destruct (least_on (seq 1 n)) as (lo & HL & Hlo); [intros i Hi; apply in_seq in Hi; lia|].
  destruct (greatest_on (seq 1 n)) as (hi & HH & Hhi); [intros i Hi; apply in_seq in Hi; lia|].
  exists lo, hi. split; [exact HL|split; [exact HH|]]. intros mu HS i Hi. assert (I : In i (seq 1 n)) by (apply in_seq; lia).
  split; [apply Hlo|apply Hhi]; assumption.
Qed.
End Runs.
