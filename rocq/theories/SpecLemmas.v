(** * Facts about the specification: which values a problem attains *)
From Coq Require Import Sorting.Permutation.
From Verif Require Import Base BaseLemmas ProblemDefine Sums Spec.
Local Open Scope Z_scope.

Definition attains (n : nat) mus oms (v : Z) : Prop :=
  exists mu om, feasible n mus oms mu om /\ total_cost n mus oms mu om = v.

Definition mu_part (n : nat) (mus : list (MuLimit Z)) (mu : nat -> Z) : Z := sumZ (map (mu_cost mus mu) (seq 1 n)).
Definition mu_ok (n : nat) (mus : list (MuLimit Z)) (mu : nat -> Z) : Prop :=
  forall i, (1 <= i <= n)%nat -> mu_bound mus i (mu i).

(** values of the omega part, by recursion on the list *)
Fixpoint om_val (oms : list (OmegaLimit Z)) (mu : nat -> Z) (v : Z) : Prop :=
  match oms with
  | [] => v = 0
  | o :: oms => exists w v', o_l o <= w <= o_u o /\ mu (o_i o) - mu (o_j o) <= w /\
                  om_val oms mu v' /\ v = cost (o_fn o) w + v'
  end.

Lemma om_val_iff oms mu v : om_val oms mu v <->
  exists om, (forall k o, nth_error oms k = Some o -> o_l o <= om k <= o_u o /\ mu (o_i o) - mu (o_j o) <= om k) /\
    sumZ (map (om_cost oms om) (seq 0 (length oms))) = v.
Proof.
  revert v. induction oms as [|o oms IH]; intros v; cbn [om_val].
  - split.
    + intros ->. exists (fun _ => 0). split; [|reflexivity]. intros [|k] x Hx; discriminate.
    + intros (om & _ & <-). reflexivity.
  - split.
    + intros (w & v' & W1 & W2 & Hv & ->). apply IH in Hv. destruct Hv as (om & F & T).
      exists (fun k => match k with O => w | S k => om k end). split.
      * intros [|k] x Hx; [inversion Hx; subst; auto|apply (F k x Hx)].
      * cbn [length seq map sumZ]. f_equal. rewrite <- seq_shift, map_map. exact T.
    + intros (om & F & T). exists (om 0%nat), (sumZ (map (om_cost oms (fun k => om (S k))) (seq 0 (length oms)))).
      destruct (F 0%nat o eq_refl) as [F1 F2]. split; auto. split; auto. split.
      * apply IH. exists (fun k => om (S k)). split; [|reflexivity]. intros k x Hx. apply (F (S k) x Hx).
      * rewrite <- T. cbn [length seq map sumZ]. f_equal. rewrite <- seq_shift, map_map. reflexivity.
Qed.

Lemma attains_iff n mus oms v : attains n mus oms v <->
  exists mu v', mu_ok n mus mu /\ om_val oms mu v' /\ v = mu_part n mus mu + v'.
Proof.
  unfold attains, feasible, total_cost. split.
  - intros (mu & om & [F1 F2] & T). exists mu, (sumZ (map (om_cost oms om) (seq 0 (length oms)))).
    split; auto. split; [|auto]. apply om_val_iff. eauto.
  - intros (mu & v' & F1 & H & ->). apply om_val_iff in H. destruct H as (om & F2 & <-). exists mu, om. auto.
Qed.

Lemma solution_iff n mus oms r : solution n mus oms r <->
  match r with
  | Some v => attains n mus oms v /\ forall v', attains n mus oms v' -> v <= v'
  | None => forall v, ~ attains n mus oms v
  end.
Proof.
  destruct r as [v|]; unfold solution, optimum, infeasible, attains.
  - split; intros [H1 H2]; split; auto.
    + intros v' (mu & om & F & <-). auto.
    + intros mu om F. apply H2. eauto.
  - split.
    + intros H v (mu & om & F & _). apply (H mu om F).
    + intros H mu om F. apply (H (total_cost n mus oms mu om)). eauto.
Qed.

Lemma solution_le n mus oms r n' mus' oms' r' c :
  (forall v, attains n mus oms v -> exists v', attains n' mus' oms' v' /\ v' <= v + c) ->
  solution n mus oms r -> solution n' mus' oms' r' ->
  forall v, r = Some v -> exists v', r' = Some v' /\ v' <= v + c.
Proof.
  intros H S1 S2 v ->. rewrite solution_iff in S1, S2. destruct S1 as [A _]. destruct (H v A) as (v' & A' & L).
  destruct r' as [w|]; [|destruct (S2 _ A')]. exists w. split; auto. destruct S2 as [_ S2]. specialize (S2 _ A'). lia.
Qed.

Lemma solution_shift n mus oms r n' mus' oms' r' c :
  (forall v, attains n mus oms v -> attains n' mus' oms' (v + c)) ->
  (forall v, attains n' mus' oms' v -> attains n mus oms (v - c)) ->
  solution n mus oms r -> solution n' mus' oms' r' -> r' = option_map (fun v => v + c) r.
Proof.
  intros H1 H2 S1 S2.
  assert (L1 := solution_le n mus oms r n' mus' oms' r' c
    ltac:(intros v A; exists (v + c); split; [auto|lia]) S1 S2).
  assert (L2 := solution_le n' mus' oms' r' n mus oms r (- c)
    ltac:(intros v A; exists (v - c); split; [auto|lia]) S2 S1).
  destruct r as [v|], r' as [v'|]; cbn [option_map]; auto.
  - destruct (L1 v eq_refl) as (w & Ew & Hw). destruct (L2 v' eq_refl) as (w' & Ew' & Hw'). inversion Ew. inversion Ew'. subst. f_equal. lia.
  - destruct (L1 v eq_refl) as (w & Ew & _). discriminate.
  - destruct (L2 v' eq_refl) as (w & Ew & _). discriminate.
Qed.

Lemma solution_same n mus oms r n' mus' oms' r' :
  (forall v, attains n mus oms v <-> attains n' mus' oms' v) ->
  solution n mus oms r -> solution n' mus' oms' r' -> r' = r.
Proof.
  intros H S1 S2. rewrite (solution_shift n mus oms r n' mus' oms' r' 0); auto.
  - destruct r; cbn; auto. f_equal. lia.
  - intros v A. rewrite Z.add_0_r. apply H. auto.
  - intros v A. rewrite Z.sub_0_r. apply H. auto.
Qed.

Lemma solution_unique n mus oms r r' : solution n mus oms r -> solution n mus oms r' -> r' = r.
Proof. apply solution_same. reflexivity. Qed.

(** ** Order of the omega limits *)
Lemma om_val_perm oms oms' mu v : Permutation oms oms' -> om_val oms mu v -> om_val oms' mu v.
Proof.
  intros P. revert v. induction P as [|o l l' P IH|a b l|l1 l2 l3 P1 IH1 P2 IH2]; intros v; cbn [om_val]; auto.
  - intros (w & v' & W1 & W2 & H & E). exists w, v'. auto.
  - intros (w1 & v1 & A1 & A2 & (w2 & v2 & B1 & B2 & H & E2) & E1).
    exists w2, (cost (o_fn b) w1 + v2). split; auto. split; auto. split; [|lia]. exists w1, v2. auto.
Qed.

Lemma attains_perm n mus oms oms' v : Permutation oms oms' -> attains n mus oms v <-> attains n mus oms' v.
Proof.
  intros P. rewrite !attains_iff. split; intros (mu & v' & H1 & H2 & H3); exists mu, v'; split; auto; split; auto;
  (eapply om_val_perm; [|exact H2]); auto. apply Permutation_sym; auto.
Qed.

(** ** Replacing limits one by one *)
Definition om_le (c : Z) (o o' : OmegaLimit Z) : Prop :=
  forall mu w, o_l o <= w <= o_u o -> mu (o_i o) - mu (o_j o) <= w ->
    exists w', o_l o' <= w' <= o_u o' /\ mu (o_i o') - mu (o_j o') <= w' /\ cost (o_fn o') w' <= cost (o_fn o) w + c.

Lemma om_val_le oms oms' mu v : Forall2 (om_le 0) oms oms' -> om_val oms mu v -> exists v', om_val oms' mu v' /\ v' <= v.
Proof.
  intros HF. revert v. induction HF as [|o o' l l' HR _ IH]; intros v; cbn [om_val].
  - intros ->. exists 0. split; [auto|lia].
  - intros (w & v' & W1 & W2 & H & ->). destruct (IH _ H) as (v2 & H2 & L2). destruct (HR mu w W1 W2) as (w' & A & B & C).
    exists (cost (o_fn o') w' + v2). split; [|lia]. exists w', v2. auto.
Qed.

Lemma om_val_app l1 l2 mu v : om_val (l1 ++ l2) mu v <-> exists v1 v2, om_val l1 mu v1 /\ om_val l2 mu v2 /\ v = v1 + v2.
Proof.
  revert v. induction l1 as [|o l1 IH]; intros v; cbn [app om_val].
  - split; [intros H; exists 0, v; auto|intros (v1 & v2 & -> & H & ->); exact H].
  - split.
    + intros (w & v' & W1 & W2 & H & ->). apply IH in H. destruct H as (v1 & v2 & A & B & ->).
      exists (cost (o_fn o) w + v1), v2. split; [exists w, v1; auto|]. split; auto. lia.
    + intros (v1 & v2 & (w & v' & W1 & W2 & H & ->) & B & ->). exists w, (v' + v2). split; auto. split; auto. split; [|lia].
      apply IH. eauto.
Qed.

(** ** Mu part *)
Lemma mu_part_ext n mus mus' mu mu' c :
  (forall i, (1 <= i <= n)%nat -> mu_cost mus' mu' i = mu_cost mus mu i + c i) ->
  mu_part n mus' mu' = mu_part n mus mu + sumZ (map c (seq 1 n)).
Proof.
  intros H. unfold mu_part. assert (G : forall L, (forall i, In i L -> (1 <= i <= n)%nat) ->
    sumZ (map (mu_cost mus' mu') L) = sumZ (map (mu_cost mus mu) L) + sumZ (map c L)).
  { induction L as [|i L IH]; intros HL; cbn [map sumZ]; [lia|].
    rewrite IH by (intros; apply HL; simpl; auto). rewrite H by (apply HL; simpl; auto). lia. }
  apply G. intros i Hi. apply in_seq in Hi. lia.
Qed.

Lemma sum_delta n i c : (1 <= i <= n)%nat -> sumZ (map (fun k => if Nat.eqb k i then c else 0) (seq 1 n)) = c.
Proof.
  intros Hi. assert (G : forall m s, sumZ (map (fun k => if Nat.eqb k i then c else 0) (seq s m)) =
     if (Nat.leb s i && Nat.ltb i (s + m))%bool then c else 0).
  { induction m as [|m IH]; intros s; cbn [seq map sumZ].
    - destruct (Nat.leb_spec s i), (Nat.ltb_spec i (s + 0)); simpl; lia.
    - rewrite IH. destruct (Nat.eqb_spec s i), (Nat.leb_spec s i), (Nat.ltb_spec i (s + S m)), (Nat.leb_spec (S s) i), (Nat.ltb_spec i (S s + m)); simpl; lia. }
  rewrite G. destruct (Nat.leb_spec 1 i), (Nat.ltb_spec i (1 + n)); simpl; lia.
Qed.
