(** * Correctness of the reference solvers *)
From Verif Require Import Base BaseLemmas Data ProblemDefine Oracles.
From Verif Require Import Sums Spec SpecLemmas Convex FlowNet PDProof.
Local Open Scope Z_scope.

Section Ternary.
Variable one : Z.
#[local] Hint Extern 0 (DataOps Z) => exact (exact_ops one) : typeclass_instances.

Lemma convex_right F l u a b x : convex_on F l u -> l <= a -> a < b -> b <= x -> x <= u -> F a <= F b -> F b <= F x.
Proof.
  intros HC H1 H2 H3 H4 HF.
  assert (S1 : 0 <= F b - F (b - 1)).
  { assert (H := sum_diff_le F l u a b (F b - F (b - 1)) HC ltac:(lia) ltac:(lia) ltac:(lia) ltac:(lia)). nia. }
  assert (H := sum_diff_ge F l u b x 0 HC ltac:(lia) ltac:(lia) ltac:(lia)).
  assert (G : b < x -> 0 <= F (b + 1) - F b).
  { intros Hb. assert (D := diff_mono F l u (b - 1) b HC ltac:(lia) ltac:(lia) ltac:(lia)).
    replace (b - 1 + 1) with b in D by lia. lia. }
  specialize (H G). lia.
Qed.

Lemma convex_left F l u a b x : convex_on F l u -> l <= x -> x <= a -> a < b -> b <= u -> F b <= F a -> F a <= F x.
Proof.
  intros HC H1 H2 H3 H4 HF.
  assert (A := convex_right (fun y => F (- y)) (- u) (- l) (- b) (- a) (- x) (convex_opp F l u HC) ltac:(lia) ltac:(lia) ltac:(lia) ltac:(lia)).
  cbn beta in A. rewrite !Z.opp_involutive in A. auto.
Qed.

Lemma ternary_ok (f : Fn Z) L U : INT_MIN <= L -> U <= INT_MAX -> U - L <= INT_MAX ->
  defined_on f L U -> convex_on (cost f) L U ->
  forall k fuel l r, Z.of_nat k = r - l -> (k <= fuel)%nat -> L <= l -> r <= U ->
  exists p, ternary_loop fuel f l r = Ok (p, p) /\ argmin (cost f) l r p.
Proof.
  intros B1 B2 B3 HD HC k. induction k as [k IH] using lt_wf_ind. intros fuel l r Hk Hf HL HU.
  destruct fuel as [|fuel]; cbn [ternary_loop].
  - destruct (Z.ltb_spec l r); [lia|]. exists l. replace r with l by lia. split; auto. split; [lia|].
    intros y Hy. replace y with l by lia. lia.
  - destruct (Z.ltb_spec l r) as [Hlr|Hlr].
    2:{ exists l. replace r with l by lia. split; auto. split; [lia|]. intros y Hy. replace y with l by lia. lia. }
    rewrite ck_ok by (unfold INT_MIN, INT_MAX in *; lia). cbn [bind].
    assert (Hq : 0 <= Z.quot (r - l) 3 /\ 3 * Z.quot (r - l) 3 <= r - l).
    { rewrite Z.quot_div_nonneg by lia. split; [apply Z.div_pos; lia|apply Z.mul_div_le; lia]. }
    set (t := Z.quot (r - l) 3) in *.
    rewrite ck_ok by (unfold INT_MIN, INT_MAX in *; lia). cbn [bind].
    rewrite ck_ok by (unfold INT_MIN, INT_MAX in *; lia). cbn [bind].
    rewrite (cost_ok _ _ _ (l + t) HD) by lia. cbn [bind].
    rewrite (cost_ok _ _ _ (r - t) HD) by lia. cbn [bind dle exact_ops].
    destruct (Z.leb_spec (cost f (l + t)) (cost f (r - t))) as [C|C].
    + rewrite ck_ok by (unfold INT_MIN, INT_MAX in *; lia). cbn [bind].
      destruct (IH (Z.to_nat (r - t - 1 - l))) with (fuel := fuel) (l := l) (r := r - t - 1) as (p & E & [A1 A2]); try lia.
      exists p. split; auto. split; [lia|]. intros y Hy. destruct (Z.le_gt_cases y (r - t - 1)); [apply A2; lia|].
      assert (X := convex_right _ L U (l + t) (r - t) y HC ltac:(lia) ltac:(lia) ltac:(lia) ltac:(lia) C).
      specialize (A2 (l + t) ltac:(lia)). lia.
    + rewrite ck_ok by (unfold INT_MIN, INT_MAX in *; lia). cbn [bind].
      destruct (IH (Z.to_nat (r - (l + t + 1)))) with (fuel := fuel) (l := l + t + 1) (r := r) as (p & E & [A1 A2]); try lia.
      exists p. split; auto. split; [lia|]. intros y Hy. destruct (Z.le_gt_cases (l + t + 1) y); [apply A2; lia|].
      assert (X := convex_left _ L U (l + t) (r - t) y HC ltac:(lia) ltac:(lia) ltac:(lia) ltac:(lia) ltac:(lia)).
      specialize (A2 (r - t) ltac:(lia)). lia.
Qed.

Lemma function_min_ok (f : Fn Z) l u fuel : l <= u -> INT_MIN <= l -> u <= INT_MAX -> u - l <= INT_MAX ->
  defined_on f l u -> convex_on (cost f) l u -> u - l <= Z.of_nat fuel ->
  exists p, function_min fuel f l u = Ok (cost f p) /\ argmin (cost f) l u p.
Proof.
  intros H1 H2 H3 H4 HD HC Hf.
  destruct (ternary_ok f l u H2 H3 H4 HD HC (Z.to_nat (u - l)) fuel l u) as (p & E & A); try lia.
  exists p. split; auto. unfold function_min. rewrite E. cbn [bind].
  assert (A1 := proj1 A). rewrite (cost_ok _ _ _ p HD) by lia. cbn [bind]. unfold dmin. cbn [dlt exact_ops]. rewrite Z.ltb_irrefl. reflexivity.
Qed.

End Ternary.

(** ** Exhaustive search *)
Section BF.
Variable one : Z.
#[local] Hint Extern 0 (DataOps Z) => exact (exact_ops one) : typeclass_instances.

(** the omega limit after [pre_processing] *)
Record pre_rel (o o' : OmegaLimit Z) : Prop := {
  pr_i : o_i o' = o_i o;
  pr_j : o_j o' = o_j o;
  pr_u : o_u o' = o_u o;
  pr_fn : forall d, d <= o_u o -> exists v, o_fn o' d = Ok v /\ bestcost (cost (o_fn o)) (o_l o) (o_u o) d v
}.

Lemma bf_prepare_ok fuel n oms K : (31 < fuel)%nat -> 2 * K <= INT_MAX ->
  (forall o, In o oms -> om_wf n o) -> (forall o, In o oms -> - K <= o_l o /\ o_u o <= K) ->
  exists oms', bf_prepare fuel oms = Ok oms' /\ Forall2 pre_rel oms oms'.
Proof.
  intros Hf HK. induction oms as [|o oms IH]; intros HW HB; cbn [bf_prepare]; [exists []; split; auto|].
  destruct (HW o (or_introl eq_refl)) as (W1 & W2 & W3 & _). destruct (HB o (or_introl eq_refl)) as [B1 B2].
  destruct (pre_processing_ok one fuel o Hf W1) as (o1 & Ep & P1 & P2 & P3 & P4 & P5 & P6 & P7); auto.
  { unfold int_range, INT_MIN, INT_MAX in *. lia. }
  rewrite Ep. cbn [bind]. destruct IH as (l & El & HF); [intros; apply HW; simpl; auto|intros; apply HB; simpl; auto|].
  rewrite El. cbn [bind]. eexists. split; [reflexivity|]. constructor; auto. constructor; auto.
  intros d Hd. destruct (P5 d Hd) as (w & Hw & E & B). eauto.
Qed.

(** [v] is a least value of the omega part *)
Definition om_best (oms : list (OmegaLimit Z)) mu (v : Z) : Prop :=
  om_val oms mu v /\ forall v', om_val oms mu v' -> v <= v'.

Lemma bf_leaf_ok n oms oms' v mu K : 2 * K <= INT_MAX -> Forall2 pre_rel oms oms' -> (forall o, In o oms -> om_wf n o) ->
  (forall i, (1 <= i <= n)%nat -> nth_error v i = Some (mu i) /\ - K <= mu i <= K) ->
  forall now, exists r, bf_leaf oms' v now = Ok r /\
    match r with
    | Some s => exists b, s = now + b /\ om_best oms mu b
    | None => forall b, ~ om_val oms mu b
    end.
Proof.
  intros HK HF HW Hv. induction HF as [|o o' oms oms' HR _ IH]; intros now; cbn [bf_leaf].
  - exists (Some now). split; auto. exists 0. split; [lia|]. split; [reflexivity|]. cbn. intros; lia.
  - destruct (HW o (or_introl eq_refl)) as (W1 & W2 & W3 & W4 & W5 & W6).
    rewrite (pr_i _ _ HR), (pr_j _ _ HR), (pr_u _ _ HR).
    destruct (Hv _ W4) as [A1 A2]. destruct (Hv _ W5) as [B1 B2].
    rewrite (vget_ok _ _ _ A1). cbn [bind]. rewrite (vget_ok _ _ _ B1). cbn [bind].
    rewrite ck_ok by (unfold INT_MIN, INT_MAX in *; lia). cbn [bind].
    set (d := mu (o_i o) - mu (o_j o)) in *.
    destruct (Z.ltb_spec (o_u o) d) as [C|C].
    + exists None. split; auto. cbn [om_val]. intros b (w & v' & X1 & X2 & _). unfold d in C. lia.
    + destruct (pr_fn _ _ HR d C) as (c & Ec & (w & X1 & X2 & X3) & X4). rewrite Ec. cbn [bind].
      destruct (IH (fun x Hx => HW x (or_intror Hx)) (dadd now c)) as (r & Er & Hr). exists r. split; auto.
      cbn [dadd exact_ops] in Hr. destruct r as [s|].
      * destruct Hr as (b & -> & Hb1 & Hb2). exists (c + b). split; [lia|]. split; cbn [om_val].
        -- exists w, b. rewrite X3. auto.
        -- intros v' (w' & v2 & Y1 & Y2 & Y3 & ->). specialize (Hb2 _ Y3). specialize (X4 w' Y1 Y2). lia.
      * cbn [om_val]. intros b (w' & v2 & Y1 & Y2 & Y3 & ->). apply (Hr _ Y3).
Qed.

(** [ret'] is the least of [ret] and the elements of [S] *)
Definition least (S : Z -> Prop) (ret ret' : option Z) : Prop :=
  match ret' with
  | None => ret = None /\ forall z, ~ S z
  | Some v => (ret = Some v \/ S v) /\ (forall z, S z -> v <= z) /\ (forall w, ret = Some w -> v <= w)
  end.

Lemma least_trans (S1 S2 S : Z -> Prop) r0 r1 r2 : least S1 r0 r1 -> least S2 r1 r2 ->
  (forall z, S z <-> S1 z \/ S2 z) -> least S r0 r2.
Proof.
  unfold least. intros H1 H2 HS. destruct r2 as [v2|].
  - destruct H2 as (A & B & C). destruct r1 as [v1|].
    + destruct H1 as (A1 & B1 & C1). specialize (C v1 eq_refl).
      assert (F1 : forall z, S1 z -> v2 <= z) by (intros z Hz; specialize (B1 z Hz); lia).
      split; [|split].
      * destruct A as [A|A]; [inversion A; subst; destruct A1 as [A1|A1]; [auto|right; apply HS; auto]|right; apply HS; auto].
      * intros z Hz. apply HS in Hz. destruct Hz; auto.
      * intros w Hw. specialize (C1 w Hw). lia.
    + destruct H1 as (A1 & B1). split; [|split].
      * destruct A as [A|A]; [discriminate|right; apply HS; auto].
      * intros z Hz. apply HS in Hz. destruct Hz as [Hz|Hz]; [destruct (B1 _ Hz)|auto].
      * intros w Hw. congruence.
  - destruct H2 as [A B]. subst r1. destruct H1 as [A1 B1]. split; auto. intros z Hz. apply HS in Hz. destruct Hz as [Hz|Hz]; [apply (B1 _ Hz)|apply (B _ Hz)].
Qed.

Lemma least_empty (S : Z -> Prop) r : (forall z, ~ S z) -> least S r r.
Proof.
  intros H. unfold least. destruct r as [v|]; auto. split; auto. split; [intros z Hz; destruct (H _ Hz)|].
  intros w E. inversion E. lia.
Qed.

Lemma least_ext (S S' : Z -> Prop) r r' : (forall z, S z <-> S' z) -> least S r r' -> least S' r r'.
Proof.
  intros H. unfold least. destruct r' as [v|].
  - intros (A & B & C). split; [destruct A as [A|A]; [auto|right; apply H; auto]|]. split; auto. intros z Hz. apply B, H; auto.
  - intros (A & B). split; auto. intros z Hz. apply (B z), H; auto.
Qed.

Section Run.
Variables (n : nat) (mus : list (MuLimit Z)) (oms oms' : list (OmegaLimit Z)) (K : Z) (fuel : nat).
Hypothesis HK : 2 * K + 1 <= INT_MAX.
Hypothesis HFuel : 2 * K + 1 <= Z.of_nat fuel.
Hypothesis Hlen : length mus = (n + 1)%nat.
Hypothesis Hmu : forall i m, (1 <= i <= n)%nat -> nth_error mus i = Some m -> mu_wf m.
Hypothesis HmuK : forall i m, (1 <= i <= n)%nat -> nth_error mus i = Some m -> - K <= m_l m /\ m_u m <= K.
Hypothesis HW : forall o, In o oms -> om_wf n o.
Hypothesis HF : Forall2 pre_rel oms oms'.

(** values of completions of the first [p] node values [mu0] *)
Definition comp (p : nat) (mu0 : nat -> Z) (now : Z) (z : Z) : Prop :=
  exists mu b, (forall i, (1 <= i <= p)%nat -> mu i = mu0 i) /\ (forall i, (p < i <= n)%nat -> mu_bound mus i (mu i)) /\
    om_best oms mu b /\ z = now + sumZ (map (mu_cost mus mu) (seq (S p) (n - p))) + b.

Lemma om_val_ext l mu mu' v : (forall o, In o l -> om_wf n o) -> (forall i, (1 <= i <= n)%nat -> mu i = mu' i) ->
  om_val l mu v -> om_val l mu' v.
Proof.
  intros HWl HE. revert v. induction l as [|o l IH]; intros v; cbn [om_val]; auto.
  intros (w & v' & W1 & W2 & H & E). destruct (HWl o (or_introl eq_refl)) as (_ & _ & _ & Q1 & Q2 & _).
  exists w, v'. rewrite <- !HE by auto. split; auto. split; auto. split; auto. apply IH; auto. intros; apply HWl; simpl; auto.
Qed.

Lemma om_best_ext mu mu' v : (forall i, (1 <= i <= n)%nat -> mu i = mu' i) -> om_best oms mu v -> om_best oms mu' v.
Proof.
  intros HE [A B]. split; [eapply om_val_ext; eauto|]. intros v' Hv. apply B. eapply om_val_ext; [exact HW| |exact Hv].
  intros i Hi. symmetry. auto.
Qed.

Definition vrep (p : nat) (v : list Z) (mu0 : nat -> Z) : Prop :=
  length v = (n + 1)%nat /\ forall i, (1 <= i <= p)%nat -> nth_error v i = Some (mu0 i).

Lemma bf_dfs_ok : forall k p, (p + k = n)%nat -> forall v mu0 now ret,
  vrep p v mu0 -> (forall i, (1 <= i <= p)%nat -> - K <= mu0 i <= K) ->
  exists v' ret', bf_dfs fuel mus oms' k p v now ret = Ok (v', ret') /\ vrep p v' mu0 /\ least (comp p mu0 now) ret ret'.
Proof.
  induction k as [|k IH]; intros p Hp v mu0 now ret [Hv1 Hv2] HB; cbn [bf_dfs].
  - replace p with n in * by lia. clear p Hp.
    destruct (bf_leaf_ok n oms oms' v mu0 K ltac:(lia) HF HW ltac:(auto) now) as (r & Er & Hr). rewrite Er. cbn [bind].
    assert (Hcomp : forall z, comp n mu0 now z <-> exists b, om_best oms mu0 b /\ z = now + b).
    { intros z. unfold comp. rewrite Nat.sub_diag. cbn [seq map sumZ]. split.
      - intros (mu & b & A1 & _ & A3 & ->). exists b. split; [|lia]. eapply om_best_ext; [|exact A3]. auto.
      - intros (b & A & ->). exists mu0, b. split; auto. split; [lia|]. split; auto. lia. }
    destruct r as [s|].
    + destruct Hr as (b & -> & Hb).
      assert (Huniq : forall z, comp n mu0 now z <-> z = now + b).
      { intros z. rewrite Hcomp. split; [|eauto]. intros (b2 & [X1 X2] & ->). destruct Hb as [Y1 Y2].
        specialize (X2 _ Y1). specialize (Y2 _ X1). lia. }
      eexists _, _. split; [reflexivity|]. split; [split; auto|]. unfold dmin. cbn [dlt exact_ops].
      destruct ret as [w|].
      * destruct (Z.ltb_spec (now + b) w).
        -- split; [right; apply Huniq; lia|]. split; [intros z Hz; apply Huniq in Hz; lia|]. intros w' E; inversion E; lia.
        -- split; [left; auto|]. split; [intros z Hz; apply Huniq in Hz; lia|]. intros w' E; inversion E; lia.
      * split; [right; apply Huniq; lia|]. split; [intros z Hz; apply Huniq in Hz; lia|]. intros w' E; discriminate.
    + eexists _, _. split; [reflexivity|]. split; [split; auto|]. apply least_empty. intros z Hz. apply Hcomp in Hz.
      destruct Hz as (b & [Hb _] & _). apply (Hr b Hb).
  - destruct (nth_error mus (S p)) as [m|] eqn:Em; [|apply nth_error_None in Em; lia].
    rewrite (vget_ok _ _ _ Em). cbn [bind].
    destruct (Hmu (S p) m ltac:(lia) Em) as (M1 & M2 & M3). destruct (HmuK (S p) m ltac:(lia) Em) as [B1 B2].
    set (rec := fun v now ret => bf_dfs fuel mus oms' k (S p) v now ret).
    set (S_ := fun i z => comp (S p) (fup mu0 (S p) i) (now + cost (m_fn m) i) z).
    assert (Loop : forall c f i v ret, Z.of_nat c = m_u m + 1 - i -> (c <= f)%nat -> m_l m <= i -> vrep p v mu0 ->
      exists v' ret', bf_range f rec m (S p) i v now ret = Ok (v', ret') /\ vrep p v' mu0 /\
        least (fun z => exists j, i <= j <= m_u m /\ S_ j z) ret ret').
    { induction c as [|c IHc]; intros f i v1 ret1 Hc Hf Hi [Hw1 Hw2].
      - assert (Hvs : vset v1 (S p) i = Ok (upd v1 (S p) i)) by (apply vset_ok; lia).
        destruct f as [|f]; cbn [bf_range]; rewrite Hvs; cbn [bind]; (destruct (Z.leb_spec i (m_u m)); [lia|]);
        (eexists _, _; split; [reflexivity|]; split;
          [split; [rewrite upd_length; auto|intros a Ha; rewrite nth_error_upd_neq by lia; auto]|
           apply least_empty; intros z (j & Hj & _); lia]).
      - destruct f as [|f]; [lia|]. cbn [bf_range].
        rewrite vset_ok by lia. cbn [bind]. destruct (Z.leb_spec i (m_u m)); [|lia].
        rewrite (cost_ok _ _ _ i M2) by lia. cbn [bind].
        destruct (IH (S p) ltac:(lia) (upd v1 (S p) i) (fup mu0 (S p) i) (dadd now (cost (m_fn m) i)) ret1) as (v2 & r2 & E2 & V2 & L2).
        { split; [rewrite upd_length; auto|]. intros a Ha. destruct (Nat.eq_dec a (S p)) as [->|].
          - rewrite fup_eq. apply nth_error_upd_eq. lia.
          - rewrite nth_error_upd_neq, fup_neq by auto. apply Hw2. lia. }
        { intros a Ha. destruct (Nat.eq_dec a (S p)) as [->|]; [rewrite fup_eq; lia|rewrite fup_neq by auto; apply HB; lia]. }
        unfold rec at 1. rewrite E2. cbn [bind].
        rewrite ck_ok by (unfold INT_MIN, INT_MAX in *; lia). cbn [bind].
        destruct (IHc f (i + 1) v2 r2 ltac:(lia) ltac:(lia) ltac:(lia)) as (v3 & r3 & E3 & V3 & L3).
        { destruct V2 as [V2a V2b]. split; auto. intros a Ha. rewrite V2b by lia. rewrite fup_neq by lia. reflexivity. }
        exists v3, r3. split; auto. split; auto.
        eapply least_trans; [exact L2|exact L3|]. intros z. split.
        + intros (j & Hj & Hz). destruct (Z.eq_dec j i) as [->|]; [left; exact Hz|right; exists j; split; [lia|auto]].
        + intros [Hz|(j & Hj & Hz)]; [exists i; split; [lia|exact Hz]|exists j; split; [lia|auto]]. }
    destruct (Loop (Z.to_nat (m_u m + 1 - m_l m)) fuel (m_l m) v ret) as (v' & ret' & E & V & L); try lia; [split; auto|].
    exists v', ret'. split; auto. split; auto. eapply least_ext; [|exact L].
    intros z. unfold S_, comp. replace (n - p)%nat with (S (n - S p)) by lia. cbn [seq map sumZ]. split.
    + intros (j & Hj & mu & b & A1 & A2 & A3 & ->). exists mu, b. split.
      { intros i Hi. rewrite A1 by lia. apply fup_neq. lia. }
      assert (Ej : mu (S p) = j) by (rewrite A1 by lia; apply fup_eq).
      split.
      { intros i Hi. destruct (Nat.eq_dec i (S p)) as [->|]; [|apply A2; lia]. exists m. split; auto. lia. }
      split; auto. assert (Ec : mu_cost mus mu (S p) = cost (m_fn m) j) by (unfold mu_cost; rewrite Em, Ej; reflexivity). lia.
    + intros (mu & b & A1 & A2 & A3 & ->). destruct (A2 (S p) ltac:(lia)) as (m' & Em' & Bm). rewrite Em in Em'. inversion Em'; subst m'.
      exists (mu (S p)). split; [lia|]. exists mu, b. split.
      { intros i Hi. destruct (Nat.eq_dec i (S p)) as [->|]; [rewrite fup_eq; auto|rewrite fup_neq by auto; apply A1; lia]. }
      split; [intros; apply A2; lia|]. split; auto.
      assert (Ec : mu_cost mus mu (S p) = cost (m_fn m) (mu (S p))) by (unfold mu_cost; rewrite Em; reflexivity). lia.
Qed.

(** every feasible mu has a best omega part *)
Lemma om_best_exists mu v : om_val oms mu v -> (forall i, (1 <= i <= n)%nat -> - K <= mu i <= K) -> exists b, om_best oms mu b /\ b <= v.
Proof.
  intros Hv HB.
  destruct (bf_leaf_ok n oms oms' (map mu (seq 0 (n + 1))) mu K ltac:(lia) HF HW) with (now := 0) as (r & _ & Hr).
  { intros i Hi. split; auto. rewrite nth_error_map. rewrite (nth_error_nth' (seq 0 (n + 1)) 0%nat) by (rewrite seq_length; lia).
    rewrite seq_nth by lia. reflexivity. }
  destruct r as [s|]; [|destruct (Hr _ Hv)]. destruct Hr as (b & _ & Hb). exists b. split; auto. apply Hb; auto.
Qed.

Lemma comp_attains z : comp 0 (fun _ => 0) 0 z -> attains n mus oms z.
Proof.
  intros (mu & b & _ & A2 & [A3 _] & ->). apply attains_iff. exists mu, b. split; [intros i Hi; apply A2; lia|]. split; auto.
  unfold mu_part. replace (n - 0)%nat with n by lia. lia.
Qed.

Lemma attains_comp v : attains n mus oms v -> exists z, comp 0 (fun _ => 0) 0 z /\ z <= v.
Proof.
  intros H. apply attains_iff in H. destruct H as (mu & v' & H1 & H2 & ->).
  destruct (om_best_exists mu v' H2) as (b & Hb & Hle).
  { intros i Hi. destruct (H1 i Hi) as (m & Em & Bm). destruct (HmuK i m Hi Em). lia. }
  exists (0 + mu_part n mus mu + b). split; [|lia]. exists mu, b. split; [lia|]. split; [intros i Hi; apply H1; lia|]. split; auto.
  unfold mu_part. replace (n - 0)%nat with n by lia. reflexivity.
Qed.

End Run.

Theorem bf_solve_ok n mus oms K fuel :
  well_formed n mus oms -> bounded_by n mus oms K -> 2 * K + 1 <= INT_MAX -> 2 * K + 32 <= Z.of_nat fuel -> 0 <= K ->
  exists r, bf_solve fuel n mus oms = Ok r /\ solution n mus oms r.
Proof.
  intros (Hlen & Hmu & Hom) (BM & BO) HK Hf HK0. unfold bf_solve.
  destruct (bf_prepare_ok fuel n oms K ltac:(lia) ltac:(lia) Hom BO) as (oms' & Ep & HF). rewrite Ep. cbn [bind].
  destruct (bf_dfs_ok n mus oms oms' K fuel HK ltac:(lia) Hlen Hmu BM Hom HF n 0 eq_refl (repeat 0 (n + 1)) (fun _ => 0) 0 None)
    as (v' & ret' & E & _ & L).
  { split; [apply repeat_length|intros; lia]. }
  { intros; lia. }
  cbn [dzero exact_ops]. rewrite E. cbn [bind]. exists ret'. split; auto. apply solution_iff.
  destruct ret' as [v|].
  - destruct L as (A & B & _). destruct A as [A|A]; [discriminate|]. split; [apply (comp_attains n mus oms fuel Hlen); auto|].
    intros w Hw. destruct (attains_comp n mus oms oms' K fuel HK Hlen BM Hom HF w Hw) as (z & Hz & Hle). specialize (B z Hz). lia.
  - destruct L as (_ & B). intros w Hw. destruct (attains_comp n mus oms oms' K fuel HK Hlen BM Hom HF w Hw) as (z & Hz & _). apply (B z Hz).
Qed.

End BF.
