(** * Problems that differ by little have optimal solutions close to each other *)
From Verif Require Import Base BaseLemmas Data ProblemDefine Sums Spec FracSpec ProxSpec FracProof SpecLemmas SolverProof SolverProps ExampleData ProblemSolver Convex FlowOpt LatticeProof.
Local Open Scope Z_scope.

Lemma slopes_run F l u F' l' u' : slopes_follow F l u F' l' u' -> convex_on F' l' u' -> l' <= l + 1 -> u' <= u + 1 ->
  forall t : nat, forall a e, l <= a -> a + Z.of_nat t <= u -> l' <= e -> e + Z.of_nat t <= u' -> a + 1 <= e ->
  F (a + Z.of_nat t) - F a <= F' (e + Z.of_nat t) - F' e.
Proof.
  intros HS HC Hl Hu. induction t as [|t IH]; intros a e H1 H2 H3 H4 H5; [rewrite !Z.add_0_r; lia|].
  assert (IH' := IH a e ltac:(lia) ltac:(lia) ltac:(lia) ltac:(lia) ltac:(lia)).
  assert (S1 := HS (a + Z.of_nat (S t)) ltac:(lia) ltac:(lia)).
  assert (D := diff_mono F' l' u' (a + Z.of_nat (S t)) (e + Z.of_nat t) HC ltac:(lia) ltac:(lia) ltac:(lia)).
  replace (a + Z.of_nat (S t) - 1) with (a + Z.of_nat t) in S1 by lia. replace (e + Z.of_nat (S t)) with (e + Z.of_nat t + 1) by lia. lia.
Qed.

Lemma slopes_gap F l u F' l' u' a c e d : slopes_follow F l u F' l' u' -> convex_on F' l' u' -> l' <= l + 1 -> u' <= u + 1 ->
  l <= a <= c -> c <= u -> l' <= e -> d <= u' -> a + 1 <= e -> d - e = c - a -> F c - F a <= F' d - F' e.
Proof.
  intros HS HC Hl Hu H1 H2 H3 H4 H5 H6. assert (X := slopes_run F l u F' l' u' HS HC Hl Hu (Z.to_nat (c - a)) a e).
  replace (a + Z.of_nat (Z.to_nat (c - a))) with c in X by lia. replace (e + Z.of_nat (Z.to_nat (c - a))) with d in X by lia. apply X; lia.
Qed.

(** the two values between x and y *)
Definition upper (x y : Z) : Z := Z.max x (y - 1).
Definition lower (x y : Z) : Z := Z.min (x + 1) y.

Lemma mu_exchange m m' x y : mu_step m m' -> mu_wf m' -> m_l m <= x <= m_u m -> m_l m' <= y <= m_u m' ->
  m_l m <= upper x y <= m_u m /\ m_l m' <= lower x y <= m_u m' /\
  cost (m_fn m) (upper x y) + cost (m_fn m') (lower x y) <= cost (m_fn m) x + cost (m_fn m') y.
Proof.
  intros (Hl & Hu & S1 & S2) (_ & _ & HC) Hx Hy. unfold upper, lower. split; [lia|split; [lia|]].
  destruct (Z.le_gt_cases (y - 1) x) as [C|C]; [rewrite Z.max_l, Z.min_r by lia; lia|rewrite Z.max_r, Z.min_l by lia].
  assert (X := slopes_gap _ _ _ _ _ _ x (y - 1) (x + 1) y S1 HC ltac:(lia) ltac:(lia) ltac:(lia) ltac:(lia) ltac:(lia) ltac:(lia) ltac:(lia) ltac:(lia)). lia.
Qed.

(** the two differences are exchanged *)
Definition crossed (xi xj yi yj : Z) : Prop :=
  upper xi yi - upper xj yj = yi - yj /\ lower xi yi - lower xj yj = xi - xj.

Lemma om_exchange n o o' xi xj yi yj a b : om_step o o' -> om_wf n o -> om_wf n o' ->
  o_l o <= a <= o_u o -> o_l o' <= b <= o_u o' -> xi - xj <= a -> yi - yj <= b ->
  crossed xi xj yi yj \/
  exists c d, o_l o <= c <= o_u o /\ o_l o' <= d <= o_u o' /\ upper xi yi - upper xj yj <= c /\ lower xi yi - lower xj yj <= d /\
    cost (o_fn o) c + cost (o_fn o') d <= cost (o_fn o) a + cost (o_fn o') b.
Proof.
  intros (_ & _ & Hl & Hu & S1 & S2) (_ & _ & HC & _) (_ & _ & HC' & _) Ha Hb Da Db. unfold crossed, upper, lower.
  destruct (Z.le_gt_cases (yi - 1) xi) as [Ci|Ci]; [rewrite (Z.max_l xi), (Z.min_r (xi + 1)) by lia|rewrite (Z.max_r xi), (Z.min_l (xi + 1)) by lia];
  (destruct (Z.le_gt_cases (yj - 1) xj) as [Cj|Cj]; [rewrite (Z.max_l xj), (Z.min_r (xj + 1)) by lia|rewrite (Z.max_r xj), (Z.min_l (xj + 1)) by lia]).
  - right. exists a, b. repeat split; lia.
  - (* only j *)
    destruct (Z.eq_dec (xi - (yj - 1)) (yi - yj)) as [E|N]; [left; lia|right].
    destruct (Z.le_gt_cases (yi - (xj + 1)) b) as [C|C]; [exists a, b; repeat split; lia|].
    exists (a - (yi - (xj + 1) - b)), (yi - (xj + 1)). repeat split; try lia.
    assert (X := slopes_gap _ _ _ _ _ _ b (yi - (xj + 1)) (a - (yi - (xj + 1) - b)) a S2 HC ltac:(lia) ltac:(lia) ltac:(lia) ltac:(lia) ltac:(lia) ltac:(lia) ltac:(lia) ltac:(lia)). lia.
  - (* only i *)
    destruct (Z.eq_dec (xi + 1 - yj) (xi - xj)) as [E|N]; [left; lia|right].
    destruct (Z.le_gt_cases (yi - 1 - xj) a) as [C|C]; [exists a, b; repeat split; lia|].
    exists (yi - 1 - xj), (b - (yi - 1 - xj - a)). repeat split; try lia.
    assert (X := slopes_gap _ _ _ _ _ _ a (yi - 1 - xj) (b - (yi - 1 - xj - a)) b S1 HC' ltac:(lia) ltac:(lia) ltac:(lia) ltac:(lia) ltac:(lia) ltac:(lia) ltac:(lia) ltac:(lia)). lia.
  - left. lia.
Qed.

Lemma convex_follow F l u : convex_on F l u -> slopes_follow F l u F l u.
Proof. intros HC z H1 H2. specialize (HC z ltac:(lia)). lia. Qed.

Lemma limit_step_refl F l u : convex_on F l u -> limit_step F l u F l u.
Proof. intros HC. split; [lia|split; [lia|split; apply convex_follow; exact HC]]. Qed.
Lemma om_step_refl n o : om_wf n o -> om_step o o.
Proof. intros (_ & _ & HC & _). split; [reflexivity|split; [reflexivity|]]. apply limit_step_refl. exact HC. Qed.
Lemma mu_step_refl m : mu_wf m -> mu_step m m.
Proof. intros (_ & _ & HC). apply limit_step_refl. exact HC. Qed.

Lemma limit_step_sym F l u F' l' u' : limit_step F l u F' l' u' -> limit_step F' l' u' F l u.
Proof. intros (H1 & H2 & H3 & H4). split; [lia|split; [lia|split; assumption]]. Qed.
Lemma mu_step_sym m m' : mu_step m m' -> mu_step m' m.
Proof. apply limit_step_sym. Qed.
Lemma om_step_sym o o' : om_step o o' -> om_step o' o.
Proof. intros (H1 & H2 & H3). split; [auto|split; [auto|apply limit_step_sym; exact H3]]. Qed.
Lemma mus_step_sym n mus mus' : mus_step n mus mus' -> mus_step n mus' mus.
Proof. intros H i m m' Hi E E'. apply mu_step_sym. eapply H; eassumption. Qed.
Lemma oms_step_sym k oms oms' : oms_step k oms oms' -> oms_step k oms' oms.
Proof.
  intros (H1 & H2 & H3). split; [auto|split].
  - intros j Hj. symmetry. apply H2. exact Hj.
  - intros o o' E E'. apply om_step_sym. apply H3; assumption.
Qed.
Lemma one_step_sym n mus oms mus' oms' : one_step n mus oms mus' oms' -> one_step n mus' oms' mus oms.
Proof.
  intros [[H ->]|[-> (k & H)]]; [left; split; [apply mus_step_sym; exact H|reflexivity]|right; split; [reflexivity|]].
  exists k. apply oms_step_sym. exact H.
Qed.

Section Two.
Variables (n : nat) (mus mus' : list (MuLimit Z)) (oms oms' : list (OmegaLimit Z)).
Hypothesis HW : well_formed n mus oms.
Hypothesis HW' : well_formed n mus' oms'.

Definition ups (x y : nat -> Z) : nat -> Z := fun i => upper (x i) (y i).
Definition lows (x y : nat -> Z) : nat -> Z := fun i => lower (x i) (y i).

(** the cost does not rise when x and y are replaced by p and q *)
Definition exchanged (x a y b p q : nat -> Z) : Prop :=
  exists c d, feasible n mus oms p c /\ feasible n mus' oms' q d /\
    total_cost n mus oms p c + total_cost n mus' oms' q d <= total_cost n mus oms x a + total_cost n mus' oms' y b.

(** put together from the parts *)
Lemma collect x a y b p q : length oms' = length oms ->
  (forall i m m', (1 <= i <= n)%nat -> nth_error mus i = Some m -> nth_error mus' i = Some m' ->
     m_l m <= p i <= m_u m /\ m_l m' <= q i <= m_u m' /\
     cost (m_fn m) (p i) + cost (m_fn m') (q i) <= cost (m_fn m) (x i) + cost (m_fn m') (y i)) ->
  (forall k o o', nth_error oms k = Some o -> nth_error oms' k = Some o' ->
     exists c d, o_l o <= c <= o_u o /\ o_l o' <= d <= o_u o' /\ p (o_i o) - p (o_j o) <= c /\ q (o_i o') - q (o_j o') <= d /\
     cost (o_fn o) c + cost (o_fn o') d <= cost (o_fn o) (a k) + cost (o_fn o') (b k)) ->
  exchanged x a y b p q.
Proof.
  intros HL HM HO. destruct HW as (L & _ & _). destruct HW' as (L' & _ & _).
  destruct (choose_omegas (fun k c d => forall o o', nth_error oms k = Some o -> nth_error oms' k = Some o' ->
    o_l o <= c <= o_u o /\ o_l o' <= d <= o_u o' /\ p (o_i o) - p (o_j o) <= c /\ q (o_i o') - q (o_j o') <= d /\
    cost (o_fn o) c + cost (o_fn o') d <= cost (o_fn o) (a k) + cost (o_fn o') (b k)) (length oms)) as (c & d & HCD).
  { intros k Hk. destruct (nth_error oms k) as [o|] eqn:E; [|apply nth_error_None in E; lia].
    destruct (nth_error oms' k) as [o'|] eqn:E'; [|apply nth_error_None in E'; lia].
    destruct (HO k o o' E E') as (c & d & H). exists c, d. intros o1 o2 [= <-] [= <-]. exact H. }
  exists c, d. split; [|split].
  - split.
    + intros i Hi. destruct (nth_error mus i) as [m|] eqn:E; [|apply nth_error_None in E; lia].
      destruct (nth_error mus' i) as [m'|] eqn:E'; [|apply nth_error_None in E'; lia]. exists m. split; [exact E|]. apply (HM i m m' Hi E E').
    + intros k o E. assert (k < length oms)%nat by (apply nth_error_Some; congruence). destruct (nth_error oms' k) as [o'|] eqn:E'; [|apply nth_error_None in E'; lia].
      destruct (HCD k ltac:(lia) o o' E E') as (H1 & H2 & H3 & H4 & _). split; assumption.
  - split.
    + intros i Hi. destruct (nth_error mus i) as [m|] eqn:E; [|apply nth_error_None in E; lia].
      destruct (nth_error mus' i) as [m'|] eqn:E'; [|apply nth_error_None in E'; lia]. exists m'. split; [exact E'|]. apply (HM i m m' Hi E E').
    + intros k o' E'. assert (k < length oms')%nat by (apply nth_error_Some; congruence). destruct (nth_error oms k) as [o|] eqn:E; [|apply nth_error_None in E; lia].
      destruct (HCD k ltac:(lia) o o' E E') as (H1 & H2 & H3 & H4 & _). split; assumption.
  - unfold total_cost. rewrite !sumZ_zsum, HL.
    assert (P1 : zsum (seq 1 n) (mu_cost mus p) + zsum (seq 1 n) (mu_cost mus' q) <= zsum (seq 1 n) (mu_cost mus x) + zsum (seq 1 n) (mu_cost mus' y)).
    { rewrite <- !zsum_add. apply zsum_le. intros i Hi. apply in_seq in Hi. unfold mu_cost.
      destruct (nth_error mus i) as [m|] eqn:E; [|apply nth_error_None in E; lia].
      destruct (nth_error mus' i) as [m'|] eqn:E'; [|apply nth_error_None in E'; lia]. apply (HM i m m' ltac:(lia) E E'). }
    assert (P2 : zsum (seq 0 (length oms)) (om_cost oms c) + zsum (seq 0 (length oms)) (om_cost oms' d) <=
                 zsum (seq 0 (length oms)) (om_cost oms a) + zsum (seq 0 (length oms)) (om_cost oms' b)).
    { rewrite <- !zsum_add. apply zsum_le. intros k Hk. apply in_seq in Hk. unfold om_cost.
      destruct (nth_error oms k) as [o|] eqn:E; [|apply nth_error_None in E; lia].
      destruct (nth_error oms' k) as [o'|] eqn:E'; [|apply nth_error_None in E'; lia]. apply (HCD k ltac:(lia) o o' E E'). }
    lia.
Qed.

Lemma exchange x a y b : one_step n mus oms mus' oms' -> feasible n mus oms x a -> feasible n mus' oms' y b ->
  exchanged x a y b (ups x y) (lows x y) \/ exchanged x a y b (lows x y) (ups x y).
Proof.
  intros HS [A1 A2] [B1 B2]. destruct HW as (_ & WM & WO). destruct HW' as (_ & WM' & WO').
  assert (MU : forall i m m', (1 <= i <= n)%nat -> nth_error mus i = Some m -> nth_error mus' i = Some m' -> mu_step m m' ->
     m_l m <= ups x y i <= m_u m /\ m_l m' <= lows x y i <= m_u m' /\
     cost (m_fn m) (ups x y i) + cost (m_fn m') (lows x y i) <= cost (m_fn m) (x i) + cost (m_fn m') (y i)).
  { intros i m m' Hi E E' H. destruct (A1 i Hi) as (m1 & E1 & X1). rewrite E in E1. injection E1 as <-.
    destruct (B1 i Hi) as (m2 & E2 & X2). rewrite E' in E2. injection E2 as <-. apply mu_exchange; try assumption. apply (WM' i); assumption. }
  assert (OM : forall k o o', nth_error oms k = Some o -> nth_error oms' k = Some o' -> om_step o o' ->
     crossed (x (o_i o)) (x (o_j o)) (y (o_i o)) (y (o_j o)) \/
     exists c d, o_l o <= c <= o_u o /\ o_l o' <= d <= o_u o' /\ ups x y (o_i o) - ups x y (o_j o) <= c /\ lows x y (o_i o') - lows x y (o_j o') <= d /\
     cost (o_fn o) c + cost (o_fn o') d <= cost (o_fn o) (a k) + cost (o_fn o') (b k)).
  { intros k o o' E E' H. destruct (A2 k o E) as [Ha Da]. destruct (B2 k o' E') as [Hb Db]. assert (H0 := H). destruct H0 as (Ei & Ej & _).
    rewrite Ei, Ej in *. apply (om_exchange n); try assumption; [apply WO|apply WO']; eapply nth_error_In; eassumption. }
  (* an unchanged omega limit *)
  assert (SAME : forall k o, nth_error oms k = Some o -> nth_error oms' k = Some o ->
     exists c d, o_l o <= c <= o_u o /\ o_l o <= d <= o_u o /\ ups x y (o_i o) - ups x y (o_j o) <= c /\ lows x y (o_i o) - lows x y (o_j o) <= d /\
     cost (o_fn o) c + cost (o_fn o) d <= cost (o_fn o) (a k) + cost (o_fn o) (b k)).
  { intros k o E E'. destruct (OM k o o E E' (om_step_refl n o (WO o (nth_error_In _ _ E)))) as [[C1 C2]|H]; [|exact H].
    destruct (A2 k o E) as [Ha Da]. destruct (B2 k o E') as [Hb Db]. exists (b k), (a k). unfold ups, lows. rewrite C1, C2. repeat split; lia. }
  destruct HS as [[HM HO]|[HM (k & HL & HO & HK)]].
  - left. apply collect; [rewrite HO; reflexivity| |].
    + intros i m m' Hi E E'. apply MU; try assumption. apply (HM i); assumption.
    + intros k o o' E E'. assert (o' = o) by (rewrite HO in E'; congruence). subst o'. apply SAME; assumption.
  - assert (MS : forall i m m', (1 <= i <= n)%nat -> nth_error mus i = Some m -> nth_error mus' i = Some m' -> m' = m /\ mu_step m m').
    { intros i m m' Hi E E'. rewrite HM, E in E'. injection E' as <-. split; [reflexivity|]. apply mu_step_refl. apply (WM i); assumption. }
    assert (G : (exists o o', nth_error oms k = Some o /\ nth_error oms' k = Some o' /\ crossed (x (o_i o)) (x (o_j o)) (y (o_i o)) (y (o_j o))) \/
      (forall o o', nth_error oms k = Some o -> nth_error oms' k = Some o' ->
       exists c d, o_l o <= c <= o_u o /\ o_l o' <= d <= o_u o' /\ ups x y (o_i o) - ups x y (o_j o) <= c /\ lows x y (o_i o') - lows x y (o_j o') <= d /\
       cost (o_fn o) c + cost (o_fn o') d <= cost (o_fn o) (a k) + cost (o_fn o') (b k))).
    { destruct (nth_error oms k) as [o|] eqn:E; [|right; discriminate]. destruct (nth_error oms' k) as [o'|] eqn:E'; [|right; discriminate].
      destruct (OM k o o' E E' (HK o o' eq_refl eq_refl)) as [C|C]; [left; exists o, o'; auto|right]. intros o1 o2 [= <-] [= <-]. exact C. }
    destruct G as [(o & o' & Eo & Eo' & C1 & C2)|G].
    + right. apply collect; [exact HL| |].
      * intros i m m' Hi E E'. destruct (MS i m m' Hi E E') as [-> HSt]. destruct (MU i m m Hi E E' HSt) as (H1 & H2 & H3). split; [exact H2|split; [exact H1|lia]].
      * intros j p p' E E'. destruct (Nat.eq_dec j k) as [->|N].
        -- rewrite Eo in E. injection E as <-. rewrite Eo' in E'. injection E' as <-. destruct (A2 k o Eo) as [Ha Da]. destruct (B2 k o' Eo') as [Hb Db].
           destruct (HK o o' Eo Eo') as (Ei & Ej & _). exists (a k), (b k). unfold ups, lows. rewrite Ei, Ej in *. rewrite C1, C2. repeat split; lia.
        -- rewrite HO in E' by exact N. rewrite E in E'. injection E' as <-. destruct (SAME j p E ltac:(rewrite HO; assumption)) as (c & d & H1 & H2 & H3 & H4 & H5).
           exists d, c. repeat split; lia.
    + left. apply collect; [exact HL| |].
      * intros i m m' Hi E E'. destruct (MS i m m' Hi E E') as [_ HSt]. apply MU; assumption.
      * intros j p p' E E'. destruct (Nat.eq_dec j k) as [->|N]; [apply G; assumption|].
        rewrite HO in E' by exact N. rewrite E in E'. injection E' as <-. apply SAME; [exact E|rewrite HO; assumption].
Qed.
End Two.

(** ** Moving an optimal solution of one problem towards one of the other *)
Section Close.
Variables (n : nat) (mus mus' : list (MuLimit Z)) (oms oms' : list (OmegaLimit Z)).
Hypothesis HW : well_formed n mus oms.
Hypothesis HW' : well_formed n mus' oms'.
Hypothesis HS : one_step n mus oms mus' oms'.
Variables (v v' : Z).
Hypothesis HO : optimum n mus oms v.
Hypothesis HO' : optimum n mus' oms' v'.
Variable x : nat -> Z.
Hypothesis HX : solves n mus oms v x.

Lemma from_above y : solves n mus' oms' v' y -> solves n mus' oms' v' (lows x y) \/ solves n mus' oms' v' (ups x y).
Proof.
  intros (b & Fb & Cb). destruct HX as (a & Fa & Ca).
  destruct (exchange n mus mus' oms oms' HW HW' x a y b HS Fa Fb) as [(c & d & F1 & F2 & H)|(c & d & F1 & F2 & H)];
  [left|right]; exists d; (split; [exact F2|]); assert (Y1 := proj2 HO _ _ F1); assert (Y2 := proj2 HO' _ _ F2); lia.
Qed.

Lemma from_below y : solves n mus' oms' v' y -> solves n mus' oms' v' (ups y x) \/ solves n mus' oms' v' (lows y x).
Proof.
  intros (b & Fb & Cb). destruct HX as (a & Fa & Ca).
  destruct (exchange n mus' mus oms' oms HW' HW y b x a (one_step_sym _ _ _ _ _ HS) Fb Fa) as [(c & d & F1 & F2 & H)|(c & d & F1 & F2 & H)];
  [left|right]; exists c; (split; [exact F1|]); assert (Y1 := proj2 HO' _ _ F1); assert (Y2 := proj2 HO _ _ F2); lia.
Qed.

Definition above (y : nat -> Z) : Z := zsum (seq 1 n) (fun i => Z.max 0 (y i - x i - 1)).
Definition below (y : nat -> Z) : Z := zsum (seq 1 n) (fun i => Z.max 0 (x i - y i - 1)).

Lemma zero_terms (f : nat -> Z) l : (forall i, In i l -> 0 <= f i) -> zsum l f <= 0 -> forall i, In i l -> f i = 0.
Proof.
  induction l as [|j l IH]; intros H0 HZ i Hi; [destruct Hi|]. cbn [zsum] in HZ. assert (X := H0 j ltac:(left; reflexivity)).
  assert (Y : 0 <= zsum l f). { replace 0 with (zsum l (fun _ => 0)); [apply zsum_le; intros; apply H0; right; assumption|apply zsum_zero; reflexivity]. }
  destruct Hi as [<-|Hi]; [lia|]. apply IH; [intros; apply H0; right; assumption|lia|exact Hi].
Qed.

Lemma strict (f g : nat -> Z) l : (forall i, In i l -> f i <= g i) -> (exists i, In i l /\ f i < g i) -> zsum l f < zsum l g.
Proof.
  induction l as [|j l IH]; intros H (i & Hi & Hlt); [destruct Hi|]. cbn [zsum]. assert (X := H j ltac:(left; reflexivity)).
  destruct Hi as [->|Hi].
  - assert (Y : zsum l f <= zsum l g) by (apply zsum_le; intros; apply H; right; assumption). lia.
  - assert (Y := IH ltac:(intros; apply H; right; assumption) ltac:(exists i; auto)). lia.
Qed.

Lemma some_far (f : nat -> Z) : forall l, (exists i, In i l /\ 0 < f i) \/ (forall i, In i l -> f i <= 0).
Proof.
  induction l as [|j l IH]; [right; intros i []|]. destruct (Z.lt_ge_cases 0 (f j)) as [C|C]; [left; exists j; split; [left; reflexivity|exact C]|].
  destruct IH as [(i & Hi & H)|H]; [left; exists i; split; [right; exact Hi|exact H]|right]. intros i [<-|Hi]; [exact C|exact (H i Hi)].
Qed.

Lemma lower_it : forall k : nat, forall y, solves n mus' oms' v' y -> above y <= Z.of_nat k ->
  exists y', solves n mus' oms' v' y' /\ forall i, (1 <= i <= n)%nat -> y' i <= x i + 1.
Proof.
  induction k as [|k IH]; intros y Hy Hk.
  - exists y. split; [exact Hy|]. intros i Hi. assert (Z0 := zero_terms (fun i => Z.max 0 (y i - x i - 1)) (seq 1 n) ltac:(intros; lia) Hk i ltac:(apply in_seq; lia)). cbv beta in Z0. lia.
  - destruct (some_far (fun i => y i - x i - 1) (seq 1 n)) as [F|F].
    + destruct (from_above y Hy) as [H|H]; (apply (IH _ H); unfold above in *).
      * enough (zsum (seq 1 n) (fun i => Z.max 0 (lows x y i - x i - 1)) < zsum (seq 1 n) (fun i => Z.max 0 (y i - x i - 1))) by lia.
        apply strict; [intros i _; unfold lows, lower; lia|]. destruct F as (i & Hi & Hp). exists i. split; [exact Hi|]. unfold lows, lower. lia.
      * enough (zsum (seq 1 n) (fun i => Z.max 0 (ups x y i - x i - 1)) < zsum (seq 1 n) (fun i => Z.max 0 (y i - x i - 1))) by lia.
        apply strict; [intros i _; unfold ups, upper; lia|]. destruct F as (i & Hi & Hp). exists i. split; [exact Hi|]. unfold ups, upper. lia.
    + exists y. split; [exact Hy|]. intros i Hi. specialize (F i ltac:(apply in_seq; lia)). cbv beta in F. lia.
Qed.

Lemma raise_it : forall k : nat, forall y, solves n mus' oms' v' y -> (forall i, (1 <= i <= n)%nat -> y i <= x i + 1) -> below y <= Z.of_nat k ->
  exists y', solves n mus' oms' v' y' /\ moved_by n 1 x y'.
Proof.
  induction k as [|k IH]; intros y Hy HU Hk.
  - exists y. split; [exact Hy|]. intros i Hi. specialize (HU i Hi). assert (Z0 := zero_terms (fun i => Z.max 0 (x i - y i - 1)) (seq 1 n) ltac:(intros; lia) Hk i ltac:(apply in_seq; lia)). cbv beta in Z0. lia.
  - destruct (some_far (fun i => x i - y i - 1) (seq 1 n)) as [F|F].
    + destruct (from_below y Hy) as [H|H]; (apply (IH _ H); [intros i Hi; specialize (HU i Hi); unfold ups, upper, lows, lower; lia|unfold below in *]).
      * enough (zsum (seq 1 n) (fun i => Z.max 0 (x i - ups y x i - 1)) < zsum (seq 1 n) (fun i => Z.max 0 (x i - y i - 1))) by lia.
        apply strict; [intros i _; unfold ups, upper; lia|]. destruct F as (i & Hi & Hp). exists i. split; [exact Hi|]. unfold ups, upper. lia.
      * enough (zsum (seq 1 n) (fun i => Z.max 0 (x i - lows y x i - 1)) < zsum (seq 1 n) (fun i => Z.max 0 (x i - y i - 1))) by lia.
        apply strict; [intros i _; unfold lows, lower; lia|]. destruct F as (i & Hi & Hp). exists i. split; [exact Hi|]. unfold lows, lower. lia.
    + exists y. split; [exact Hy|]. intros i Hi. specialize (HU i Hi). specialize (F i ltac:(apply in_seq; lia)). cbv beta in F. lia.
Qed.

Theorem close_by : exists y, solves n mus' oms' v' y /\ moved_by n 1 x y.
Proof.
  destruct HO' as [(y & b & Fb & Cb) _]. destruct (lower_it (Z.to_nat (above y)) y ltac:(exists b; auto) ltac:(lia)) as (y1 & H1 & U1).
  apply (raise_it (Z.to_nat (below y1)) y1 H1 U1). lia.
Qed.
End Close.

Section Runs.
Variable one : Z.
Hypothesis H1 : 0 < one.

Theorem run_close n mus oms mus' oms' K fuel v v' :
  admissible n mus oms K -> admissible n mus' oms' K -> one_step n mus oms mus' oms' ->
  solver_fuel n (length oms) K <= Z.of_nat fuel ->
  @run_solver Z (exact_ops one) fuel (Z.of_nat n) mus oms = Ok (Some v) ->
  @run_solver Z (exact_ops one) fuel (Z.of_nat n) mus' oms' = Ok (Some v') ->
  forall mu, solves n mus oms v mu -> exists mu', solves n mus' oms' v' mu' /\ moved_by n 1 mu mu'.
Proof.
  intros HA HA' HS HF Hr Hr' mu HX. assert (L : length oms' = length oms) by (destruct HS as [[_ ->]|[_ (k & L & _)]]; [reflexivity|exact L]).
  apply (close_by n mus mus' oms oms' (proj1 HA) (proj1 HA') HS v v'); [| |exact HX].
  - exact (solve_optimum one H1 n mus oms K fuel v HA HF Hr).
  - apply (solve_optimum one H1 n mus' oms' K fuel v' HA'); [rewrite L; exact HF|exact Hr'].
Qed.

Theorem run_steps n K k mus oms mus' oms' : steps n K k mus oms mus' oms' -> forall fuel v v',
  admissible n mus oms K -> solver_fuel n (length oms) K <= Z.of_nat fuel ->
  @run_solver Z (exact_ops one) fuel (Z.of_nat n) mus oms = Ok (Some v) ->
  @run_solver Z (exact_ops one) fuel (Z.of_nat n) mus' oms' = Ok (Some v') ->
  forall mu, solves n mus oms v mu -> exists mu', solves n mus' oms' v' mu' /\ moved_by n (Z.of_nat k) mu mu'.
Proof.
  induction 1 as [mus oms|k mus oms mus1 oms1 mus' oms' HS HA1 (mu1 & om1 & F1) HT IH]; intros fuel v v' HA HF Hr Hr' mu HX.
  - rewrite Hr in Hr'. injection Hr' as <-. exists mu. split; [exact HX|]. intros i Hi. lia.
  - assert (L : length oms1 = length oms) by (destruct HS as [[_ ->]|[_ (j & L & _)]]; [reflexivity|exact L]).
    assert (HF1 : solver_fuel n (length oms1) K <= Z.of_nat fuel) by (rewrite L; exact HF).
    destruct (solve_solution one H1 n mus1 oms1 K fuel HA1 HF1) as ([v1|] & E1 & S1); [|exfalso; exact (S1 _ _ F1)].
    destruct (run_close n mus oms mus1 oms1 K fuel v v1 HA HA1 HS HF Hr E1 mu HX) as (nu & HN & W).
    destruct (IH fuel v1 v' HA1 HF1 E1 Hr' nu HN) as (mu' & Hm & W'). exists mu'. split; [exact Hm|].
    intros i Hi. specialize (W i Hi). specialize (W' i Hi). lia.
Qed.
End Runs.

(** ** Common steps *)
(** a convex cost moved by one *)
Lemma moved_follow F l u l' u' : convex_on F (Z.min l (l' - 1)) (Z.max u (u' - 1)) -> limit_step F l u (fun z => F (z - 1)) l' u' <-> Z.abs (l - l') <= 1 /\ Z.abs (u - u') <= 1.
Proof.
  intros HC. unfold limit_step, slopes_follow. split; [tauto|]. intros [Hl Hu]. split; [exact Hl|split; [exact Hu|split]].
  - intros z _ _. replace (z + 1 - 1) with z by lia. lia.
  - intros z A B. cbv beta. assert (D := diff_mono F _ _ (z - 1 - 1) z HC ltac:(lia) ltac:(lia) ltac:(lia)). replace (z - 1 - 1 + 1) with (z - 1) in D by lia. lia.
Qed.

(** another range for the same cost *)
Lemma range_follow F l u l' u' : convex_on F (Z.min l l') (Z.max u u') -> limit_step F l u F l' u' <-> Z.abs (l - l') <= 1 /\ Z.abs (u - u') <= 1.
Proof.
  intros HC. unfold limit_step, slopes_follow. split; [tauto|]. intros [Hl Hu]. split; [exact Hl|split; [exact Hu|split]];
  intros z A B; assert (D := diff_mono F _ _ (z - 1) z HC ltac:(lia) ltac:(lia) ltac:(lia)); replace (z - 1 + 1) with z in D by lia; lia.
Qed.
