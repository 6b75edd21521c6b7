(** * Correctness of ProblemSolver *)
From Verif Require Import Base BaseLemmas Data ProblemDefine Flow ProblemSolver.
From Verif Require Import Sums NetMath Spec FlowSpec Convex FlowNet PDProof FlowPhase FlowNew FlowOpt SolverNet.
Local Open Scope Z_scope.

Section Calc.
Variable one : Z.
#[local] Hint Extern 0 (DataOps Z) => exact (exact_ops one) : typeclass_instances.

Variable fuel : nat.
Hypothesis Hfuel : (31 < fuel)%nat.

Definition hi (o : OmegaLimit Z) : Z := Z.max (cost (o_fn o) (o_l o)) (cost (o_fn o) (o_u o)).
Definition lo (o : OmegaLimit Z) : Z := match limit_min fuel o with Ok v => v | Err _ => 0 end.

Lemma lo_ok n K R o : K <= INT_MAX -> R <= INT_MAX -> lgood n K R o ->
  limit_min fuel o = Ok (lo o) /\ (forall x, o_l o <= x <= o_u o -> lo o <= cost (o_fn o) x) /\
  (exists x, o_l o <= x <= o_u o /\ cost (o_fn o) x = lo o).
Proof.
  intros HK HR [A1 A2 A3 A4 A5 A6 A7 A8].
  destruct (limit_min_ok one fuel o Hfuel A1) as (p & E & B1 & B2); auto.
  { unfold int_range, INT_MIN, INT_MAX in *. lia. }
  unfold lo. rewrite E. split; auto. split; [intros; apply B2; auto|eauto].
Qed.

(** ProblemSolver.cpp:89-99 *)
Lemma calc_ok n K R limits : K <= INT_MAX -> 0 <= R <= INT_MAX -> (forall o, In o limits -> lgood n K R o) ->
  exists U, calc fuel limits = Ok (zsum limits hi, one + zsum limits (fun o => hi o - lo o), U) /\
    0 <= U <= R /\ forall o, In o limits -> o_u o - o_l o <= U.
Proof.
  intros HK HR HG. unfold calc.
  destruct (for_each_inv (fun pre (st : Z * Z * Z) => let '(vmax, M, U) := st in
      vmax = zsum pre hi /\ M = one + zsum pre (fun o => hi o - lo o) /\ 0 <= U <= R /\ forall o, In o pre -> o_u o - o_l o <= U)
    (fun '(vmax, M, U) it =>
      a <- o_fn it (o_l it) ;; b <- o_fn it (o_u it) ;;
      mi <- limit_min fuel it ;;
      d <- ck (o_u it - o_l it) ;;
      Ok (dadd vmax (dmax a b), dadd M (dsub (dmax a b) mi), Z.max U d)) limits (dzero, done, 0)) as ([[vmax M] U] & E & H1 & H2 & H3 & H4).
  - cbn [dzero done exact_ops]. split; [reflexivity|]. split; [simpl; lia|]. split; [lia|]. intros o [].
  - intros pre o post [[vmax M] U] Epre (H1 & H2 & H3 & H4).
    assert (G : lgood n K R o) by (apply HG; rewrite Epre; apply in_or_app; simpl; auto).
    destruct (lo_ok n K R o HK ltac:(lia) G) as (El & _). destruct G as [A1 A2 A3 A4 A5 A6 A7 A8].
    rewrite (cost_ok _ _ _ (o_l o) A2) by lia. cbn [bind]. rewrite (cost_ok _ _ _ (o_u o) A2) by lia. cbn [bind].
    rewrite El. cbn [bind]. rewrite ck_ok by (unfold INT_MIN, INT_MAX in *; lia). cbn [bind].
    eexists. split; [reflexivity|]. cbn [dadd dsub exact_ops]. rewrite !zsum_app. cbn [zsum].
    assert (Eh : dmax (cost (o_fn o) (o_l o)) (cost (o_fn o) (o_u o)) = hi o).
    { unfold dmax, hi. cbn [dlt exact_ops]. destruct (Z.ltb_spec (cost (o_fn o) (o_l o)) (cost (o_fn o) (o_u o))); lia. }
    rewrite Eh. split; [lia|]. split; [lia|]. split; [lia|].
    intros o2 H. apply in_app_or in H. destruct H as [H|[<-|[]]]; [specialize (H4 _ H)|]; lia.
  - exists U. subst. split; [exact E|auto].
Qed.

Lemma sat_or L nu : sat L nu \/ exists o, In o L /\ ~ sat1 nu o.
Proof.
  induction L as [|o L [IH|(o' & I1 & I2)]].
  - left. intros o [].
  - destruct (Z_le_dec (o_l o) (diff nu o)) as [H1|H1]; [destruct (Z_le_dec (diff nu o) (o_u o)) as [H2|H2]|].
    + left. rewrite sat_cons. split; [split; auto|auto].
    + right. exists o. split; [simpl; auto|unfold sat1; lia].
    + right. exists o. split; [simpl; auto|unfold sat1; lia].
  - right. exists o'. simpl. auto.
Qed.

Section Penalty.
Variables (n : nat) (K R M : Z) (L : list (OmegaLimit Z)).
Hypothesis HK : K <= INT_MAX.
Hypothesis HR : R <= INT_MAX.
Hypothesis HG : forall o, In o L -> lgood n K R o.
Hypothesis HM : 0 <= M.

Lemma network_cost_sat nu : sat L nu -> network_cost M L nu = lcost L nu.
Proof.
  intros H. unfold network_cost, lcost. rewrite sumZ_zsum. apply zsum_ext. intros o Ho.
  rewrite penalised_fext by apply (lg_lu _ _ _ _ (HG o Ho)). rewrite fext_in by apply (H o Ho). reflexivity.
Qed.

Lemma lcost_le nu : sat L nu -> lcost L nu <= zsum L hi.
Proof.
  intros H. apply zsum_le. intros o Ho. apply convex_max; [apply (lg_conv _ _ _ _ (HG o Ho))|apply (H o Ho)].
Qed.

Lemma network_cost_ge nu : zsum L lo <= network_cost M L nu.
Proof.
  unfold network_cost. rewrite sumZ_zsum. apply zsum_le. intros o Ho. assert (G := HG o Ho).
  rewrite penalised_fext by apply (lg_lu _ _ _ _ G). apply fext_ge; auto; [apply (lg_lu _ _ _ _ G)|].
  apply (lo_ok n K R); auto.
Qed.

End Penalty.

Lemma network_cost_viol n K R M L nu o :
  K <= INT_MAX -> R <= INT_MAX -> (forall o, In o L -> lgood n K R o) -> 0 <= M ->
  In o L -> ~ sat1 nu o -> zsum L lo + M <= network_cost M L nu.
Proof.
  intros HK HR HG HM Ho Hv. apply in_split in Ho. destruct Ho as (l1 & l2 & ->).
  assert (G := proj1 (forall_insert _ _ _ _) HG). destruct G as [G1 G2].
  assert (A := network_cost_ge n K R M (l1 ++ l2) HK HR G2 HM nu).
  unfold network_cost in *. rewrite sumZ_zsum in *. rewrite !zsum_app in *. cbn [zsum].
  enough (lo o + M <= penalised M o (nu (o_i o) - nu (o_j o))) by lia.
  rewrite penalised_fext by apply (lg_lu _ _ _ _ G1). apply fext_violated; auto; [apply (lg_lu _ _ _ _ G1)|].
  apply (lo_ok n K R); auto.
Qed.

(** the threshold test decides feasibility *)
Lemma threshold n K R M vmax L v :
  0 < one -> K <= INT_MAX -> R <= INT_MAX -> (forall o, In o L -> lgood n K R o) ->
  vmax = zsum L hi -> M = one + zsum L (fun o => hi o - lo o) -> 0 <= M ->
  network_min M L v ->
  (v <= vmax -> (exists nu, sat L nu /\ lcost L nu = v) /\ forall nu, sat L nu -> v <= lcost L nu) /\
  (vmax < v -> forall nu, ~ sat L nu).
Proof.
  intros H1 HK HR HG E1 E2 HM [(nu0 & E0) Hmin]. rewrite zsum_sub in E2. split.
  - intros Hv. split.
    + exists nu0. destruct (sat_or L nu0) as [S0|(o & O1 & O2)].
      * split; auto. rewrite <- (network_cost_sat n K R M) by auto. auto.
      * exfalso. assert (A := network_cost_viol n K R M L nu0 o HK HR HG HM O1 O2). lia.
    + intros nu Hs. rewrite <- (network_cost_sat n K R M) by auto. apply Hmin.
  - intros Hv nu Hs. assert (A := lcost_le n K R L HG nu Hs). assert (B := Hmin nu).
    rewrite (network_cost_sat n K R M) in B by auto. lia.
Qed.

Lemma slopes_ok n K R M L : K <= INT_MAX -> R <= INT_MAX -> (forall o, In o L -> lgood n K R o) -> 0 <= one ->
  M = one + zsum L (fun o => hi o - lo o) -> 0 <= M /\ forall o, In o L -> limit_ok n M K o.
Proof.
  intros HK HR HG H1 EM.
  assert (Hp : forall o, In o L -> 0 <= hi o - lo o).
  { intros o Ho. assert (G := HG o Ho). destruct (lo_ok n K R o HK HR G) as (_ & B & _).
    specialize (B (o_l o)). assert (X := lg_lu _ _ _ _ G). unfold hi. lia. }
  assert (HM : 0 <= M) by (assert (A := zsum_nonneg L (fun o => hi o - lo o) Hp); lia).
  split; auto. intros o Ho.
  assert (Hle : hi o - lo o <= M).
  { subst M. apply in_split in Ho. destruct Ho as (l1 & l2 & E). subst L. rewrite zsum_app. cbn [zsum].
    assert (A1 := zsum_nonneg l1 (fun o => hi o - lo o) ltac:(intros; apply Hp, in_or_app; auto)).
    assert (A2 := zsum_nonneg l2 (fun o => hi o - lo o) ltac:(intros; apply Hp, in_or_app; simpl; auto)). lia. }
  assert (G := HG o Ho). destruct (lo_ok n K R o HK HR G) as (_ & B & _). destruct G as [A1 A2 A3 A4 A5 A6 A7 A8].
  constructor; auto. constructor; auto. intros t Ht.
  assert (C1 := B t ltac:(lia)). assert (C2 := B (t + 1) ltac:(lia)).
  assert (C3 := convex_max _ _ _ t A3 ltac:(lia)). assert (C4 := convex_max _ _ _ (t + 1) A3 ltac:(lia)).
  fold (hi o) in C3, C4. lia.
Qed.

End Calc.

Lemma Forall2_in_r {A B} (P : A -> B -> Prop) l l' : Forall2 P l l' -> forall y, In y l' -> exists x, In x l /\ P x y.
Proof.
  induction 1 as [|x y l l' H _ IH]; intros z Hz; [destruct Hz|].
  destruct Hz as [<-|Hz]; [exists x; simpl; auto|]. destruct (IH z Hz) as (w & W1 & W2). exists w. simpl. auto.
Qed.

Section Solver.
Variable one : Z.
#[local] Hint Extern 0 (DataOps Z) => exact (exact_ops one) : typeclass_instances.

(** ProblemSolver.cpp:24-26 *)
Lemma check_mus_ok n (mus : list (MuLimit Z)) : length mus = (n + 1)%nat -> forall d i fuel, (i + d = n + 1)%nat -> (d <= fuel)%nat ->
  exists b, check_mus fuel (Z.of_nat n) mus i = Ok b /\
    (b = true <-> forall k m, (i <= k <= n)%nat -> nth_error mus k = Some m -> m_l m <= m_u m).
Proof.
  intros Hl. induction d as [|d IH]; intros i fuel Hi Hf.
  - assert (E : (Z.of_nat n <? Z.of_nat i) = true) by (apply Z.ltb_lt; lia).
    exists true. split; [destruct fuel; cbn [check_mus]; rewrite E; reflexivity|]. split; auto. intros; lia.
  - destruct fuel as [|fuel]; [lia|]. cbn [check_mus].
    destruct (Z.ltb_spec (Z.of_nat n) (Z.of_nat i)); [lia|].
    destruct (nth_error mus i) as [m|] eqn:Em; [|apply nth_error_None in Em; lia].
    rewrite (vget_ok _ _ _ Em). cbn [bind].
    destruct (Z.leb_spec (m_l m) (m_u m)) as [H1|H1].
    + destruct (IH (S i) fuel ltac:(lia) ltac:(lia)) as (b & Eb & Hb). exists b. split; auto. rewrite Hb. split.
      * intros HA k m' Hk Hm. destruct (Nat.eq_dec k i) as [->|]; [congruence|]. apply (HA k m'); auto. lia.
      * intros HA k m' Hk Hm. apply (HA k m'); auto. lia.
    + exists false. split; auto. split; [discriminate|]. intros HA. specialize (HA i m ltac:(lia) Em). lia.
Qed.

Section WF.
Variables (n : nat) (mus : list (MuLimit Z)) (K : Z) (fuel : nat).
Hypothesis HK0 : 0 <= K.
Hypothesis HK : 3 * K <= INT_MAX.
Hypothesis Hfuel : (31 < fuel)%nat.
Hypothesis Hlen : length mus = (n + 1)%nat.
Hypothesis Hmu : forall i m, (1 <= i <= n)%nat -> nth_error mus i = Some m -> mu_wf m.
Hypothesis HmuK : forall i m, (1 <= i <= n)%nat -> nth_error mus i = Some m -> - K <= m_l m /\ m_u m <= K.

(** smallest possible mu_i - mu_j *)
Definition low (o : OmegaLimit Z) : Z :=
  match nth_error mus (o_i o), nth_error mus (o_j o) with
  | Some a, Some b => m_l a - m_u b
  | _, _ => 0
  end.

(** what the constructor makes of one omega limit *)
Record om_rel (o o' : OmegaLimit Z) : Prop := {
  or_i : o_i o' = o_i o;
  or_j : o_j o' = o_j o;
  or_l : o_l o' = low o;
  or_u : o_u o' = o_u o;
  or_fn : forall d, d <= o_u o -> exists v, o_fn o' d = Ok v /\ bestcost (cost (o_fn o)) (o_l o) (o_u o) d v
}.

(** ProblemSolver.cpp:28-38 *)
Lemma check_omega_ok o : om_wf n o -> - K <= o_l o -> o_u o <= K ->
  exists r, check_omega fuel (Z.of_nat n) mus o = Ok r /\
    match r with
    | None => o_u o < low o
    | Some o' => om_rel o o' /\ lgood n (2 * K) (3 * K) o'
    end.
Proof.
  intros (W1 & W2 & W3 & W4 & W5 & W6) HL HU. unfold check_omega.
  assert (E1 : (1 <=? Z.of_nat (o_i o)) && (Z.of_nat (o_i o) <=? Z.of_nat n) = true)
    by (rewrite andb_true_iff, !Z.leb_le; lia).
  assert (E2 : (1 <=? Z.of_nat (o_j o)) && (Z.of_nat (o_j o) <=? Z.of_nat n) = true)
    by (rewrite andb_true_iff, !Z.leb_le; lia).
  rewrite E1, E2. cbn [negb]. destruct (Nat.eqb_spec (o_i o) (o_j o)); [congruence|].
  destruct (Z.leb_spec (o_l o) (o_u o)); [|lia]. cbn [negb].
  destruct (pre_processing_ok one fuel o Hfuel W1) as (o1 & Ep & P1 & P2 & P3 & P4 & P5 & P6 & P7); auto.
  { unfold int_range, INT_MIN, INT_MAX in *. lia. }
  rewrite Ep. cbn [bind]. rewrite P3, P4.
  destruct (nth_error mus (o_i o)) as [a|] eqn:Ea; [|apply nth_error_None in Ea; lia].
  destruct (nth_error mus (o_j o)) as [b|] eqn:Eb; [|apply nth_error_None in Eb; lia].
  rewrite (vget_ok _ _ _ Ea). cbn [bind]. rewrite (vget_ok _ _ _ Eb). cbn [bind].
  assert (Ba := HmuK _ _ W4 Ea). assert (Bb := HmuK _ _ W5 Eb).
  destruct (Hmu _ _ W4 Ea) as (Wa & _). destruct (Hmu _ _ W5 Eb) as (Wb & _).
  assert (El : low o = m_l a - m_u b) by (unfold low; rewrite Ea, Eb; reflexivity).
  rewrite ck_ok by (unfold INT_MIN, INT_MAX in *; lia). cbn [bind]. cbn [o_u]. rewrite P2.
  assert (HF : forall d, d <= o_u o -> exists v, o_fn o1 d = Ok v /\ bestcost (cost (o_fn o)) (o_l o) (o_u o) d v).
  { intros d Hd. destruct (P5 d Hd) as (w & Hw & E & B). eauto. }
  destruct (Z.leb_spec (m_l a - m_u b) (o_u o)) as [C|C].
  - eexists. split; [reflexivity|]. cbv beta iota. split.
    + constructor; cbn [o_i o_j o_l o_u o_fn]; auto.
    + constructor; cbn [o_i o_j o_l o_u o_fn]; try lia; auto.
      intros d Hd. destruct (HF d ltac:(lia)) as (v & E & _). eauto.
  - eexists. split; [reflexivity|]. cbv beta iota. lia.
Qed.

Lemma check_omegas_ok oms : (forall o, In o oms -> om_wf n o) -> (forall o, In o oms -> - K <= o_l o /\ o_u o <= K) ->
  exists r, check_omegas fuel (Z.of_nat n) mus oms = Ok r /\
    match r with
    | None => exists o, In o oms /\ o_u o < low o
    | Some oms' => Forall2 om_rel oms oms' /\ forall o, In o oms' -> lgood n (2 * K) (3 * K) o
    end.
Proof.
  induction oms as [|o oms IH]; intros HW HB; cbn [check_omegas].
  - exists (Some []). split; auto. split; [constructor|intros o []].
  - destruct (check_omega_ok o) as (r & Er & Hr); try (apply HW || apply HB; simpl; auto).
    rewrite Er. cbn [bind]. destruct r as [o'|].
    + destruct IH as (r & Es & Hs); [intros; apply HW; simpl; auto|intros; apply HB; simpl; auto|].
      rewrite Es. cbn [bind]. destruct r as [l|].
      * eexists. split; [reflexivity|]. cbv beta iota. destruct Hr as [H1 H2], Hs as [H3 H4]. split; [constructor; auto|].
        intros x [<-|Hx]; auto.
      * eexists. split; [reflexivity|]. cbv beta iota. destruct Hs as (x & X1 & X2). exists x. simpl. auto.
    + eexists. split; [reflexivity|]. cbv beta iota. exists o. simpl. auto.
Qed.

Definition in_bounds (mu : nat -> Z) : Prop := forall i, (1 <= i <= n)%nat -> mu_bound mus i (mu i).

Lemma low_le mu o : in_bounds mu -> om_wf n o -> low o <= diff mu o.
Proof using.
  clear HK0 HK Hfuel Hlen Hmu HmuK.
  intros HB (_ & _ & _ & W4 & W5 & _). unfold low, diff.
  destruct (HB _ W4) as (a & Ea & Ba). destruct (HB _ W5) as (b & Eb & Bb). rewrite Ea, Eb. lia.
Qed.

(** an omega part for a given mu *)
Definition om_feasible (oms : list (OmegaLimit Z)) (mu om : nat -> Z) : Prop :=
  forall k o, nth_error oms k = Some o -> o_l o <= om k <= o_u o /\ mu (o_i o) - mu (o_j o) <= om k.

Definition om_total (oms : list (OmegaLimit Z)) (om : nat -> Z) : Z :=
  sumZ (map (om_cost oms om) (seq 0 (length oms))).

Lemma om_total_cons o oms om : om_total (o :: oms) om = cost (o_fn o) (om 0%nat) + om_total oms (fun k => om (S k)).
Proof using.
  clear HK0 HK Hfuel Hlen Hmu HmuK.
  unfold om_total. cbn [length seq map sumZ]. f_equal. rewrite <- seq_shift, map_map. reflexivity.
Qed.

Lemma om_feasible_cons o oms mu om : om_feasible (o :: oms) mu om <->
  (o_l o <= om 0%nat <= o_u o /\ diff mu o <= om 0%nat) /\ om_feasible oms mu (fun k => om (S k)).
Proof using.
  clear HK0 HK Hfuel Hlen Hmu HmuK.
  unfold om_feasible. split.
  - intros H. split; [apply (H 0%nat o eq_refl)|]. intros k x Hk. apply (H (S k) x Hk).
  - intros [H1 H2] [|k] x Hk; [inversion Hk; subst; apply H1|apply (H2 k x Hk)].
Qed.

Lemma om_exists oms oms' mu : Forall2 om_rel oms oms' -> sat oms' mu ->
  exists om, om_feasible oms mu om /\ om_total oms om = lcost oms' mu.
Proof using.
  clear HK0 HK Hfuel Hlen Hmu HmuK.
  induction 1 as [|o o' oms oms' HR _ IH]; intros Hs.
  - exists (fun _ => 0). split; [|reflexivity]. intros [|k] o Hk; discriminate.
  - apply sat_cons in Hs. destruct Hs as [S1 S2]. destruct (IH S2) as (om & F & T).
    assert (Ed : diff mu o' = diff mu o) by (unfold diff; rewrite (or_i _ _ HR), (or_j _ _ HR); reflexivity).
    unfold sat1 in S1. rewrite (or_u _ _ HR), Ed in S1.
    destruct (or_fn _ _ HR (diff mu o) ltac:(lia)) as (v & Ev & (w & W1 & W2 & W3) & _).
    exists (fun k => match k with O => w | S k => om k end). split.
    + apply om_feasible_cons. split; [auto|exact F].
    + rewrite om_total_cons. change (fun k : nat => om k) with om. rewrite T, W3. unfold lcost. cbn [zsum].
      f_equal. unfold cost1, cost. rewrite Ed, Ev. reflexivity.
Qed.

Lemma om_best oms oms' mu om : Forall2 om_rel oms oms' -> (forall o, In o oms -> om_wf n o) -> in_bounds mu -> om_feasible oms mu om ->
  sat oms' mu /\ lcost oms' mu <= om_total oms om.
Proof using.
  clear HK0 HK Hfuel Hlen Hmu HmuK.
  intros HF HW HB. revert om. induction HF as [|o o' oms oms' HR HF IH]; intros om Ho.
  - split; [intros o []|]. unfold lcost, om_total. simpl. lia.
  - apply om_feasible_cons in Ho. destruct Ho as [H1 H2].
    destruct (IH (fun x Hx => HW x (or_intror Hx)) _ H2) as [I1 I2].
    assert (Ed : diff mu o' = diff mu o) by (unfold diff; rewrite (or_i _ _ HR), (or_j _ _ HR); reflexivity).
    assert (HL := low_le mu o HB (HW o (or_introl eq_refl))). split.
    + apply sat_cons. split; auto. unfold sat1. rewrite (or_u _ _ HR), (or_l _ _ HR), Ed. lia.
    + rewrite om_total_cons. unfold lcost. cbn [zsum]. fold (lcost oms' mu).
      destruct (or_fn _ _ HR (diff mu o) ltac:(lia)) as (v & Ev & _ & Hv).
      specialize (Hv (om 0%nat) ltac:(lia) ltac:(lia)).
      assert (cost1 mu o' = v) by (unfold cost1, cost; rewrite Ed, Ev; reflexivity). lia.
Qed.

(** the limits mu_i - mu_0 *)
Lemma mu_limit_good i : (1 <= i <= n)%nat -> lgood n (2 * K) (3 * K) (mu_limit mus i).
Proof using HK0 Hlen Hmu HmuK.
  clear HK Hfuel.
  intros Hi. unfold mu_limit. destruct (nth_error mus i) as [m|] eqn:Em; [|apply nth_error_None in Em; lia].
  destruct (Hmu _ _ Hi Em) as (W1 & W2 & W3). assert (B := HmuK _ _ Hi Em).
  constructor; cbn [o_i o_j o_l o_u o_fn]; auto; lia.
Qed.

Lemma mu_limits_sat nu : sat (map (mu_limit mus) (seq 1 n)) nu <-> in_bounds (fun i => nu i - nu 0%nat).
Proof using Hlen.
  clear HK0 HK Hfuel Hmu HmuK.
  unfold sat, in_bounds, mu_bound. split.
  - intros H i Hi. destruct (nth_error mus i) as [m|] eqn:Em; [|apply nth_error_None in Em; lia].
    assert (X : sat1 nu (mu_limit mus i)) by (apply H, in_map, in_seq; lia).
    unfold mu_limit in X. rewrite Em in X. exists m. split; auto.
  - intros H o Ho. apply in_map_iff in Ho. destruct Ho as (i & <- & Hi). apply in_seq in Hi.
    destruct (H i ltac:(lia)) as (m & Em & B). unfold mu_limit. rewrite Em. exact B.
Qed.

Lemma mu_limits_cost nu : lcost (map (mu_limit mus) (seq 1 n)) nu =
  sumZ (map (mu_cost mus (fun i => nu i - nu 0%nat)) (seq 1 n)).
Proof using Hlen.
  clear HK0 HK Hfuel Hmu HmuK.
  unfold lcost. rewrite zsum_map, sumZ_zsum. apply zsum_ext. intros i Hi. apply in_seq in Hi.
  unfold mu_limit, mu_cost. destruct (nth_error mus i) as [m|] eqn:Em; [|apply nth_error_None in Em; lia]. reflexivity.
Qed.

End WF.

(** explicit fuel bound; [k] is the number of omega limits *)
Definition solver_fuel (n k : nat) (K : Z) : Z := flow_fuel n (k + n) (2 * K).

Lemma flow_fuel_mono n m m' K : 0 <= K -> (m <= m')%nat -> flow_fuel n m K <= flow_fuel n m' K.
Proof.
  intros HK Hm. unfold flow_fuel, phase_work. assert (HD := Dn_pos n).
  assert (0 <= Z.of_nat n * (Dn n * K + 1) / 1) by (rewrite Z.div_1_r; nia).
  nia.
Qed.

Lemma near_good n mus oms K U o o' : near n mus oms K U -> In o oms -> om_wf n o -> length mus = (n + 1)%nat ->
  om_rel mus o o' -> forall K' R', lgood n K' R' o' -> lgood n K U o'.
Proof.
  intros [_ HN] Ho (_ & _ & _ & W4 & W5 & _) Hlen HR K' R' [G1 G2 G3 G4 G5 _ _ _].
  destruct (nth_error mus (o_i o)) as [a|] eqn:Ea; [|apply nth_error_None in Ea; lia].
  destruct (nth_error mus (o_j o)) as [b|] eqn:Eb; [|apply nth_error_None in Eb; lia].
  destruct (HN o a b Ho Ea Eb) as (N1 & N2 & N3).
  assert (El : o_l o' = m_l a - m_u b) by (rewrite (or_l _ _ _ HR); unfold low; rewrite Ea, Eb; reflexivity).
  assert (Eu := or_u _ _ _ HR). constructor; auto; lia.
Qed.

Lemma near_mu_good n mus oms K U i : near n mus oms K U -> length mus = (n + 1)%nat -> (1 <= i <= n)%nat ->
  (forall i m, (1 <= i <= n)%nat -> nth_error mus i = Some m -> mu_wf m) -> lgood n K U (mu_limit mus i).
Proof.
  intros [HN _] Hlen Hi Hmu. unfold mu_limit. destruct (nth_error mus i) as [m|] eqn:Em; [|apply nth_error_None in Em; lia].
  destruct (Hmu _ _ Hi Em) as (W1 & W2 & W3). destruct (HN _ _ Hi Em) as (B1 & B2 & B3).
  constructor; cbn [o_i o_j o_l o_u o_fn]; auto; lia.
Qed.

Lemma bit_ceil_mono x y : 0 <= x <= y -> bit_ceil x <= bit_ceil y.
Proof. intros H. unfold bit_ceil. apply Z.pow_le_mono_r; [lia|]. apply Z.log2_up_le_mono. lia. Qed.

Theorem run_solver_gen n mus oms Bd K R fuel :
  0 < one -> well_formed n mus oms -> bounded_by n mus oms Bd -> 0 <= Bd -> 3 * Bd <= INT_MAX ->
  near n mus oms K R -> flow_fits n K R ->
  flow_fuel n (length oms + n) K <= Z.of_nat fuel ->
  exists r, run_solver fuel (Z.of_nat n) mus oms = Ok r /\ solution n mus oms r.
Proof.
  intros H1 (Hlen & Hmu & Hom) (BM & BO) HB0 HK3 HNear (FR & HK & FK & FN & FR4 & FB) Hfuel.
  assert (HN1 : 1 <= Z.of_nat (n + 1)) by lia.
  assert (HD : Dn n <= INT_MAX) by (unfold Dn; lia).
  assert (Hn : Z.of_nat n < INT_MAX) by (unfold INT_MAX in *; lia).
  assert (HRb : 0 <= R <= INT_MAX) by nia.
  assert (HFF : 2 * Z.of_nat (n + 1) + 33 <= flow_fuel n (length oms + n) K).
  { unfold flow_fuel, phase_work. rewrite Z.div_1_r. assert (HD2 := Dn_pos n). nia. }
  assert (Hf1 : (n + 1 < fuel)%nat) by lia. assert (Hf2 : (31 < fuel)%nat) by lia.
  unfold run_solver, solver_new.
  rewrite Z.mod_small by (unfold SIZE_MAX, INT_MAX in *; lia).
  destruct (Z.eqb_spec (Z.of_nat (length mus)) (Z.of_nat n + 1)); [|lia]. cbn [negb].
  destruct (check_mus_ok n mus Hlen n 1 fuel ltac:(lia) ltac:(lia)) as (b & Eb & Hb). rewrite Eb. cbn [bind].
  assert (b = true). { apply Hb. intros k m Hk Hm. apply (Hmu k m); auto. }
  subst b. cbn [negb].
  destruct (check_omegas_ok n mus Bd fuel ltac:(lia) HK3 Hf2 Hlen Hmu BM oms Hom BO) as (r & Er & Hr). rewrite Er. cbn [bind].
  destruct r as [oms'|].
  2:{ cbn [bind]. exists None. split; [reflexivity|]. intros mu om [F1 F2]. destruct Hr as (o & Ho & Hlt).
      assert (HL := low_le n mus mu o F1 (Hom o Ho)). apply In_nth_error in Ho. destruct Ho as [k Hk].
      specialize (F2 k o Hk). unfold diff in HL. lia. }
  destruct Hr as [HF2 HG0].
  assert (HG' : forall o, In o oms' -> lgood n K R o).
  { intros o' Ho'. destruct (Forall2_in_r _ _ _ HF2 o' Ho') as (o & Ho & HR0). exact (near_good n mus oms K R o o' HNear Ho (Hom o Ho) Hlen HR0 _ _ (HG0 o' Ho')). }
  clear HG0. cbn [bind]. unfold solve. cbn [s_n].
  destruct (Z.eqb_spec (Z.of_nat n) SIZE_MAX); [unfold SIZE_MAX, INT_MAX in *; lia|].
  set (s := mkSolver (Z.of_nat n) mus oms').
  assert (HlenO : length oms' = length oms) by (clear - HF2; induction HF2; simpl; auto).
  destruct (merge_limits_ok one n K R ltac:(lia) s) as [(L & EL & HGL & HLL & HSat)|[EL HSat]];
    cbn [s s_n s_mus s_oms] in *; try rewrite !Nat2Z.id in *; auto; try lia.
  2:{ rewrite EL. cbn [bind]. exists None. split; [reflexivity|]. intros mu om [F1 F2].
      destruct (om_best n mus oms oms' mu om HF2 Hom F1 F2) as [S _]. apply (HSat mu S). }
  rewrite EL. cbn [bind]. set (LL := L ++ map (mu_limit mus) (seq 1 n)) in *.
  assert (HG : forall o, In o LL -> lgood n K R o).
  { intros o Ho. apply in_app_or in Ho. destruct Ho as [Ho|Ho]; [auto|].
    apply in_map_iff in Ho. destruct Ho as (i & <- & Hi). apply in_seq in Hi. apply (near_mu_good n mus oms); auto; lia. }
  destruct (calc_ok one fuel Hf2 n K R LL ltac:(lia) ltac:(lia) HG) as (U & EC & HU & HUo).
  rewrite EC. cbn [bind].
  destruct (slopes_ok one fuel Hf2 n K R _ LL ltac:(lia) ltac:(lia) HG ltac:(lia) eq_refl) as [HM HLo].
  set (M := one + zsum LL (fun o => hi o - lo one fuel o)) in *.
  assert (Hm : (length LL <= length oms + n)%nat).
  { unfold LL. rewrite app_length, map_length, seq_length. lia. }
  destruct (min_cost_ok one n M K U LL HM ltac:(lia) HLo ltac:(lia)) with (fuel := fuel)
    as (fs & fs' & v & E1 & E2 & Hmin).
  { exact FK. }
  { exact HD. }
  { nia. }
  { intros HU0. assert (X := bit_ceil_mono (Z.of_nat (n + 1) * U) (Z.of_nat (n + 1) * R) ltac:(nia)).
    specialize (FB ltac:(lia)). unfold Dn. 
    set (b1 := bit_ceil (Z.of_nat (n + 1) * U)) in *. set (b2 := bit_ceil (Z.of_nat (n + 1) * R)) in *. clearbody b1 b2. nia. }
  { eapply Z.le_trans; [|exact Hfuel]. apply flow_fuel_mono; lia. }
  { intros U0.
    assert (HE : forall o, In o LL -> o_l o = o_u o).
    { intros o Ho. assert (A := HUo o Ho). assert (B := lg_lu _ _ _ _ (HG o Ho)). lia. }
    set (nu := fun i => match i with O => 0 | _ => match nth_error mus i with Some m => m_l m | None => 0 end end).
    assert (HmE : forall i m, (1 <= i <= n)%nat -> nth_error mus i = Some m -> m_l m = m_u m).
    { intros i m Hi Em. assert (X := HE (mu_limit mus i)). unfold mu_limit in X. rewrite Em in X. apply X.
      apply in_or_app. right. apply in_map_iff. exists i. unfold mu_limit. rewrite Em. split; auto. apply in_seq. lia. }
    assert (HB : in_bounds n mus (fun i => nu i - nu 0%nat)).
    { intros i Hi. destruct (nth_error mus i) as [m|] eqn:Em; [|apply nth_error_None in Em; lia].
      exists m. split; auto. assert (A := HmE i m Hi Em). destruct i as [|i]; [lia|]. unfold nu. rewrite Em. lia. }
    assert (HB' : in_bounds n mus nu).
    { intros i Hi. destruct (HB i Hi) as (m & E & B). exists m. split; auto. unfold nu at 2 4 in B. lia. }
    assert (HS0 : sat oms' nu).
    { assert (H : forall o o', om_rel mus o o' -> In o oms -> lgood n K R o' -> sat1 nu o').
      { intros o o' HR Ho G. unfold sat1. rewrite (or_l _ _ _ HR). assert (Glu := lg_lu _ _ _ _ G). rewrite (or_l _ _ _ HR) in Glu.
        assert (Ed : diff nu o' = low mus o).
        { unfold diff, low. rewrite (or_i _ _ _ HR), (or_j _ _ _ HR). destruct (Hom o Ho) as (_ & _ & _ & W4 & W5 & _).
          destruct (nth_error mus (o_i o)) as [a|] eqn:EEa; [|apply nth_error_None in EEa; lia].
          destruct (nth_error mus (o_j o)) as [b|] eqn:EEb; [|apply nth_error_None in EEb; lia].
          assert (X1 := HmE _ _ W4 EEa). assert (X2 := HmE _ _ W5 EEb).
          destruct (HB' _ W4) as (a' & Ea' & Ba). destruct (HB' _ W5) as (b' & Eb' & Bb).
          assert (a' = a) by congruence. assert (b' = b) by congruence. subst. lia. }
        rewrite Ed. lia. }
      clear - HF2 HG' H. induction HF2 as [|o o' l l' HR _ IH]; [intros x []|].
      intros x [<-|Hx].
      - apply (H o); simpl; auto. apply HG'; simpl; auto.
      - apply IH; auto; [intros; apply HG'; simpl; auto|intros; apply (H o0); simpl; auto]. }
    assert (HSL : sat LL nu).
    { apply sat_app. split; [apply HSat; auto|]. apply mu_limits_sat; auto. }
    exists nu. intros o Ho. split; [auto|]. assert (A := HSL o Ho). assert (B := HE o Ho). unfold sat1, diff in A. lia. }
  rewrite E1. cbn [bind]. rewrite E2. cbn [bind]. cbn [dlt exact_ops].
  destruct (threshold one fuel Hf2 n K R M (zsum LL hi) LL v H1 ltac:(lia) ltac:(lia) HG eq_refl eq_refl HM Hmin) as [T1 T2].
  assert (Hfeas : forall mu om, feasible n mus oms mu om ->
     let nu := fun i => match i with O => 0 | _ => mu i end in sat LL nu /\ lcost LL nu <= total_cost n mus oms mu om).
  { intros mu om [F1 F2] nu.
    assert (Eoms : forall o, In o oms' -> diff nu o = diff mu o).
    { intros o' Ho'. destruct (Forall2_in_r _ _ _ HF2 o' Ho') as (o & Ho & HR). unfold diff. rewrite (or_i _ _ _ HR), (or_j _ _ _ HR).
      destruct (Hom o Ho) as (_ & _ & _ & W4 & W5 & _). unfold nu.
      destruct (o_i o); [lia|]. destruct (o_j o); [lia|]. reflexivity. }
    destruct (om_best n mus oms oms' mu om HF2 Hom F1 F2) as [S1 S2].
    assert (S1' : sat oms' nu). { intros o Ho. unfold sat1. rewrite Eoms by auto. apply S1; auto. }
    assert (C1 : lcost oms' nu = lcost oms' mu). { apply zsum_ext. intros o Ho. unfold cost1. rewrite Eoms by auto. reflexivity. }
    destruct (HSat nu) as [Q1 Q2]. assert (SL : sat L nu) by tauto.
    assert (Emu : forall i, (1 <= i)%nat -> nu i - nu 0%nat = mu i) by (intros [|i] Hi; [lia|unfold nu; lia]).
    split.
    - apply sat_app. split; auto. apply mu_limits_sat; auto. intros i Hi. rewrite Emu by lia. auto.
    - unfold LL, lcost. rewrite zsum_app. fold (lcost L nu). fold (lcost (map (mu_limit mus) (seq 1 n)) nu).
      rewrite Q2 by auto. rewrite C1. rewrite (mu_limits_cost n mus Hlen).
      unfold total_cost. fold (om_total oms om).
      enough (sumZ (map (mu_cost mus (fun i => nu i - nu 0%nat)) (seq 1 n)) = sumZ (map (mu_cost mus mu) (seq 1 n))) by lia.
      f_equal. apply map_ext_in. intros i Hi. apply in_seq in Hi. unfold mu_cost. rewrite Emu by lia. reflexivity. }
  destruct (Z.ltb_spec (zsum LL hi) v) as [C|C].
  - exists None. split; [reflexivity|]. intros mu om F. destruct (Hfeas mu om F) as [S _]. apply (T2 C _ S).
  - exists (Some v). split; [reflexivity|]. destruct (T1 C) as [(nu & S & Ev) Hmn]. split.
    + apply sat_app in S as S'. destruct S' as [SL SM]. destruct (HSat nu) as [Q1 Q2].
      set (mu := fun i => nu i - nu 0%nat).
      assert (Eoms : forall o, diff mu o = diff nu o) by (intros o; unfold diff, mu; lia).
      assert (SO : sat oms' mu). { intros o Ho. unfold sat1. rewrite Eoms. exact (proj1 Q1 SL o Ho). }
      destruct (om_exists mus oms oms' mu HF2 SO) as (om & F & T).
      exists mu, om. split; [split|].
      * apply mu_limits_sat in SM; auto.
      * exact F.
      * unfold total_cost. fold (om_total oms om). rewrite T.
        rewrite <- Ev. assert (EL2 : lcost LL nu = lcost L nu + lcost (map (mu_limit mus) (seq 1 n)) nu) by (unfold LL, lcost; apply zsum_app). rewrite EL2. fold (lcost L nu). fold (lcost (map (mu_limit mus) (seq 1 n)) nu).
        rewrite Q2 by auto. rewrite (mu_limits_cost n mus Hlen). fold mu.
        assert (lcost oms' mu = lcost oms' nu) by (apply zsum_ext; intros o _; unfold cost1; rewrite Eoms; reflexivity). lia.
    + intros mu om F. destruct (Hfeas mu om F) as [S2 C2]. eapply Z.le_trans; [apply (Hmn _ S2)|exact C2].
Qed.

Lemma bounded_near n mus oms K : 0 <= K -> length mus = (n + 1)%nat -> (forall o, In o oms -> om_wf n o) -> (forall i m, (1 <= i <= n)%nat -> nth_error mus i = Some m -> mu_wf m) ->
  bounded_by n mus oms K -> near n mus oms (2 * K) (3 * K).
Proof.
  intros HK Hlen Hom Hmu [BM BO]. split.
  - intros i m Hi Em. assert (X := BM i m Hi Em). destruct (Hmu i m Hi Em) as (W & _). lia.
  - intros o a b Ho Ea Eb. destruct (Hom o Ho) as (W1 & _ & _ & W4 & W5 & _).
    assert (Xa := BM _ a W4 Ea). assert (Xb := BM _ b W5 Eb). assert (Xo := BO o Ho). destruct (Hmu _ _ W4 Ea) as (? & _). destruct (Hmu _ _ W5 Eb) as (? & _). lia.
Qed.

Lemma fits_flow n K : 1 <= K -> 28 * Z.of_nat (n + 1) * Z.of_nat (n + 1) * K <= INT_MAX -> flow_fits n (2 * K) (3 * K).
Proof.
  intros HK HI. assert (HN1 : 1 <= Z.of_nat (n + 1)) by lia.
  repeat split; try lia; try (unfold INT_MAX in *; nia). intros _.
  assert (X := bit_ceil_lt (Z.of_nat (n + 1) * (3 * K)) ltac:(nia)).
  set (b := bit_ceil (Z.of_nat (n + 1) * (3 * K))) in *. clearbody b. unfold INT_MAX in *. nia.
Qed.

Theorem run_solver_ok n mus oms K fuel :
  0 < one -> well_formed n mus oms -> bounded_by n mus oms K -> 1 <= K ->
  28 * Z.of_nat (n + 1) * Z.of_nat (n + 1) * K <= INT_MAX ->
  solver_fuel n (length oms) K <= Z.of_nat fuel ->
  exists r, run_solver fuel (Z.of_nat n) mus oms = Ok r /\ solution n mus oms r.
Proof.
  intros H1 HW HB HK HI Hfuel. assert (HN1 : 1 <= Z.of_nat (n + 1)) by lia. pose proof HW as (Hlen & Hmu & Hom).
  apply (run_solver_gen n mus oms K (2 * K) (3 * K)); auto; try nia.
  - apply bounded_near; auto; lia.
  - apply fits_flow; auto.
Qed.

End Solver.
