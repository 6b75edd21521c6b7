(** * SimpleSolver gives the right answer *)
From Verif Require Import Base BaseLemmas Data ProblemDefine Flow ProblemSolver Oracles CostScaling.
From Verif Require Import Sums NetMath Spec Convex FlowNet PDProof FlowOpt SolverNet SolverProof OracleProof.
From Verif Require Import ScaleNet ScaleRefine ScaleRun ScaleSpec ScaleProof.
Local Open Scope Z_scope.

(** ** A convex function as a sum of hinges *)
Definition hval (nu : nat -> Z) (a : InputEdge Z) : Z :=
  in_cap a * Z.max 0 (nu (in_u a) - nu (in_v a) - in_cost a).

Section Hinge.
Variables (F : Z -> Z) (l r M : Z).
Hypothesis Hlr : l <= r.
Hypothesis HC : convex_on F l r.
Hypothesis HM0 : 0 <= M.
Hypothesis HM : forall t, l <= t < r -> - M <= F (t + 1) - F t <= M.
Notation sl := (slope F l r M).

(** SimpleSolver.cpp:37-48 *)
Definition hinge_arcs (u v : nat) (j : Z) : list (InputEdge Z) :=
  if 0 <=? sl (j - 1) then [mkIn u v j (sl j - sl (j - 1))]
  else if sl j <=? 0 then [mkIn v u (- j) (sl j - sl (j - 1))]
  else [mkIn u v j (sl j); mkIn v u (- j) (- sl (j - 1))].

Definition pos (x : Z) : Z := Z.max 0 x.
Definition neg (x : Z) : Z := Z.max 0 (- x).

Definition hinge (j d : Z) : Z :=
  (pos (sl j) - pos (sl (j - 1))) * Z.max 0 (d - j) + (neg (sl (j - 1)) - neg (sl j)) * Z.max 0 (j - d).

Lemma hinge_arcs_val u v nu j : zsum (hinge_arcs u v j) (hval nu) = hinge j (nu u - nu v).
Proof using Hlr HC HM0 HM.
  assert (S := slope_mono F l r M HC HM0 HM (j - 1) j ltac:(lia)).
  unfold hinge_arcs, hinge, hval, pos, neg.
  destruct (Z.leb_spec 0 (sl (j - 1))).
  - cbn [zsum in_cap in_u in_v in_cost]. rewrite (Z.max_r 0 (sl j)), (Z.max_r 0 (sl (j - 1))), (Z.max_l 0 (- sl j)), (Z.max_l 0 (- sl (j - 1))) by lia. lia.
  - destruct (Z.leb_spec (sl j) 0); cbn [zsum in_cap in_u in_v in_cost].
    + replace (nu v - nu u - - j) with (j - (nu u - nu v)) by lia.
      rewrite (Z.max_l 0 (sl j)), (Z.max_l 0 (sl (j - 1))), (Z.max_r 0 (- sl j)), (Z.max_r 0 (- sl (j - 1))) by lia. lia.
    + replace (nu v - nu u - - j) with (j - (nu u - nu v)) by lia.
      rewrite (Z.max_r 0 (sl j)), (Z.max_l 0 (sl (j - 1))), (Z.max_l 0 (- sl j)), (Z.max_r 0 (- sl (j - 1))) by lia. lia.
Qed.

Definition hsum (c : nat) (d : Z) : Z := zsum (seq 0 c) (fun k => hinge (l + Z.of_nat k) d).

Lemma hsum_S c d : hsum (S c) d = hsum c d + hinge (l + Z.of_nat c) d.
Proof using. unfold hsum. rewrite seq_S, zsum_app. cbn [zsum Nat.add]. lia. Qed.

Lemma hsum_step d c : let e := Z.max (l - 1) (Z.min d (l + Z.of_nat c - 1)) in
  hsum c (d + 1) - hsum c d = pos (sl e) - pos (sl (l - 1)) - (neg (sl e) - neg (sl (l + Z.of_nat c - 1))).
Proof using Hlr.
  cbv zeta. induction c as [|c IH].
  - unfold hsum. cbn [seq zsum]. change (Z.of_nat 0) with 0.
    replace (Z.max (l - 1) (Z.min d (l + 0 - 1))) with (l - 1) by lia. replace (l + 0 - 1) with (l - 1) by lia. lia.
  - rewrite !hsum_S. set (j := l + Z.of_nat c) in *. replace (l + Z.of_nat (S c) - 1) with j by lia.
    unfold hinge. destruct (Z.le_gt_cases j d).
    + replace (Z.max (l - 1) (Z.min d j)) with j by lia.
      replace (Z.max (l - 1) (Z.min d (j - 1))) with (j - 1) in IH by lia.
      replace (Z.max 0 (d + 1 - j)) with (Z.max 0 (d - j) + 1) by lia.
      replace (Z.max 0 (j - (d + 1))) with 0 by lia. replace (Z.max 0 (j - d)) with 0 by lia. lia.
    + replace (Z.max (l - 1) (Z.min d j)) with (Z.max (l - 1) d) by lia.
      replace (Z.max (l - 1) (Z.min d (j - 1))) with (Z.max (l - 1) d) in IH by lia.
      replace (Z.max 0 (d + 1 - j)) with 0 by lia. replace (Z.max 0 (d - j)) with 0 by lia.
      replace (Z.max 0 (j - (d + 1))) with (Z.max 0 (j - d) - 1) by lia. lia.
Qed.

Definition cnt : nat := Z.to_nat (r - l + 1).

Lemma hsum_slope d : hsum cnt (d + 1) - hsum cnt d = sl d.
Proof using Hlr HM0.
  assert (H := hsum_step d cnt). cbv zeta in H.
  replace (l + Z.of_nat cnt - 1) with r in H by (unfold cnt; lia).
  assert (E1 : sl (l - 1) = - M).
  { unfold slope. destruct (Z.leb_spec r (l - 1)); [lia|]. destruct (Z.ltb_spec (l - 1) l); [auto|lia]. }
  assert (E2 : sl r = M). { unfold slope. destruct (Z.leb_spec r r); [auto|lia]. }
  assert (E3 : sl (Z.max (l - 1) (Z.min d r)) = sl d).
  { destruct (Z.le_gt_cases (l - 1) d) as [A|A].
    - destruct (Z.le_gt_cases d r) as [B|B]; [f_equal; lia|]. replace (Z.max (l - 1) (Z.min d r)) with r by lia. rewrite E2.
      unfold slope. destruct (Z.leb_spec r d); [auto|lia].
    - replace (Z.max (l - 1) (Z.min d r)) with (l - 1) by lia. rewrite E1.
      unfold slope. destruct (Z.leb_spec r d); [lia|]. destruct (Z.ltb_spec d l); [auto|lia]. }
  rewrite E1, E2, E3 in H. rewrite H. unfold pos, neg. lia.
Qed.

Lemma hsum_fext d d' : hsum cnt d - fext F l r M d = hsum cnt d' - fext F l r M d'.
Proof using Hlr HM0.
  assert (U : forall a k, hsum cnt (a + Z.of_nat k) - fext F l r M (a + Z.of_nat k) = hsum cnt a - fext F l r M a).
  { intros a. induction k as [|k IH]; [rewrite Z.add_0_r; reflexivity|].
    replace (a + Z.of_nat (S k)) with (a + Z.of_nat k + 1) by lia.
    assert (E1 := hsum_slope (a + Z.of_nat k)). assert (E2 := fext_step F l r M Hlr (a + Z.of_nat k)). lia. }
  destruct (Z.le_gt_cases d d').
  - assert (E := U d (Z.to_nat (d' - d))). rewrite Z2Nat.id in E by lia. replace (d + (d' - d)) with d' in E by lia. lia.
  - assert (E := U d' (Z.to_nat (d - d'))). rewrite Z2Nat.id in E by lia. replace (d' + (d - d')) with d in E by lia. lia.
Qed.

Lemma hsum_min p : argmin F l r p -> hsum cnt p = 0.
Proof using Hlr HC HM0 HM.
  intros [P1 P2]. unfold hsum. apply zsum_zero. intros k Hk. apply in_seq in Hk. unfold cnt in Hk.
  set (j := l + Z.of_nat k). assert (Hj : l <= j <= r) by lia. unfold hinge.
  assert (SM := slope_mono F l r M HC HM0 HM).
  assert (S2 := SM (j - 1) j ltac:(lia)).
  destruct (Z.lt_trichotomy j p) as [T|[T|T]].
  - assert (S1 := SM j (p - 1) ltac:(lia)).
    assert (sl (p - 1) <= 0).
    { unfold slope. destruct (Z.leb_spec r (p - 1)); [lia|]. destruct (Z.ltb_spec (p - 1) l); [lia|].
      replace (p - 1 + 1) with p by lia. assert (Q := P2 (p - 1) ltac:(lia)). lia. }
    replace (Z.max 0 (j - p)) with 0 by lia. unfold pos. rewrite (Z.max_l 0 (sl j)), (Z.max_l 0 (sl (j - 1))) by lia. lia.
  - replace (p - j) with 0 by lia. replace (j - p) with 0 by lia. lia.
  - assert (S1 := SM p (j - 1) ltac:(lia)).
    assert (0 <= sl p).
    { unfold slope. destruct (Z.leb_spec r p); [lia|]. destruct (Z.ltb_spec p l); [lia|].
      assert (Q := P2 (p + 1) ltac:(lia)). lia. }
    replace (Z.max 0 (p - j)) with 0 by lia. unfold neg. rewrite (Z.max_l 0 (- sl j)), (Z.max_l 0 (- sl (j - 1))) by lia. lia.
Qed.

Lemma hsum_ok p d : argmin F l r p -> hsum cnt d = fext F l r M d - F p.
Proof using Hlr HC HM0 HM.
  intros HP. assert (E := hsum_fext d p). rewrite (hsum_min p HP) in E.
  rewrite (fext_in F l r M p) in E by apply HP. lia.
Qed.

Lemma hinge_arcs_in u v j a : l <= j <= r -> In a (hinge_arcs u v j) ->
  0 <= in_cap a /\ ((in_u a = u /\ in_v a = v /\ in_cost a = j) \/ (in_u a = v /\ in_v a = u /\ in_cost a = - j)).
Proof using Hlr HC HM0 HM.
  intros Hj. assert (S := slope_mono F l r M HC HM0 HM (j - 1) j ltac:(lia)). unfold hinge_arcs.
  destruct (Z.leb_spec 0 (sl (j - 1))); [|destruct (Z.leb_spec (sl j) 0)]; cbn [In].
  - intros [<-|[]]. cbn. split; [lia|auto].
  - intros [<-|[]]. cbn. split; [lia|auto].
  - intros [<-|[<-|[]]]; cbn; (split; [lia|auto]).
Qed.

(** the smallest and the largest position have an arc of cost -l and r *)
Lemma hinge_arcs_l u v : 0 < M -> exists a, In a (hinge_arcs u v l) /\ in_cost a = - l.
Proof using Hlr.
  intros H0. unfold hinge_arcs.
  assert (E1 : sl (l - 1) = - M).
  { unfold slope. destruct (Z.leb_spec r (l - 1)); [lia|]. destruct (Z.ltb_spec (l - 1) l); [auto|lia]. }
  rewrite E1. destruct (Z.leb_spec 0 (- M)); [lia|].
  destruct (sl l <=? 0); eexists; (split; [|shelve]).
  - left. reflexivity.
  - right. left. reflexivity.
  Unshelve. all: reflexivity.
Qed.

Lemma hinge_arcs_r u v : 0 < M -> exists a, In a (hinge_arcs u v r) /\ in_cost a = r.
Proof using Hlr.
  intros H0. unfold hinge_arcs.
  assert (E2 : sl r = M). { unfold slope. destruct (Z.leb_spec r r); [auto|lia]. }
  rewrite E2. destruct (0 <=? sl (r - 1)).
  - eexists. split; [left; reflexivity|reflexivity].
  - destruct (Z.leb_spec M 0); [lia|]. eexists. split; [left; reflexivity|reflexivity].
Qed.

End Hinge.

(** ** The arcs of one limit *)
Definition limit_arcs (M : Z) (o : OmegaLimit Z) : list (InputEdge Z) :=
  flat_map (fun k => hinge_arcs (cost (o_fn o)) (o_l o) (o_u o) M (o_i o) (o_j o) (o_l o + Z.of_nat k)) (seq 0 (cnt (o_l o) (o_u o))).

Lemma zsum_flat_map {A B} (g : A -> list B) (L : list A) f : zsum (flat_map g L) f = zsum L (fun a => zsum (g a) f).
Proof. induction L as [|a L IH]; [reflexivity|]. cbn [flat_map zsum]. rewrite zsum_app, IH. reflexivity. Qed.

Record steep (M : Z) (o : OmegaLimit Z) : Prop := {
  st_lu : o_l o <= o_u o;
  st_conv : convex_on (cost (o_fn o)) (o_l o) (o_u o);
  st_M : forall t, o_l o <= t < o_u o -> - M <= cost (o_fn o) (t + 1) - cost (o_fn o) t <= M
}.

Lemma limit_arcs_val M o nu p : 0 <= M -> steep M o -> argmin (cost (o_fn o)) (o_l o) (o_u o) p ->
  zsum (limit_arcs M o) (hval nu) = penalised M o (diff nu o) - cost (o_fn o) p.
Proof.
  intros H0 [S1 S2 S3] HP. unfold limit_arcs. rewrite zsum_flat_map, penalised_fext by auto.
  rewrite (zsum_ext _ _ (fun k => hinge (cost (o_fn o)) (o_l o) (o_u o) M (o_l o + Z.of_nat k) (diff nu o)))
    by (intros k _; apply hinge_arcs_val; auto).
  apply (hsum_ok (cost (o_fn o)) (o_l o) (o_u o) M S1 S2 H0 S3 p (diff nu o) HP).
Qed.

Lemma limit_arcs_in M o a : 0 <= M -> steep M o -> In a (limit_arcs M o) ->
  0 <= in_cap a /\ exists j, o_l o <= j <= o_u o /\
   ((in_u a = o_i o /\ in_v a = o_j o /\ in_cost a = j) \/ (in_u a = o_j o /\ in_v a = o_i o /\ in_cost a = - j)).
Proof.
  intros H0 [S1 S2 S3] Ha. unfold limit_arcs in Ha. apply in_flat_map in Ha. destruct Ha as (k & K1 & K2).
  apply in_seq in K1. unfold cnt in K1.
  assert (Hj : o_l o <= o_l o + Z.of_nat k <= o_u o) by lia.
  destruct (hinge_arcs_in _ _ _ _ S1 S2 H0 S3 _ _ _ _ Hj K2) as [B1 B2]. split; auto. eauto.
Qed.

Lemma limit_arcs_ends M o : 0 < M -> o_l o <= o_u o ->
  (exists a, In a (limit_arcs M o) /\ in_cost a = - o_l o) /\ (exists a, In a (limit_arcs M o) /\ in_cost a = o_u o).
Proof.
  intros H0 Hlu. split.
  - destruct (hinge_arcs_l (cost (o_fn o)) (o_l o) (o_u o) M Hlu (o_i o) (o_j o) H0) as (a & A1 & A2).
    exists a. split; auto. apply in_flat_map. exists 0%nat. split; [apply in_seq; unfold cnt; lia|].
    change (Z.of_nat 0) with 0. rewrite Z.add_0_r. exact A1.
  - destruct (hinge_arcs_r (cost (o_fn o)) (o_l o) (o_u o) M Hlu (o_i o) (o_j o) H0) as (a & A1 & A2).
    exists a. split; auto. apply in_flat_map. exists (Z.to_nat (o_u o - o_l o)). split; [apply in_seq; unfold cnt; lia|].
    rewrite Z2Nat.id by lia. replace (o_l o + (o_u o - o_l o)) with (o_u o) by lia. exact A1.
Qed.

Lemma flat_map_len {A B} (g : A -> list B) c : (forall a, (length (g a) <= c)%nat) -> forall L, (length (flat_map g L) <= c * length L)%nat.
Proof. intros H. induction L as [|a L IH]; cbn [flat_map length]; [lia|]. rewrite app_length. specialize (H a). lia. Qed.

Lemma limit_arcs_len M o : (length (limit_arcs M o) <= 2 * cnt (o_l o) (o_u o))%nat.
Proof.
  unfold limit_arcs. eapply Nat.le_trans; [apply (flat_map_len _ 2)|rewrite seq_length; lia].
  intros k. unfold hinge_arcs. destruct (0 <=? _); [simpl; lia|]. destruct (_ <=? 0); simpl; lia.
Qed.

Section Simple.
Variable one : Z.
#[local] Hint Extern 0 (DataOps Z) => exact (exact_ops one) : typeclass_instances.
Notation M := (one * 1000000000).

(** SimpleSolver.cpp:15-23 *)
Lemma bij_ok f l r x : l <= r -> defined_on f l r -> INT_MIN <= l -> r <= INT_MAX ->
  bij f l r x = Ok (slope (cost f) l r M x).
Proof.
  intros Hlr HD H1 H2. unfold bij, slope, big_M, of_int. cbn [dopp dmuli done exact_ops].
  destruct (Z.ltb_spec x l); [destruct (Z.leb_spec r x); [lia|reflexivity]|].
  destruct (Z.leb_spec r x); [reflexivity|].
  rewrite ck_ok by lia. cbn [bind]. rewrite (cost_ok _ _ _ (x + 1) HD) by lia. cbn [bind].
  rewrite (cost_ok _ _ _ x HD) by lia. reflexivity.
Qed.

(** SimpleSolver.cpp:36-49, 75-88 *)
Lemma add_hinges_ok f l r u v : l <= r -> defined_on f l r -> - INT_MAX <= l -> r + 1 <= INT_MAX ->
  forall c fuel k edge, (c <= fuel)%nat -> r - l + 1 = Z.of_nat (k + c) ->
  add_hinges fuel f l r u v (l + Z.of_nat k) edge =
    Ok (edge ++ flat_map (fun k => hinge_arcs (cost f) l r M u v (l + Z.of_nat k)) (seq k c)).
Proof.
  intros Hlr HD H1 H2. induction c as [|c IH]; intros fuel k edge Hf Hk.
  - cbn [seq flat_map]. rewrite app_nil_r.
    destruct fuel; cbn [add_hinges]; (destruct (Z.leb_spec (l + Z.of_nat k) r); [lia|reflexivity]).
  - destruct fuel as [|fuel]; [lia|]. cbn [add_hinges].
    destruct (Z.leb_spec (l + Z.of_nat k) r); [|lia].
    rewrite ck_ok by (unfold INT_MIN, INT_MAX in *; lia). cbn [bind].
    rewrite !bij_ok by (auto; unfold INT_MIN, INT_MAX in *; lia). cbn [bind dle dzero dsub dopp exact_ops].
    cbn [seq flat_map]. set (j := l + Z.of_nat k) in *.
    assert (E : forall (X : res (list (InputEdge Z))) L, X = Ok (edge ++ L) ->
      (edge0 <- X ;; j' <- ck (j + 1) ;; add_hinges fuel f l r u v j' edge0) =
      Ok (edge ++ L ++ flat_map (fun k => hinge_arcs (cost f) l r M u v (l + Z.of_nat k)) (seq (S k) c))).
    { intros X L ->. cbn [bind]. rewrite ck_ok by (unfold INT_MIN, INT_MAX in *; lia). cbn [bind].
      replace (j + 1) with (l + Z.of_nat (S k)) by lia. rewrite IH by lia. rewrite app_assoc. reflexivity. }
    apply E. unfold hinge_arcs. destruct (0 <=? slope (cost f) l r M (j - 1)); [reflexivity|].
    rewrite ck_ok by (unfold INT_MIN, INT_MAX in *; lia). cbn [bind].
    destruct (slope (cost f) l r M j <=? 0); reflexivity.
Qed.

Lemma limit_hinges o fuel edge : o_l o <= o_u o -> defined_on (o_fn o) (o_l o) (o_u o) -> - INT_MAX <= o_l o -> o_u o + 1 <= INT_MAX ->
  o_u o - o_l o + 1 <= Z.of_nat fuel ->
  add_hinges fuel (o_fn o) (o_l o) (o_u o) (o_i o) (o_j o) (o_l o) edge = Ok (edge ++ limit_arcs M o).
Proof.
  intros H1 HD H2 H3 Hf.
  assert (E := add_hinges_ok (o_fn o) (o_l o) (o_u o) (o_i o) (o_j o) H1 HD H2 H3 (cnt (o_l o) (o_u o)) fuel 0 edge).
  change (Z.of_nat 0) with 0 in E. rewrite Z.add_0_r in E. apply E; unfold cnt; lia.
Qed.

Definition triple (o : OmegaLimit Z) : Fn Z * Z * Z := (o_fn o, o_l o, o_u o).

Lemma hi_max o : dmax (cost (o_fn o) (o_l o)) (cost (o_fn o) (o_u o)) = hi o.
Proof. unfold dmax, hi. cbn [dlt exact_ops]. destruct (Z.ltb_spec (cost (o_fn o) (o_l o)) (cost (o_fn o) (o_u o))); lia. Qed.

Section WF.
Variables (n : nat) (mus : list (MuLimit Z)) (K : Z) (fuel : nat).
Hypothesis HK0 : 1 <= K.
Hypothesis HK : 3 * K + 1 <= INT_MAX.
Hypothesis Hfuel : 3 * K + 1 <= Z.of_nat fuel.
Hypothesis Hlen : length mus = (n + 1)%nat.
Hypothesis Hmu : forall i m, (1 <= i <= n)%nat -> nth_error mus i = Some m -> mu_wf m.
Hypothesis HmuK : forall i m, (1 <= i <= n)%nat -> nth_error mus i = Some m -> - K <= m_l m /\ m_u m <= K.

(** SimpleSolver.cpp:30-52 *)
Lemma collect_nodes_ok : forall is edge functions mx, (forall i, In i is -> (1 <= i <= n)%nat) ->
  let L := map (mu_limit mus) is in
  collect_nodes fuel mus is (edge, functions, mx) =
    Ok (Some (edge ++ flat_map (limit_arcs M) L, functions ++ map triple L, mx + zsum L hi)).
Proof.
  cbv zeta. induction is as [|i is IH]; intros edge functions mx Hin.
  - cbn [collect_nodes map flat_map zsum]. rewrite !app_nil_r, Z.add_0_r. reflexivity.
  - cbn [collect_nodes map flat_map zsum].
    assert (Hi := Hin i (or_introl eq_refl)).
    destruct (nth_error mus i) as [m|] eqn:Em; [|apply nth_error_None in Em; lia].
    rewrite (vget_ok _ _ _ Em). cbn [bind].
    destruct (Hmu _ _ Hi Em) as (W1 & W2 & W3). assert (B := HmuK _ _ Hi Em).
    destruct (Z.ltb_spec (m_u m) (m_l m)); [lia|].
    rewrite (cost_ok _ _ _ (m_l m) W2) by lia. cbn [bind]. rewrite (cost_ok _ _ _ (m_u m) W2) by lia. cbn [bind].
    set (o := mkOm (m_l m) (m_u m) (m_fn m) i 0%nat).
    assert (EL : mu_limit mus i = o) by (unfold mu_limit; rewrite Em; reflexivity). rewrite EL.
    assert (E := limit_hinges o fuel edge). cbn [o_l o_u o_fn o_i o_j o] in E.
    rewrite E by (auto; unfold INT_MAX in *; lia). cbn [bind].
    rewrite IH by (intros; apply Hin; simpl; auto).
    assert (Hx := hi_max o). cbn [o_l o_u o_fn o] in Hx. rewrite Hx. cbn [dadd exact_ops].
    rewrite <- !app_assoc. cbn [app]. do 2 f_equal. f_equal. lia.
Qed.

(** SimpleSolver.cpp:58-74 *)
Definition ext_om (o : OmegaLimit Z) : OmegaLimit Z :=
  mkOm (Z.min (o_l o) (low mus o)) (o_u o) (best_above fuel o) (o_i o) (o_j o).

Lemma best_above_ok o d : om_wf n o -> - K <= o_l o -> o_u o <= K -> d <= o_u o ->
  exists v, best_above fuel o d = Ok v /\ bestcost (cost (o_fn o)) (o_l o) (o_u o) d v.
Proof using HK0 HK Hfuel.
  clear Hlen Hmu HmuK.
  intros (W1 & W2 & W3 & _) HL HU Hd. unfold best_above.
  destruct (function_min_ok one (o_fn o) (Z.max (o_l o) d) (o_u o) fuel) as (p & E & P1 & P2);
    try (unfold INT_MIN, INT_MAX in *; lia).
  - intros x Hx. apply W2. lia.
  - eapply convex_sub; [exact W3|lia|lia].
  - exists (cost (o_fn o) p). split; auto. split.
    + exists p. split; [lia|]. split; [lia|reflexivity].
    + intros w Hw Hdw. apply P2. lia.
Qed.

Lemma bestcost_unique F l u d v v' : bestcost F l u d v -> bestcost F l u d v' -> v = v'.
Proof using.
  clear.
  intros [(w & W1 & W2 & W3) H] [(w' & W1' & W2' & W3') H']. assert (A := H w' W1' W2'). assert (B := H' w W1 W2). lia.
Qed.

Lemma low_bounds o : om_wf n o -> - (2 * K) <= low mus o <= 2 * K.
Proof using HmuK Hlen Hmu.
  clear HK0 HK Hfuel.
  intros (_ & _ & _ & W4 & W5 & _). unfold low.
  destruct (nth_error mus (o_i o)) as [a|] eqn:Ea; [|apply nth_error_None in Ea; lia].
  destruct (nth_error mus (o_j o)) as [b|] eqn:Eb; [|apply nth_error_None in Eb; lia].
  assert (B1 := HmuK _ _ W4 Ea). assert (B2 := HmuK _ _ W5 Eb).
  destruct (Hmu _ _ W4 Ea) as (C1 & _). destruct (Hmu _ _ W5 Eb) as (C2 & _). lia.
Qed.

Lemma ext_good o : om_wf n o -> - K <= o_l o -> o_u o <= K -> lgood n (2 * K) (3 * K) (ext_om o).
Proof.
  intros W HL HU. assert (LB := low_bounds o W).
  assert (HB := fun d => best_above_ok o d W HL HU).
  destruct (W) as (W1 & W2 & W3 & W4 & W5 & W6).
  constructor; cbn [ext_om o_l o_u o_fn o_i o_j]; try lia.
  - intros x Hx. destruct (HB x ltac:(lia)) as (v & E & _). eauto.
  - destruct (pre_processing_ok one 32 o ltac:(lia) W1) as (o1 & _ & _ & _ & _ & _ & P5 & _ & P7); auto.
    { unfold int_range, INT_MIN, INT_MAX in *. lia. }
    eapply convex_ext; [apply P7|]. intros x Hx. destruct (HB x ltac:(lia)) as (v & E & B).
    destruct (P5 x ltac:(lia)) as (w & _ & E' & B'). unfold cost at 1 2. rewrite E, E'. eapply bestcost_unique; eauto.
Qed.

(** SimpleSolver.cpp:53-91 *)
Lemma collect_edges_ok : forall oms edge functions mx,
  (forall o, In o oms -> om_wf n o) -> (forall o, In o oms -> - K <= o_l o /\ o_u o <= K) ->
  let L := map ext_om oms in
  collect_edges fuel mus oms (edge, functions, mx) =
    Ok (Some (edge ++ flat_map (limit_arcs M) L, functions ++ map triple L, mx + zsum oms hi)).
Proof.
  cbv zeta. induction oms as [|o oms IH]; intros edge functions mx HW HB.
  - cbn [collect_edges map flat_map zsum]. rewrite !app_nil_r, Z.add_0_r. reflexivity.
  - cbn [collect_edges map flat_map zsum].
    assert (W := HW o (or_introl eq_refl)). destruct (HB o (or_introl eq_refl)) as [B1 B2].
    assert (G := ext_good o W B1 B2). assert (LB := low_bounds o W). destruct (W) as (W1 & W2 & W3 & W4 & W5 & W6).
    destruct (Z.ltb_spec (o_u o) (o_l o)); [lia|].
    rewrite (cost_ok _ _ _ (o_l o) W2) by lia. cbn [bind]. rewrite (cost_ok _ _ _ (o_u o) W2) by lia. cbn [bind].
    assert (El : low mus o = low mus o) by reflexivity. unfold low in El at 1.
    destruct (nth_error mus (o_i o)) as [a|] eqn:Ea; [|apply nth_error_None in Ea; lia].
    destruct (nth_error mus (o_j o)) as [b|] eqn:Eb; [|apply nth_error_None in Eb; lia].
    rewrite (vget_ok _ _ _ Ea). cbn [bind]. rewrite (vget_ok _ _ _ Eb). cbn [bind]. rewrite El.
    rewrite ck_ok by (unfold INT_MIN, INT_MAX in *; lia). cbn [bind].
    assert (E := limit_hinges (ext_om o) fuel edge). cbn [ext_om o_l o_u o_fn o_i o_j] in E.
    assert (G2 := lg_def _ _ _ _ G). cbn [ext_om o_l o_u o_fn] in G2.
    rewrite E by (auto; unfold INT_MAX in *; lia). cbn [bind].
    rewrite IH by (intros; first [apply HW; simpl; auto; fail|apply HB; simpl; auto]).
    rewrite hi_max. cbn [dadd exact_ops].
    rewrite <- !app_assoc. cbn [app]. do 2 f_equal. f_equal. lia.
Qed.

Lemma ext_exists oms mu : (forall o, In o oms -> om_wf n o) -> (forall o, In o oms -> - K <= o_l o /\ o_u o <= K) ->
  sat (map ext_om oms) mu -> exists om, om_feasible oms mu om /\ om_total oms om = lcost (map ext_om oms) mu.
Proof using HK0 HK Hfuel.
  clear Hlen Hmu HmuK.
  induction oms as [|o oms IH]; intros HW HB Hs.
  - exists (fun _ => 0). split; [|reflexivity]. intros [|k] o Hk; discriminate.
  - cbn [map] in Hs. apply sat_cons in Hs. destruct Hs as [S1 S2].
    destruct IH as (om & F & T); [intros; apply HW; simpl; auto|intros; apply HB; simpl; auto|exact S2|].
    destruct (HB o (or_introl eq_refl)) as [B1 B2]. unfold sat1 in S1. cbn [ext_om o_u] in S1.
    change (diff mu (ext_om o)) with (diff mu o) in S1.
    destruct (best_above_ok o (diff mu o) (HW o (or_introl eq_refl)) B1 B2 ltac:(lia)) as (v & Ev & (w & W1 & W2 & W3) & _).
    exists (fun k => match k with O => w | S k => om k end). split.
    + apply om_feasible_cons. split; [auto|exact F].
    + rewrite om_total_cons. change (fun k : nat => om k) with om. rewrite T, W3. unfold lcost. cbn [map zsum].
      f_equal. unfold cost1. change (diff mu (ext_om o)) with (diff mu o). cbn [ext_om o_fn]. unfold cost. rewrite Ev. reflexivity.
Qed.

Lemma ext_best oms mu om : (forall o, In o oms -> om_wf n o) -> (forall o, In o oms -> - K <= o_l o /\ o_u o <= K) ->
  in_bounds n mus mu -> om_feasible oms mu om -> sat (map ext_om oms) mu /\ lcost (map ext_om oms) mu <= om_total oms om.
Proof using HK0 HK Hfuel.
  clear Hlen Hmu HmuK.
  intros HW HB HM. revert om. induction oms as [|o oms IH]; intros om Ho.
  - split; [intros o []|]. unfold lcost, om_total. simpl. lia.
  - apply om_feasible_cons in Ho. destruct Ho as [H1 H2].
    destruct (IH (fun x Hx => HW x (or_intror Hx)) (fun x Hx => HB x (or_intror Hx)) _ H2) as [I1 I2].
    assert (HL := low_le n mus mu o HM (HW o (or_introl eq_refl))). destruct (HB o (or_introl eq_refl)) as [B1 B2]. split.
    + cbn [map]. apply sat_cons. split; auto. unfold sat1. change (diff mu (ext_om o)) with (diff mu o). cbn [ext_om o_l o_u]. lia.
    + rewrite om_total_cons. unfold lcost. cbn [map zsum]. fold (lcost (map ext_om oms) mu).
      destruct (best_above_ok o (diff mu o) (HW o (or_introl eq_refl)) B1 B2 ltac:(lia)) as (v & Ev & _ & Hv).
      specialize (Hv (om 0%nat) ltac:(lia) ltac:(lia)).
      assert (cost1 mu (ext_om o) = v) by (unfold cost1; change (diff mu (ext_om o)) with (diff mu o); cbn [ext_om o_fn]; unfold cost; rewrite Ev; reflexivity).
      lia.
Qed.

(** every value of the extended cost is a value of the cost *)
Lemma ext_value o x : om_wf n o -> - K <= o_l o -> o_u o <= K -> x <= o_u o ->
  exists w, o_l o <= w <= o_u o /\ cost (o_fn (ext_om o)) x = cost (o_fn o) w.
Proof using HK0 HK Hfuel.
  clear Hlen Hmu HmuK.
  intros W B1 B2 Hx. destruct (best_above_ok o x W B1 B2 Hx) as (v & Ev & (w & W1 & W2 & W3) & _).
  exists w. split; auto. cbn [ext_om o_fn]. unfold cost at 1. rewrite Ev. auto.
Qed.

End WF.

(** the test [res > mx] decides feasibility when the penalty exceeds all spreads *)
Lemma threshold2 fuel n K R P vmax L v :
  (31 < fuel)%nat -> K <= INT_MAX -> R <= INT_MAX -> (forall o, In o L -> lgood n K R o) ->
  zsum L hi <= vmax -> vmax - zsum L (lo one fuel) < P -> 0 <= P ->
  network_min P L v ->
  (v <= vmax -> (exists nu, sat L nu /\ lcost L nu = v) /\ forall nu, sat L nu -> v <= lcost L nu) /\
  (vmax < v -> forall nu, ~ sat L nu).
Proof.
  intros Hf HK HR HG E1 E2 HM [(nu0 & E0) Hmin]. split.
  - intros Hv. split.
    + exists nu0. destruct (sat_or fuel Hf L nu0) as [S0|(o & O1 & O2)].
      * split; auto. rewrite <- (network_cost_sat n K R P) by auto. auto.
      * exfalso. assert (A := network_cost_viol one fuel Hf n K R P L nu0 o HK HR HG HM O1 O2). lia.
    + intros nu Hs. rewrite <- (network_cost_sat n K R P) by auto. apply Hmin.
  - intros Hv nu Hs. assert (A := lcost_le n K R L HG nu Hs). assert (B := Hmin nu).
    rewrite (network_cost_sat n K R P) in B by auto. lia.
Qed.

Lemma scaling_fuel_mono N m m' K : (m <= m')%nat -> scaling_fuel N m K <= scaling_fuel N m' K.
Proof.
  intros H. unfold scaling_fuel. cbv zeta.
  set (x := Z.of_nat N). set (a := Z.of_nat m). set (b := Z.of_nat m'). assert (a <= b) by lia. assert (0 <= x) by lia.
  assert (2 * x * a <= 2 * x * b) by nia. assert ((x + 1) * (2 * x * a) <= (x + 1) * (2 * x * b)) by nia. nia.
Qed.

Lemma scaling_fuel_nonneg N m K : 0 <= scaling_fuel N m K.
Proof.
  unfold scaling_fuel. cbv zeta. assert (X := Z.log2_nonneg (K * Z.of_nat N)).
  set (x := Z.of_nat N) in *. set (a := Z.of_nat m). assert (0 <= a) by lia. assert (0 <= x) by lia.
  assert (0 <= x * a) by nia. assert (0 <= (x + 1) * (2 * x * a)) by nia. assert (0 <= x * x) by nia.
  set (b := (x + 1) * (2 * x * a) + x * x + 1) in *. assert (0 <= b) by lia. assert (0 <= 7 * x * x + 1) by nia.
  assert (0 <= (7 * x * x + 1) * b) by (apply Z.mul_nonneg_nonneg; auto). lia.
Qed.

Lemma scaling_fuel_mono_K N m K K' : K <= K' -> scaling_fuel N m K <= scaling_fuel N m K'.
Proof.
  intros H. unfold scaling_fuel. cbv zeta.
  assert (Z.log2 (K * Z.of_nat N) <= Z.log2 (K' * Z.of_nat N)) by (apply Z.log2_le_mono; nia). lia.
Qed.

(** SimpleSolver.cpp:95-110 *)
Lemma add_minima fuel n K R : K <= INT_MAX -> R <= INT_MAX -> R <= Z.of_nat fuel -> forall L r, (forall o, In o L -> lgood n K R o) ->
  for_each (map triple L) r (fun r '(f, lo, hi) => m <- function_min fuel f lo hi ;; Ok (dadd r m)) = Ok (r + zsum L (lo one 32)).
Proof.
  intros HK HR Hf. induction L as [|o L IH]; intros r HG.
  - cbn [map for_each zsum]. f_equal. lia.
  - cbn [map for_each zsum triple]. assert (G := HG o (or_introl eq_refl)).
    destruct (lo_ok one 32 ltac:(lia) n K R o HK HR G) as (_ & L2 & (x & X1 & X2)). destruct G as [A1 A2 A3 A4 A5 A6 A7 A8].
    destruct (function_min_ok one (o_fn o) (o_l o) (o_u o) fuel) as (p & E & P1 & P2); auto; try (unfold INT_MIN, INT_MAX in *; lia).
    rewrite E. cbn [bind dadd exact_ops]. rewrite IH by (intros; apply HG; simpl; auto).
    assert (Q1 := P2 x X1). assert (Q2 := L2 p P1). f_equal. lia.
Qed.

(** *** The network built by Solve *)
Section Facts.
Variables (n : nat) (mus : list (MuLimit Z)) (oms : list (OmegaLimit Z)) (K S : Z) (fuel : nat).
Hypothesis H1 : 0 < one.
Hypothesis HWF : well_formed n mus oms.
Hypothesis HBB : bounded_by n mus oms K.
Hypothesis HK : 1 <= K.
Hypothesis HKI : 3 * K + 1 <= INT_MAX.
Hypothesis HSW : spread_within n mus oms S.
Hypothesis HS : S < 1000000000 * one.
Hypothesis Hf3 : 3 * K + 1 <= Z.of_nat fuel.

Definition mu_lims : list (OmegaLimit Z) := map (mu_limit mus) (seq 1 n).
Definition om_lims : list (OmegaLimit Z) := map (ext_om mus fuel) oms.
Definition all_lims : list (OmegaLimit Z) := mu_lims ++ om_lims.
Definition all_arcs : list (InputEdge Z) := flat_map (limit_arcs M) all_lims.
Definition top_cost : Z := zsum mu_lims hi + zsum oms hi.
Notation ML := mu_lims.
Notation OL := om_lims.
Notation LL := all_lims.
Notation A := all_arcs.
Notation vmax := top_cost.

Record lims_facts : Prop := {
  lf_good : forall o, In o LL -> lgood n (2 * K) (3 * K) o;
  lf_lo : forall o, In o LL -> (forall x, o_l o <= x <= o_u o -> lo one 32 o <= cost (o_fn o) x) /\
    (exists x, o_l o <= x <= o_u o /\ cost (o_fn o) x = lo one 32 o);
  lf_hi : zsum LL hi <= vmax;
  lf_sp : vmax - zsum LL (lo one 32) <= S;
  lf_steep : forall o, In o LL -> steep M o;
  lf_arcs : arcs_ok n A;
  lf_cost : forall a, In a A -> - (2 * K) <= in_cost a <= 2 * K;
  lf_cov : covered A;
  lf_max : maxc A <= 2 * K;
  lf_len : (length A <= (n + length oms) * Z.to_nat (6 * K + 2))%nat
}.

Lemma lims_ok : lims_facts.
Proof.
  destruct HWF as (Hlen & Hmu & Hom). destruct HBB as (BM & BO). destruct HSW as (wm & wo & Wm & Wo & WS).
  (* the limits *)
  assert (HG : forall o, In o LL -> lgood n (2 * K) (3 * K) o).
  { intros o Ho. apply in_app_or in Ho. destruct Ho as [Ho|Ho]; apply in_map_iff in Ho; destruct Ho as (x & <- & Hx).
    - apply in_seq in Hx. apply mu_limit_good; auto; lia.
    - destruct (BO x Hx). apply (ext_good n mus K fuel); auto. }
  assert (Hloop : forall o, In o LL -> o_i o <> o_j o).
  { intros o Ho. apply in_app_or in Ho. destruct Ho as [Ho|Ho]; apply in_map_iff in Ho; destruct Ho as (x & <- & Hx).
    - apply in_seq in Hx. unfold mu_limit. destruct (nth_error mus x) as [m|] eqn:Em; [cbn; lia|apply nth_error_None in Em; lia].
    - destruct (Hom x Hx) as (_ & _ & _ & _ & _ & W6). exact W6. }
  assert (HLO := fun o Ho => lo_ok one 32 ltac:(lia) n (2 * K) (3 * K) o ltac:(lia) ltac:(lia) (HG o Ho)).
  (* sizes *)
  assert (Hhi : zsum LL hi <= vmax).
  { unfold all_lims, top_cost. rewrite zsum_app. enough (zsum OL hi <= zsum oms hi) by lia.
    unfold om_lims. rewrite zsum_map. apply zsum_le. intros o Ho. destruct (BO o Ho). destruct (Hom o Ho) as (W1 & W2 & W3 & _).
    assert (Hin : In (ext_om mus fuel o) LL) by (apply in_or_app; right; apply in_map; auto).
    assert (Lu := lg_lu _ _ _ _ (HG _ Hin)).
    destruct (ext_value n mus K fuel HK HKI Hf3 o (o_l (ext_om mus fuel o)) (Hom o Ho)) as (a & A1 & A2); auto.
    destruct (ext_value n mus K fuel HK HKI Hf3 o (o_u (ext_om mus fuel o)) (Hom o Ho)) as (b & B1 & B2); auto; [cbn; lia|].
    assert (C1 := convex_max _ _ _ a W3 A1). assert (C2 := convex_max _ _ _ b W3 B1).
    unfold hi at 1. rewrite A2, B2. unfold hi. lia. }
  assert (Hsp : vmax - zsum LL (lo one 32) <= S).
  { unfold top_cost, all_lims. rewrite zsum_app.
    assert (Q1 : zsum ML hi - zsum ML (lo one 32) <= sumZ (map wm (seq 1 n))).
    { rewrite <- zsum_sub, sumZ_zsum. unfold mu_lims. rewrite zsum_map. apply zsum_le. intros i Hi.
      assert (Hin : In (mu_limit mus i) LL) by (apply in_or_app; left; apply in_map; auto).
      destruct (HLO _ Hin) as (_ & _ & (x & X1 & X2)). rewrite <- X2. apply in_seq in Hi.
      unfold hi, mu_limit in *. destruct (nth_error mus i) as [m|] eqn:Em; [|apply nth_error_None in Em; lia].
      cbn [o_l o_u o_fn] in *. assert (Y1 := Wm i m (m_l m) x ltac:(lia) Em). assert (Y2 := Wm i m (m_u m) x ltac:(lia) Em). lia. }
    assert (Q2 : zsum oms hi - zsum OL (lo one 32) <= sumZ (map wo (seq 0 (length oms)))).
    { unfold om_lims. rewrite zsum_map, <- zsum_sub, sumZ_zsum, (zsum_ak oms OmegaLimit0). apply zsum_le. intros k Hk. apply in_seq in Hk.
      set (o := nth k oms OmegaLimit0). assert (Ek : nth_error oms k = Some o) by (apply nth_error_nth'; lia).
      assert (Ho := nth_error_In _ _ Ek). destruct (BO o Ho). destruct (Hom o Ho) as (W1 & _).
      assert (Hin : In (ext_om mus fuel o) LL) by (apply in_or_app; right; apply in_map; auto).
      destruct (HLO _ Hin) as (_ & _ & (x & X1 & X2)). rewrite <- X2.
      destruct (ext_value n mus K fuel HK HKI Hf3 o x (Hom o Ho)) as (a & A1 & A2); auto; [cbn in X1; lia|]. rewrite A2.
      assert (Y1 := Wo k o (o_l o) a Ek). assert (Y2 := Wo k o (o_u o) a Ek). unfold hi. lia. }
    lia. }
  assert (Hnn : forall o, In o LL -> 0 <= hi o - lo one 32 o).
  { intros o Ho. destruct (HLO o Ho) as (_ & B & _). assert (X := lg_lu _ _ _ _ (HG o Ho)). specialize (B (o_l o)). unfold hi. lia. }
  assert (Hone : forall o, In o LL -> hi o - lo one 32 o <= S).
  { intros o Ho. assert (Hin := Ho). apply in_split in Hin. destruct Hin as (l1 & l2 & E).
    assert (T : zsum LL (fun o => hi o - lo one 32 o) <= S) by (rewrite zsum_sub; lia).
    rewrite E in T. rewrite zsum_app in T. cbn [zsum] in T.
    assert (A1 := zsum_nonneg l1 (fun o => hi o - lo one 32 o) ltac:(intros; apply Hnn; rewrite E; apply in_or_app; auto)).
    assert (A2 := zsum_nonneg l2 (fun o => hi o - lo one 32 o) ltac:(intros; apply Hnn; rewrite E; apply in_or_app; simpl; auto)). lia. }
  assert (Hst : forall o, In o LL -> steep M o).
  { intros o Ho. destruct (HLO o Ho) as (_ & B & _). assert (C := Hone o Ho). destruct (HG o Ho) as [A1 A2 A3 A4 A5 A6 A7 A8].
    constructor; auto. intros t Ht. assert (C1 := B t ltac:(lia)). assert (C2 := B (t + 1) ltac:(lia)).
    assert (C3 := convex_max _ _ _ t A3 ltac:(lia)). assert (C4 := convex_max _ _ _ (t + 1) A3 ltac:(lia)). fold (hi o) in C3, C4. lia. }
  (* the arcs *)
  assert (HAin : forall a, In a A -> exists o, In o LL /\ In a (limit_arcs M o)) by (intros a Ha; apply in_flat_map in Ha; auto).
  assert (HA : arcs_ok n A).
  { constructor; intros a Ha; destruct (HAin a Ha) as (o & Ho & Hao);
      destruct (limit_arcs_in M o a ltac:(lia) (Hst o Ho) Hao) as (C & j & Hj & Hc); [|exact C].
    assert (N := Hloop o Ho). destruct (HG o Ho) as [A1 A2 A3 A4 A5 A6 A7 A8].
    destruct Hc as [(-> & -> & _)|(-> & -> & _)]; auto. }
  assert (Hcost : forall a, In a A -> - (2 * K) <= in_cost a <= 2 * K).
  { intros a Ha. destruct (HAin a Ha) as (o & Ho & Hao).
    destruct (limit_arcs_in M o a ltac:(lia) (Hst o Ho) Hao) as (C & j & Hj & Hc). destruct (HG o Ho) as [A1 A2 A3 A4 A5 A6 A7 A8].
    destruct Hc as [(_ & _ & ->)|(_ & _ & ->)]; lia. }
  assert (Hcov : covered A).
  { intros a Ha _. destruct (HAin a Ha) as (o & Ho & Hao).
    destruct (limit_arcs_in M o a ltac:(lia) (Hst o Ho) Hao) as (C & j & Hj & Hc).
    destruct (limit_arcs_ends M o ltac:(lia) (lg_lu _ _ _ _ (HG o Ho))) as [(b1 & I1 & E1) (b2 & I2 & E2)].
    assert (Q : forall b, In b (limit_arcs M o) -> In b A) by (intros b Hb; apply in_flat_map; eauto).
    assert (G1 := proj2 (maxc_ge A) b1 (Q _ I1)). assert (G2 := proj2 (maxc_ge A) b2 (Q _ I2)).
    destruct Hc as [(_ & _ & ->)|(_ & _ & ->)]; lia. }
  assert (HmaxK : maxc A <= 2 * K) by (apply maxc_le; [lia|intros a Ha; apply Hcost in Ha; lia]).
  assert (HlenA : (length A <= (n + length oms) * Z.to_nat (6 * K + 2))%nat).
  { assert (X : forall L, (forall o, In o L -> o_u o - o_l o <= 3 * K) -> (length (flat_map (limit_arcs M) L) <= length L * Z.to_nat (6 * K + 2))%nat).
    { induction L as [|o L IH]; intros HL; [simpl; lia|]. cbn [flat_map length]. rewrite app_length.
      assert (Y := limit_arcs_len M o). unfold cnt in Y. assert (Y2 := HL o (or_introl eq_refl)).
      assert (Y3 := IH ltac:(intros; apply HL; simpl; auto)). lia. }
    unfold all_arcs. eapply Nat.le_trans; [apply X; intros o Ho; apply (lg_r _ _ _ _ (HG o Ho))|].
    unfold all_lims, mu_lims, om_lims. rewrite app_length, !map_length, seq_length. lia. }
  constructor; auto. intros o Ho. destruct (HLO o Ho) as (_ & Q). exact Q.
Qed.

(** *** The least cost of a circulation gives the answer *)
Lemma simple_answer v x nu : inrange A x -> (forall u, (u <= n)%nat -> exc (length A) (sei A) (sej A) x u = 0) ->
  v = - xcost A x -> v = hinges A nu ->
  solution n mus oms (let val := v + zsum LL (lo one 32) in if vmax <? val then None else Some val).
Proof.
  intros R X V1 V2. cbv zeta. destruct lims_ok as [HG HLO' Hhi Hsp Hst HA Hcost Hcov HmaxK HlenA].
  assert (HLO := fun o Ho => conj I (HLO' o Ho)).
  destruct HWF as (Hlen & Hmu & Hom). destruct HBB as (BM & BO).
  (* the value is the least penalised cost *)
  assert (Hval : forall nu, network_cost M LL nu = hinges A nu + zsum LL (lo one 32)).
  { intros nu'. unfold hinges, all_arcs. fold (hval nu'). rewrite zsum_flat_map, <- zsum_add. unfold network_cost. rewrite sumZ_zsum. apply zsum_ext.
    intros o Ho. destruct (HLO o Ho) as (_ & B & (p & P1 & P2)).
    assert (AM : argmin (cost (o_fn o)) (o_l o) (o_u o) p) by (split; [auto|intros y Hy; rewrite P2; apply B; auto]).
    rewrite (limit_arcs_val M o nu' p ltac:(lia) (Hst o Ho) AM). unfold diff. lia. }
  assert (Hmin : network_min M LL (v + zsum LL (lo one 32))).
  { split; [exists nu; rewrite Hval; lia|]. intros nu'. rewrite Hval.
    assert (G := hinges_ge one n A HA 0 nu' x R X). lia. }
  destruct (threshold2 32 n (2 * K) (3 * K) M vmax LL _ ltac:(lia) ltac:(lia) ltac:(lia) HG Hhi ltac:(lia) ltac:(lia) Hmin) as [T1 T2].
  set (val := v + zsum LL (lo one 32)) in *.
  assert (Hfeas : forall mu om, feasible n mus oms mu om ->
     let nu := fun i => match i with O => 0 | _ => mu i end in sat LL nu /\ lcost LL nu <= total_cost n mus oms mu om).
  { intros mu om [F1 F2] nu'.
    assert (Eoms : forall o, In o OL -> diff nu' o = diff mu o).
    { intros o' Ho'. apply in_map_iff in Ho'. destruct Ho' as (o & <- & Ho).
      destruct (Hom o Ho) as (_ & _ & _ & W4 & W5 & _). unfold diff. cbn [ext_om o_i o_j]. unfold nu'.
      destruct (o_i o); [lia|]. destruct (o_j o); [lia|]. reflexivity. }
    destruct (ext_best n mus K fuel HK HKI Hf3 oms mu om Hom BO F1 F2) as [S1 S2]. fold OL in S1, S2.
    assert (S1' : sat OL nu'). { intros o Ho. unfold sat1. rewrite Eoms by auto. apply S1; auto. }
    assert (C1 : lcost OL nu' = lcost OL mu). { apply zsum_ext. intros o Ho. unfold cost1. rewrite Eoms by auto. reflexivity. }
    assert (Emu : forall i, (1 <= i)%nat -> nu' i - nu' 0%nat = mu i) by (intros [|i] Hi; [lia|unfold nu'; lia]).
    split.
    - apply sat_app. split; auto. apply mu_limits_sat; auto. intros i Hi. rewrite Emu by lia. auto.
    - unfold all_lims, lcost. rewrite zsum_app. fold (lcost OL nu'). fold (lcost ML nu').
      rewrite C1. unfold mu_lims. rewrite (mu_limits_cost n mus Hlen).
      unfold total_cost. fold (om_total oms om).
      enough (sumZ (map (mu_cost mus (fun i => nu' i - nu' 0%nat)) (seq 1 n)) = sumZ (map (mu_cost mus mu) (seq 1 n))) by lia.
      f_equal. apply map_ext_in. intros i Hi. apply in_seq in Hi. unfold mu_cost. rewrite Emu by lia. reflexivity. }
  destruct (Z.ltb_spec vmax val) as [C|C].
  - intros mu om F. destruct (Hfeas mu om F) as [Q _]. apply (T2 C _ Q).
  - destruct (T1 C) as [(nu' & Q & Ev) Hmn]. split.
    + apply sat_app in Q as Q'. destruct Q' as [SM SL].
      set (mu := fun i => nu' i - nu' 0%nat).
      assert (Eoms : forall o, diff mu o = diff nu' o) by (intros o; unfold diff, mu; lia).
      assert (SO : sat OL mu). { intros o Ho. unfold sat1. rewrite Eoms. exact (SL o Ho). }
      destruct (ext_exists n mus K fuel HK HKI Hf3 oms mu Hom BO SO) as (om & F & T). fold OL in T.
      exists mu, om. split; [split|].
      * apply mu_limits_sat in SM; auto.
      * exact F.
      * unfold total_cost. fold (om_total oms om). rewrite T.
        rewrite <- Ev. unfold all_lims, lcost at 2. rewrite zsum_app. fold (lcost OL nu'). fold (lcost ML nu').
        unfold mu_lims. rewrite (mu_limits_cost n mus Hlen). fold mu.
        assert (lcost OL mu = lcost OL nu') by (apply zsum_ext; intros o _; unfold cost1; rewrite Eoms; reflexivity). lia.
    + intros mu om F. destruct (Hfeas mu om F) as [S2 C2]. eapply Z.le_trans; [apply (Hmn _ S2)|exact C2].
Qed.


End Facts.

Theorem simple_solve_ok n mus oms K S s fuel :
  0 < one -> well_formed n mus oms -> bounded_by n mus oms K -> 1 <= K -> 3 * K + 1 <= INT_MAX -> Z.of_nat n + 1 <= INT_MAX ->
  spread_within n mus oms S -> S < 1000000000 * one ->
  (2 ^ Z.of_nat s | one) -> 4 * K * Z.of_nat (n + 1) <= 2 ^ Z.of_nat s ->
  simple_fuel n (length oms) K <= Z.of_nat fuel ->
  exists r, simple_solve fuel n mus oms = Ok r /\ solution n mus oms r.
Proof.
  intros H1 HWF HBB HK HKI HnI HSW HS [w Hw] Hs Hf.
  assert (HSF := scaling_fuel_nonneg (n + 1) ((n + length oms) * Z.to_nat (6 * K + 2)) (2 * K)).
  assert (Hf3 : 3 * K + 1 <= Z.of_nat fuel) by (unfold simple_fuel in Hf; lia).
  assert (LF := lims_ok n mus oms K S fuel H1 HWF HBB HK HKI HSW HS Hf3).
  assert (HX := simple_answer n mus oms K S fuel H1 HWF HBB HK HKI HSW HS Hf3).
  destruct (HWF) as (Hlen & Hmu & Hom). destruct (HBB) as (BM & BO). unfold simple_solve.
  rewrite (collect_nodes_ok n mus K fuel) by (auto; intros i Hi; apply in_seq in Hi; lia). cbn [bind app dzero exact_ops].
  rewrite (collect_edges_ok n mus K fuel) by auto. cbn [bind].
  rewrite ck_ok by (unfold INT_MIN, INT_MAX in *; lia). cbn [bind].
  rewrite <- flat_map_app, <- map_app. rewrite Z.add_0_l.
  fold (mu_lims n mus) (om_lims mus oms fuel). fold (all_lims n mus oms fuel). fold (all_arcs n mus oms fuel). fold (top_cost n mus oms).
  destruct LF as [HG HLO Hhi Hsp Hst HA Hcost Hcov HmaxK HlenA].
  destruct (cs_min_cost_ok one H1 n (all_arcs n mus oms fuel) HA) with (s := s) (w := w) (fuel := fuel) as (b & v & E & Hb & _ & V); auto.
  { intros a Ha. apply Hcost in Ha. lia. }
  { clear - Hs HmaxK. set (c := maxc _) in *. assert (2 * c * (Z.of_nat n + 1) <= 4 * K * Z.of_nat (n + 1)) by nia. lia. }
  { assert (F1 := scaling_fuel_ok n (all_arcs n mus oms fuel) (2 * K) ltac:(lia) HmaxK).
    assert (F2 := scaling_fuel_mono (n + 1) _ _ (2 * K) HlenA). unfold simple_fuel in Hf. lia. }
  rewrite E. cbn [bind]. destruct (V (Hb Hcov)) as (x & nu & R & X & V1 & V2).
  rewrite (add_minima fuel n (2 * K) (3 * K)) by (auto; lia). cbn [bind dlt exact_ops].
  eexists. split; [reflexivity|]. apply (HX v x nu); auto.
Qed.

End Simple.
