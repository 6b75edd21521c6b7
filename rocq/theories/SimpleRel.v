(** * SimpleSolver on numbers that are only right while they are small *)
From Verif Require Import Base BaseLemmas Data ProblemDefine Flow ProblemSolver Oracles CostScaling.
From Verif Require Import Sums NetMath Spec Convex FlowNet PDProof FlowOpt SolverNet SolverProof OracleProof.
From Verif Require Import ScaleNet ScaleRefine ScaleRun ScaleSpec ScaleProof SimpleProof Sim SolverSim Hom ScaleRel ScaleRunRel.
Local Open Scope Z_scope.

(** ** The capacities of the arcs of a limit add up to 2 M *)
Section Caps.
Variables (F : Z -> Z) (l r M : Z).

Lemma hinge_arcs_cap u v j : zsum (hinge_arcs F l r M u v j) in_cap = slope F l r M j - slope F l r M (j - 1).
Proof.
  unfold hinge_arcs. destruct (0 <=? _); [cbn [zsum in_cap]; lia|]. destruct (_ <=? 0); cbn [zsum in_cap]; lia.
Qed.

Lemma hinges_cap u v c : zsum (flat_map (fun k => hinge_arcs F l r M u v (l + Z.of_nat k)) (seq 0 c)) in_cap =
  slope F l r M (l + Z.of_nat c - 1) - slope F l r M (l - 1).
Proof.
  induction c as [|c IH].
  - cbn [seq flat_map zsum]. change (Z.of_nat 0) with 0. replace (l + 0 - 1) with (l - 1) by lia. lia.
  - rewrite seq_S, flat_map_app, zsum_app, IH. cbn [flat_map]. rewrite app_nil_r, hinge_arcs_cap. cbn [Nat.add].
    replace (l + Z.of_nat (S c) - 1) with (l + Z.of_nat c) by lia. lia.
Qed.
End Caps.

Lemma limit_arcs_cap M o : o_l o <= o_u o -> zsum (limit_arcs M o) in_cap = 2 * M.
Proof.
  intros H. unfold limit_arcs. rewrite hinges_cap. unfold cnt. rewrite Z2Nat.id by lia.
  replace (o_l o + (o_u o - o_l o + 1) - 1) with (o_u o) by lia. unfold slope.
  destruct (Z.leb_spec (o_u o) (o_u o)); [|lia]. destruct (Z.leb_spec (o_u o) (o_l o - 1)); [lia|].
  destruct (Z.ltb_spec (o_l o - 1) (o_l o)); lia.
Qed.

Lemma lims_cap M L : (forall o, In o L -> o_l o <= o_u o) -> allcap (flat_map (limit_arcs M) L) = 2 * M * Z.of_nat (length L).
Proof.
  unfold allcap. induction L as [|o L IH]; intros H; [cbn; lia|]. cbn [flat_map length].
  rewrite zsum_app, IH by (intros; apply H; simpl; auto). rewrite limit_arcs_cap by (apply H; simpl; auto). lia.
Qed.

Section SimpleRel.
Context {D : Type} {ops : DataOps D}.
Variables (Rc Rp : Z -> D -> Prop) (Bc Bp : Z).
Hypothesis HC : hom ops Rc Bc.
Hypothesis HP : hom ops Rp Bp.
Variable one : Z.
#[local] Hint Extern 0 (DataOps Z) => exact (exact_ops one) : typeclass_instances.
Notation M := (one * 1000000000).
Hypothesis H1c : Rc one done.

(** the callbacks agree on l..u *)
Definition fnR (f : Fn Z) (g : Fn D) (l u : Z) : Prop := forall x, l <= x <= u -> sim Rc (f x) (g x).

(** SimpleSolver.cpp:93-104 *)
Lemma ternary_sim f g : forall fuel l r, l <= r -> fnR f g l r ->
  sim (fun a b => a = b /\ l <= fst a <= r /\ l <= snd a <= r) (ternary_loop fuel f l r) (ternary_loop fuel g l r).
Proof using HC.
  induction fuel as [|fuel IH]; intros l r Hlr Hf; cbn [ternary_loop]; (destruct (Z.ltb_spec l r); [|apply sim_ok; cbn; repeat split; lia]).
  { apply sim_err. }
  assert (Hq : 0 <= Z.quot (r - l) 3 /\ 3 * Z.quot (r - l) 3 <= r - l).
  { rewrite Z.quot_div_nonneg by lia. split; [apply Z.div_pos; lia|apply Z.mul_div_le; lia]. }
  intros p E. apply bind_inv in E. destruct E as (d0 & E1 & E). rewrite E1. apply ck_inv in E1. destruct E1 as [-> _].
  cbn [bind]. apply bind_inv in E. destruct E as (lmid & E1 & E). rewrite E1. apply ck_inv in E1. destruct E1 as [-> _].
  cbn [bind]. apply bind_inv in E. destruct E as (rmid & E1 & E). rewrite E1. apply ck_inv in E1. destruct E1 as [-> _].
  cbn [bind]. set (t := Z.quot (r - l) 3) in *.
  apply bind_inv in E. destruct E as (a & E1 & E). destruct (Hf (l + t) ltac:(lia) a E1) as (a' & E1' & Ra). rewrite E1'. cbn [bind].
  apply bind_inv in E. destruct E as (b & E2 & E). destruct (Hf (r - t) ltac:(lia) b E2) as (b' & E2' & Rb). rewrite E2'. cbn [bind].
  rewrite (h_le _ _ _ HC _ _ _ _ Ra Rb). change (dle a b) with (a <=? b) in E.
  destruct (a <=? b); apply bind_inv in E; destruct E as (q & E3 & E); rewrite E3; apply ck_inv in E3; destruct E3 as [-> _]; cbn [bind].
  - destruct (IH l (r - t - 1) ltac:(lia) ltac:(intros x Hx; apply Hf; lia) p E) as (p' & F & <- & Hp). exists p. split; [exact F|]. split; [reflexivity|lia].
  - destruct (IH (l + t + 1) r ltac:(lia) ltac:(intros x Hx; apply Hf; lia) p E) as (p' & F & <- & Hp). exists p. split; [exact F|]. split; [reflexivity|lia].
Qed.

Lemma function_min_sim fuel f g l r : l <= r -> fnR f g l r -> sim Rc (function_min fuel f l r) (function_min fuel g l r).
Proof using HC.
  intros Hlr Hf. unfold function_min. eapply sim_bind; [apply ternary_sim; eassumption|].
  intros [a b] [a' b'] (E & Ha & Hb). injection E as <- <-. cbn [fst snd] in *.
  apply (sim_bind Rc); [apply Hf; lia|]. intros x x' Hx. apply (sim_bind Rc); [apply Hf; lia|]. intros y y' Hy.
  apply sim_ok. assert (Q := h_min _ _ HC _ _ _ _ Hx Hy). unfold dmin at 1. cbn [dlt exact_ops].
  destruct (Z.ltb_spec y x); [rewrite Z.min_r in Q|rewrite Z.min_l in Q]; auto; lia.
Qed.

(** SimpleSolver.cpp:58-73 *)
Lemma best_above_sim fuel o o' : omR Rc o o' -> o_l o <= o_u o -> forall x, x <= o_u o ->
  sim Rc (best_above fuel o x) (best_above fuel o' x).
Proof using HC.
  intros [l u f g i j Hf] Hlu x Hx. unfold best_above. cbn [o_l o_u o_fn] in *. apply function_min_sim; [lia|].
  intros y Hy. apply Hf. lia.
Qed.

(** SimpleSolver.cpp:15-23 *)
Section Hinges.
Variables (f : Fn Z) (g : Fn D) (l r : Z).
Hypothesis Hlr : l <= r.
Hypothesis HD : defined_on f l r.
Hypothesis Hf : fnR f g l r.
Hypothesis Hl : - INT_MAX <= l.
Hypothesis Hr : r + 1 <= INT_MAX.
Hypothesis HM0 : 0 <= M.
Hypothesis HM : forall t, l <= t < r -> - M <= cost f (t + 1) - cost f t <= M.
Hypothesis HBc : 2 * M <= Bc.
Notation sl := (slope (cost f) l r M).

Lemma fn_rel x : l <= x <= r -> exists d, g x = Ok d /\ Rc (cost f x) d.
Proof using HD Hf. intros Hx. apply (Hf x Hx). apply (cost_ok _ _ _ x HD Hx). Qed.

Lemma bigM_rel : Rc M big_M.
Proof using HC H1c HM0 HBc. unfold big_M, of_int. apply (h_mul _ _ _ HC); auto; [unfold INT_MIN, INT_MAX; lia|]. rewrite Z.abs_eq; lia. Qed.

Lemma slope_bound x : - M <= sl x <= M.
Proof using HM HM0. unfold slope. destruct (Z.leb_spec r x); [lia|]. destruct (Z.ltb_spec x l); [lia|]. apply HM. lia. Qed.

Lemma bij_rel x : exists d, bij g l r x = Ok d /\ Rc (sl x) d.
Proof.
  assert (RM := bigM_rel). assert (SB := slope_bound x). unfold bij, slope in *.
  destruct (Z.ltb_spec x l); [destruct (Z.leb_spec r x); [lia|]; eexists; split; [reflexivity|]; apply (h_opp _ _ _ HC); exact RM|].
  destruct (Z.leb_spec r x); [eexists; split; [reflexivity|exact RM]|].
  rewrite ck_ok by (unfold INT_MIN, INT_MAX in *; lia). cbn [bind].
  destruct (fn_rel (x + 1) ltac:(lia)) as (a & -> & Ra). destruct (fn_rel x ltac:(lia)) as (b & -> & Rb). cbn [bind].
  eexists. split; [reflexivity|]. apply (h_sub _ _ _ HC); auto. lia.
Qed.

(** SimpleSolver.cpp:36-49, 75-88 *)
Lemma add_hinges_rel u v : forall c fuel k edge, (c <= fuel)%nat -> r - l + 1 = Z.of_nat (k + c) ->
  exists X, add_hinges fuel g l r u v (l + Z.of_nat k) edge = Ok (edge ++ X) /\
    Forall2 (inR Rc) (flat_map (fun k => hinge_arcs (cost f) l r M u v (l + Z.of_nat k)) (seq k c)) X.
Proof.
  induction c as [|c IH]; intros fuel k edge Hfu Hk.
  - exists []. cbn [seq flat_map]. rewrite app_nil_r. split; [|constructor].
    destruct fuel; cbn [add_hinges]; (destruct (Z.leb_spec (l + Z.of_nat k) r); [lia|reflexivity]).
  - destruct fuel as [|fuel]; [lia|]. cbn [add_hinges].
    destruct (Z.leb_spec (l + Z.of_nat k) r); [|lia].
    rewrite ck_ok by (unfold INT_MIN, INT_MAX in *; lia). cbn [bind].
    set (j := l + Z.of_nat k) in *.
    destruct (bij_rel (j - 1)) as (lo & E1 & R1). destruct (bij_rel j) as (up & E2 & R2). rewrite E1, E2. cbn [bind].
    assert (B1 := slope_bound (j - 1)). assert (B2 := slope_bound j).
    assert (R0 := h_0 _ _ _ HC).
    rewrite (h_le _ _ _ HC 0 _ _ _ R0 R1), (h_le _ _ _ HC _ 0 _ _ R2 R0).
    cbn [seq flat_map]. fold j.
    assert (E : forall (Y : res (list (InputEdge D))) L, Y = Ok (edge ++ L) -> Forall2 (inR Rc) (hinge_arcs (cost f) l r M u v j) L ->
      exists X, (edge0 <- Y ;; j' <- ck (j + 1) ;; add_hinges fuel g l r u v j' edge0) = Ok (edge ++ X) /\
       Forall2 (inR Rc) (hinge_arcs (cost f) l r M u v j ++ flat_map (fun k => hinge_arcs (cost f) l r M u v (l + Z.of_nat k)) (seq (S k) c)) X).
    { intros Y L -> HL. cbn [bind]. rewrite ck_ok by (unfold INT_MIN, INT_MAX in *; lia). cbn [bind].
      replace (j + 1) with (l + Z.of_nat (S k)) by lia. destruct (IH fuel (S k) (edge ++ L) ltac:(lia) ltac:(lia)) as (X & EX & FX).
      rewrite EX. exists (L ++ X). rewrite app_assoc. split; [reflexivity|]. apply Forall2_app; auto. }
    assert (Rs : Rc (sl j - sl (j - 1)) (dsub up lo)) by (apply (h_sub _ _ _ HC); auto; lia).
    destruct (0 <=? sl (j - 1)) eqn:Q1.
    { apply (E _ [mkIn u v j (dsub up lo)]); [reflexivity|]. unfold hinge_arcs. rewrite Q1. constructor; [|constructor]. split; auto. }
    rewrite ck_ok by (unfold INT_MIN, INT_MAX in *; lia). cbn [bind].
    destruct (sl j <=? 0) eqn:Q2.
    + apply (E _ [mkIn v u (- j) (dsub up lo)]); [reflexivity|]. unfold hinge_arcs. rewrite Q1, Q2. constructor; [|constructor]. split; auto.
    + apply (E _ [mkIn u v j up; mkIn v u (- j) (dopp lo)]); [reflexivity|]. unfold hinge_arcs. rewrite Q1, Q2.
      constructor; [split; auto|]. constructor; [|constructor]. split; auto. split; auto. split; auto. apply (h_opp _ _ _ HC). exact R1.
Qed.
End Hinges.

Lemma limit_hinges_rel o g fuel edge : o_l o <= o_u o -> defined_on (o_fn o) (o_l o) (o_u o) -> - INT_MAX <= o_l o -> o_u o + 1 <= INT_MAX ->
  fnR (o_fn o) g (o_l o) (o_u o) -> 0 <= M -> steep M o -> 2 * M <= Bc ->
  o_u o - o_l o + 1 <= Z.of_nat fuel ->
  exists X, add_hinges fuel g (o_l o) (o_u o) (o_i o) (o_j o) (o_l o) edge = Ok (edge ++ X) /\ Forall2 (inR Rc) (limit_arcs M o) X.
Proof.
  intros G1 HD G2 G3 Hg HM0 [S1 S2 S3] HB Hf.
  destruct (add_hinges_rel (o_fn o) g (o_l o) (o_u o) G1 HD Hg G2 G3 HM0 S3 HB (o_i o) (o_j o) (cnt (o_l o) (o_u o)) fuel 0 edge) as (X & E & FX);
    try (unfold cnt; lia).
  change (Z.of_nat 0) with 0 in E. rewrite Z.add_0_r in E. eauto.
Qed.

(** a function with its range *)
Definition tripR (a : Fn Z * Z * Z) (b : Fn D * Z * Z) : Prop :=
  let '(f, l, u) := a in let '(g, l', u') := b in l' = l /\ u' = u /\ fnR f g l u.

Lemma hi_rel o g : o_l o <= o_u o -> defined_on (o_fn o) (o_l o) (o_u o) -> fnR (o_fn o) g (o_l o) (o_u o) ->
  exists a b, g (o_l o) = Ok a /\ g (o_u o) = Ok b /\ Rc (hi o) (dmax a b).
Proof using HC.
  intros Hlu HD Hg. destruct (Hg (o_l o) ltac:(lia) _ (cost_ok _ _ _ (o_l o) HD (conj (Z.le_refl _) Hlu))) as (a & Ea & Ra).
  destruct (Hg (o_u o) ltac:(lia) _ (cost_ok _ _ _ (o_u o) HD (conj Hlu (Z.le_refl _)))) as (b & Eb & Rb). exists a, b. split; auto. split; auto.
  apply (h_max _ _ HC); auto.
Qed.

Section WF.
Variables (n : nat) (mus : list (MuLimit Z)) (musD : list (MuLimit D)) (K : Z) (fuel : nat).
Hypothesis HK0 : 1 <= K.
Hypothesis HK : 3 * K + 1 <= INT_MAX.
Hypothesis Hfuel : 3 * K + 1 <= Z.of_nat fuel.
Hypothesis Hlen : length mus = (n + 1)%nat.
Hypothesis Hmu : forall i m, (1 <= i <= n)%nat -> nth_error mus i = Some m -> mu_wf m.
Hypothesis HmuK : forall i m, (1 <= i <= n)%nat -> nth_error mus i = Some m -> - K <= m_l m /\ m_u m <= K.
Hypothesis HmuR : musR Rc mus musD.
Hypothesis HM0 : 0 <= M.
Hypothesis HM : 2 * M <= Bc.

(** SimpleSolver.cpp:30-52 *)
Lemma collect_nodes_rel : forall is edge functions mx mxD, (forall i, In i is -> (1 <= i <= n)%nat) ->
  let L := map (mu_limit mus) is in
  (forall o, In o L -> steep M o) -> Rc mx mxD -> Z.abs mx + zsum L (fun o => Z.abs (hi o)) <= Bc ->
  exists X Y mxD', collect_nodes fuel musD is (edge, functions, mxD) = Ok (Some (edge ++ X, functions ++ Y, mxD')) /\
    Forall2 (inR Rc) (flat_map (limit_arcs M) L) X /\ Forall2 tripR (map triple L) Y /\ Rc (mx + zsum L hi) mxD'.
Proof.
  cbv zeta. induction is as [|i is IH]; intros edge functions mx mxD Hin Hst Rmx HB.
  - exists [], [], mxD. cbn [collect_nodes map flat_map zsum]. rewrite !app_nil_r, Z.add_0_r. repeat split; auto; constructor.
  - cbn [collect_nodes map flat_map zsum] in *.
    assert (Hi := Hin i (or_introl eq_refl)).
    destruct (nth_error mus i) as [m|] eqn:Em; [|apply nth_error_None in Em; lia].
    destruct (proj2 HmuR i m ltac:(lia) Em) as (mD & EmD & RmD). rewrite (vget_ok _ _ _ EmD). cbn [bind].
    destruct (Hmu _ _ Hi Em) as (W1 & W2 & W3). assert (B := HmuK _ _ Hi Em).
    destruct RmD as [l u f g Hfg]. cbn [m_l m_u m_fn] in *.
    destruct (Z.ltb_spec u l); [lia|].
    set (o := mkOm l u f i 0%nat) in *.
    assert (EL : mu_limit mus i = o) by (unfold mu_limit; rewrite Em; reflexivity). rewrite EL in *.
    destruct (hi_rel o g W1 W2 Hfg) as (a & b & Ea & Eb & Rab). cbn [o_l o_u o_fn o] in Ea, Eb. rewrite Ea, Eb. cbn [bind].
    destruct (limit_hinges_rel o g fuel edge) as (X1 & E1 & F1); auto; try (cbn [o_l o_u o_fn o]; unfold INT_MAX in *; lia).
    { apply Hst. simpl; auto. }
    cbn [o_l o_u o_fn o_i o_j o] in E1. rewrite E1. cbn [bind].
    assert (ZN : 0 <= zsum (map (mu_limit mus) is) (fun o => Z.abs (hi o))) by (apply zsum_nonneg; intros; lia).
    destruct (IH (edge ++ X1) (functions ++ [(g, l, u)]) (mx + hi o) (dadd mxD (dmax a b))) as (X & Y & mxD' & E & FX & FY & Rm).
    { intros; apply Hin; simpl; auto. } { intros; apply Hst; simpl; auto. }
    { apply (h_add _ _ _ HC); auto. lia. } { lia. }
    exists (X1 ++ X), ((g, l, u) :: Y), mxD'. rewrite <- !app_assoc in E. cbn [app] in E. split; [exact E|].
    split; [apply Forall2_app; auto|]. split; [constructor; auto; cbn; auto|]. rewrite Z.add_assoc. exact Rm.
Qed.

(** SimpleSolver.cpp:53-91 *)
Lemma collect_edges_rel : forall oms omsD edge functions mx mxD, Forall2 (omR Rc) oms omsD ->
  (forall o, In o oms -> om_wf n o) -> (forall o, In o oms -> - K <= o_l o /\ o_u o <= K) ->
  let L := map (ext_om one mus fuel) oms in
  (forall o, In o L -> steep M o) -> Rc mx mxD -> Z.abs mx + zsum oms (fun o => Z.abs (hi o)) <= Bc ->
  exists X Y mxD', collect_edges fuel musD omsD (edge, functions, mxD) = Ok (Some (edge ++ X, functions ++ Y, mxD')) /\
    Forall2 (inR Rc) (flat_map (limit_arcs M) L) X /\ Forall2 tripR (map triple L) Y /\ Rc (mx + zsum oms hi) mxD'.
Proof.
  cbv zeta. intros oms omsD edge functions mx mxD HF. revert edge functions mx mxD.
  induction HF as [|o oD oms omsD Ho HF IH]; intros edge functions mx mxD HW HB Hst Rmx HBm.
  - exists [], [], mxD. cbn [collect_edges map flat_map zsum]. rewrite !app_nil_r, Z.add_0_r. repeat split; auto; constructor.
  - cbn [collect_edges map flat_map zsum] in *.
    assert (W := HW o (or_introl eq_refl)). destruct (HB o (or_introl eq_refl)) as [B1 B2].
    assert (G := ext_good one n mus K fuel HK0 HK Hfuel Hlen Hmu HmuK o W B1 B2).
    assert (LB := low_bounds n mus K Hlen Hmu HmuK o W). destruct (W) as (W1 & W2 & W3 & W4 & W5 & W6).
    assert (HBest := best_above_sim fuel o oD Ho W1).
    assert (Ho' := Ho). destruct Ho' as [l u f g i j Hfg]. set (o := mkOm l u f i j) in *. set (oD := mkOm l u g i j) in *.
    cbn [o_l o_u o_fn o_i o_j o oD] in *.
    destruct (Z.ltb_spec u l); [lia|].
    destruct (hi_rel o g W1 W2 Hfg) as (a & b & Ea & Eb & Rab). cbn [o_l o_u o_fn o] in Ea, Eb. rewrite Ea, Eb. cbn [bind].
    assert (El : low mus o = low mus o) by reflexivity. unfold low in El at 1. cbn [o_i o_j o] in El.
    destruct (nth_error mus i) as [ma|] eqn:Ema; [|apply nth_error_None in Ema; lia].
    destruct (nth_error mus j) as [mb|] eqn:Emb; [|apply nth_error_None in Emb; lia].
    destruct (proj2 HmuR i ma ltac:(lia) Ema) as (maD & EmaD & RmaD). destruct (proj2 HmuR j mb ltac:(lia) Emb) as (mbD & EmbD & RmbD).
    rewrite (vget_ok _ _ _ EmaD). cbn [bind]. rewrite (vget_ok _ _ _ EmbD). cbn [bind].
    assert (Qa : m_l maD = m_l ma) by (destruct RmaD; reflexivity). assert (Qb : m_u mbD = m_u mb) by (destruct RmbD; reflexivity).
    rewrite Qa, Qb, El. rewrite ck_ok by (unfold INT_MIN, INT_MAX in *; lia). cbn [bind].
    assert (Hge : fnR (o_fn (ext_om one mus fuel o)) (best_above fuel oD) (o_l (ext_om one mus fuel o)) (o_u (ext_om one mus fuel o))).
    { intros x Hx. cbn [ext_om o_l o_u o_fn o] in *. apply HBest. lia. }
    destruct (limit_hinges_rel (ext_om one mus fuel o) (best_above fuel oD) fuel edge) as (X1 & E1 & F1); auto;
      try (apply G); try (cbn [ext_om o_l o_u o]; unfold INT_MAX in *; lia).
    { apply Hst. simpl; auto. }
    cbn [ext_om o_l o_u o_fn o_i o_j o] in E1. rewrite E1. cbn [bind].
    assert (ZN : 0 <= zsum oms (fun o => Z.abs (hi o))) by (apply zsum_nonneg; intros; lia).
    destruct (IH (edge ++ X1) (functions ++ [(best_above fuel oD, Z.min l (low mus o), u)]) (mx + hi o) (dadd mxD (dmax a b))) as (X & Y & mxD' & E & FX & FY & Rm).
    { intros; apply HW; simpl; auto. } { intros; apply HB; simpl; auto. } { intros; apply Hst; simpl; auto. }
    { apply (h_add _ _ _ HC); auto. lia. } { lia. }
    exists (X1 ++ X), ((best_above fuel oD, Z.min l (low mus o), u) :: Y), mxD'. rewrite <- !app_assoc in E. cbn [app] in E. split; [exact E|].
    split; [apply Forall2_app; auto|]. split; [constructor; auto; cbn; auto|]. rewrite Z.add_assoc. exact Rm.
Qed.
End WF.

(** SimpleSolver.cpp:95-110 *)
Lemma add_least_rel fuel (q : OmegaLimit Z -> Z) : forall L Y, Forall2 tripR (map triple L) Y ->
  forall r rD, (forall o, In o L -> o_l o <= o_u o /\ function_min fuel (o_fn o) (o_l o) (o_u o) = Ok (q o)) ->
  Rc r rD -> Z.abs r + zsum L (fun o => Z.abs (q o)) <= Bc ->
  exists rD', for_each Y rD (fun r '(f, lo, hi) => m <- function_min fuel f lo hi ;; Ok (dadd r m)) = Ok rD' /\ Rc (r + zsum L q) rD'.
Proof using HC.
  induction L as [|o L IH]; intros Y HY r rD HG Rr HB; inversion HY as [|t t' TL TY Ht HT]; subst.
  - exists rD. cbn [for_each zsum]. rewrite Z.add_0_r. auto.
  - cbn [zsum] in *. destruct (HG o (or_introl eq_refl)) as [A1 E].
    destruct t' as [[g l'] u']. cbn [triple tripR] in Ht. destruct Ht as (-> & -> & Hg).
    destruct (function_min_sim fuel _ _ _ _ A1 Hg _ E) as (d & Ed & Rd). cbn [for_each]. rewrite Ed. cbn [bind].
    assert (ZN : 0 <= zsum L (fun o => Z.abs (q o))) by (apply zsum_nonneg; intros; lia).
    destruct (IH TY HT (r + q o) (dadd rD d)) as (rD' & EF & RF).
    { intros; apply HG; simpl; auto. } { apply (h_add _ _ _ HC); auto. lia. } { lia. }
    exists rD'. split; [exact EF|]. rewrite Z.add_assoc. exact RF.
Qed.

Lemma lo_min fuel n K R o : K <= INT_MAX -> R <= INT_MAX -> R <= Z.of_nat fuel -> lgood n K R o ->
  o_l o <= o_u o /\ function_min fuel (o_fn o) (o_l o) (o_u o) = Ok (lo one 32 o).
Proof using.
  clear. intros HK HR Hf G.
  destruct (lo_ok one 32 ltac:(lia) n K R o HK HR G) as (_ & L2 & (x & X1 & X2)). destruct G as [A1 A2 A3 A4 A5 A6 A7 A8].
  destruct (function_min_ok one (o_fn o) (o_l o) (o_u o) fuel) as (p & E & P1 & P2); auto; try (unfold INT_MIN, INT_MAX in *; lia).
  split; [exact A1|]. rewrite E. f_equal. assert (Q1 := P2 x X1). assert (Q2 := L2 p P1). lia.
Qed.

Lemma add_minima_rel fuel n K R : K <= INT_MAX -> R <= INT_MAX -> R <= Z.of_nat fuel -> forall L Y, Forall2 tripR (map triple L) Y ->
  forall r rD, (forall o, In o L -> lgood n K R o) -> Rc r rD -> Z.abs r + zsum L (fun o => Z.abs (lo one 32 o)) <= Bc ->
  exists rD', for_each Y rD (fun r '(f, lo, hi) => m <- function_min fuel f lo hi ;; Ok (dadd r m)) = Ok rD' /\ Rc (r + zsum L (lo one 32)) rD'.
Proof using HC.
  intros HK HR Hf L Y HY r rD HG. apply add_least_rel; auto. intros o Ho. apply (lo_min fuel n K R); auto.
Qed.

Lemma costs_sums n mus oms A K fuel : well_formed n mus oms -> bounded_by n mus oms K -> 1 <= K -> 3 * K + 1 <= INT_MAX -> 3 * K + 1 <= Z.of_nat fuel ->
  (forall o, In o (all_lims one n mus oms fuel) -> exists x, o_l o <= x <= o_u o /\ cost (o_fn o) x = lo one 32 o) ->
  costs_within n mus oms A ->
  zsum (mu_lims n mus) (fun o => Z.abs (hi o)) + zsum oms (fun o => Z.abs (hi o)) <= A /\
  zsum (all_lims one n mus oms fuel) (fun o => Z.abs (lo one 32 o)) <= A.
Proof.
  intros (Hlen & Hmu & Hom) (BM & BO) HK HKI Hf3 HLO (wm & wo & Wm & Wo & WA). rewrite !sumZ_zsum in WA.
  unfold all_lims in *. rewrite zsum_app. unfold mu_lims, om_lims in *. rewrite !zsum_map.
  rewrite (zsum_ak oms OmegaLimit0 (fun o => Z.abs (hi o))), (zsum_ak oms OmegaLimit0 (fun o => Z.abs (lo one 32 (ext_om one mus fuel o)))).
  assert (Q : forall i, In i (seq 1 n) -> Z.abs (hi (mu_limit mus i)) <= wm i /\ Z.abs (lo one 32 (mu_limit mus i)) <= wm i).
  { intros i Hi. destruct (HLO (mu_limit mus i) ltac:(apply in_or_app; left; apply in_map; auto)) as (x & X1 & X2). rewrite <- X2.
    apply in_seq in Hi. unfold hi, mu_limit in *. destruct (nth_error mus i) as [m|] eqn:Em; [|apply nth_error_None in Em; lia].
    destruct (Hmu i m ltac:(lia) Em) as (W1 & _). cbn [o_l o_u o_fn] in *.
    assert (Y1 := Wm i m (m_l m) ltac:(lia) Em ltac:(lia)). assert (Y2 := Wm i m (m_u m) ltac:(lia) Em ltac:(lia)). assert (Y3 := Wm i m x ltac:(lia) Em X1). lia. }
  assert (Q' : forall k, In k (seq 0 (length oms)) -> Z.abs (hi (nth k oms OmegaLimit0)) <= wo k /\ Z.abs (lo one 32 (ext_om one mus fuel (nth k oms OmegaLimit0))) <= wo k).
  { intros k Hk. apply in_seq in Hk. set (o := nth k oms OmegaLimit0). assert (Ek : nth_error oms k = Some o) by (apply nth_error_nth'; lia).
    assert (Ho := nth_error_In _ _ Ek). destruct (BO o Ho). destruct (Hom o Ho) as (W1 & _).
    destruct (HLO (ext_om one mus fuel o) ltac:(apply in_or_app; right; apply in_map; auto)) as (x & X1 & X2). rewrite <- X2.
    destruct (ext_value one n mus K fuel HK HKI Hf3 o x (Hom o Ho)) as (a & A1 & A2); auto; [cbn in X1; lia|]. rewrite A2.
    assert (Y1 := Wo k o (o_l o) Ek ltac:(lia)). assert (Y2 := Wo k o (o_u o) Ek ltac:(lia)). assert (Y3 := Wo k o a Ek A1). unfold hi. lia. }
  split.
  - assert (U1 := zsum_le _ (fun i => Z.abs (hi (mu_limit mus i))) wm (fun i Hi => proj1 (Q i Hi))).
    assert (U2 := zsum_le _ (fun k => Z.abs (hi (nth k oms OmegaLimit0))) wo (fun k Hk => proj1 (Q' k Hk))). lia.
  - assert (U1 := zsum_le _ (fun i => Z.abs (lo one 32 (mu_limit mus i))) wm (fun i Hi => proj2 (Q i Hi))).
    assert (U2 := zsum_le _ (fun k => Z.abs (lo one 32 (ext_om one mus fuel (nth k oms OmegaLimit0)))) wo (fun k Hk => proj2 (Q' k Hk))). lia.
Qed.

(** the whole of Solve; [unit2] is 1 in the numbers of the potentials *)
Theorem simple_solve_rel n mus oms musD omsD K S A s unit2 fuel :
  0 < one -> well_formed n mus oms -> bounded_by n mus oms K -> 1 <= K -> 3 * K + 1 <= INT_MAX -> Z.of_nat n + 1 <= INT_MAX ->
  spread_within n mus oms S -> S < 1000000000 * one -> costs_within n mus oms A ->
  musR Rc mus musD -> Forall2 (omR Rc) oms omsD ->
  Rp unit2 done -> 0 < unit2 -> (2 ^ Z.of_nat s | unit2) -> 4 * K * Z.of_nat (n + 1) <= 2 ^ Z.of_nat s ->
  unit2 * (2 * K) * (2 * (6 * Z.of_nat n + 7) + 1) <= Bp ->
  8 * (M * Z.of_nat (n + length oms) * K) + 2 * M + A <= Bc ->
  simple_fuel n (length oms) K <= Z.of_nat fuel ->
  exists r rD, simple_solve fuel n musD omsD = Ok rD /\ optR Rc r rD /\ solution n mus oms r.
Proof.
  intros G1 HWF HBB HK HKI HnI HSW HS HA RM RO R2 H2 [w Hw] Hs HBp HBc Hf.
  assert (HSF := scaling_fuel_nonneg (n + 1) ((n + length oms) * Z.to_nat (6 * K + 2)) (2 * K)).
  assert (Hf3 : 3 * K + 1 <= Z.of_nat fuel) by (unfold simple_fuel in Hf; lia).
  assert (LF := lims_ok one n mus oms K S fuel G1 HWF HBB HK HKI HSW HS Hf3).
  assert (HX := simple_answer one n mus oms K S fuel G1 HWF HBB HK HKI HSW HS Hf3).
  destruct LF as [HG HLO Hhi Hsp Hst HAr Hcost Hcov HmaxK HlenA].
  destruct (costs_sums n mus oms A K fuel HWF HBB HK HKI Hf3 (fun o Ho => proj2 (HLO o Ho)) HA) as [CS1 CS2].
  destruct (HWF) as (Hlen & Hmu & Hom). destruct (HBB) as (BM & BO).
  assert (HM0 : 0 < M) by lia.
  set (LN := Z.of_nat (n + length oms)) in *. assert (HLN : 0 <= LN) by (unfold LN; lia).
  assert (HMK : 0 <= M * LN * K) by (apply Z.mul_nonneg_nonneg; [apply Z.mul_nonneg_nonneg|]; lia).
  assert (HA0 : 0 <= A).
  { assert (0 <= zsum (all_lims one n mus oms fuel) (fun o => Z.abs (lo one 32 o))) by (apply zsum_nonneg; intros; lia). lia. }
  assert (ZN1 : 0 <= zsum (mu_lims n mus) (fun o => Z.abs (hi o))) by (apply zsum_nonneg; intros; lia).
  assert (ZN2 : 0 <= zsum oms (fun o => Z.abs (hi o))) by (apply zsum_nonneg; intros; lia).
  assert (ZN3 : Z.abs (zsum (mu_lims n mus) hi) <= zsum (mu_lims n mus) (fun o => Z.abs (hi o))).
  { clear. induction (mu_lims n mus) as [|o L IH]; cbn [zsum]; lia. }
  unfold simple_solve.
  destruct (collect_nodes_rel n mus musD K fuel HK HKI Hf3 Hlen Hmu BM RM ltac:(lia) ltac:(lia) (seq 1 n) [] [] 0 dzero)
    as (X1 & Y1 & mx1 & E1 & F1 & T1 & R1).
  { intros i Hi; apply in_seq in Hi; lia. }
  { intros o Ho. apply Hst. apply in_or_app. left. exact Ho. }
  { apply HC. }
  { fold (mu_lims n mus). change (Z.abs 0) with 0. lia. }
  rewrite E1. cbn [bind app]. fold (mu_lims n mus) in F1, T1, R1.
  destruct (collect_edges_rel n mus musD K fuel HK HKI Hf3 Hlen Hmu BM RM ltac:(lia) ltac:(lia) oms omsD X1 Y1 (0 + zsum (mu_lims n mus) hi) mx1 RO Hom BO)
    as (X2 & Y2 & mx2 & E2 & F2 & T2 & R3).
  { intros o Ho. apply Hst. apply in_or_app. right. exact Ho. }
  { exact R1. }
  { lia. }
  rewrite E2. cbn [bind]. fold (om_lims one mus oms fuel) in F2, T2.
  rewrite ck_ok by (unfold INT_MIN, INT_MAX in *; lia). cbn [bind].
  assert (FA : Forall2 (inR Rc) (all_arcs one n mus oms fuel) (X1 ++ X2)).
  { unfold all_arcs, all_lims. rewrite flat_map_app. apply Forall2_app; auto. }
  assert (TA : Forall2 tripR (map triple (all_lims one n mus oms fuel)) (Y1 ++ Y2)).
  { unfold all_lims. rewrite map_app. apply Forall2_app; auto. }
  assert (LL : length (all_lims one n mus oms fuel) = (n + length oms)%nat).
  { unfold all_lims, mu_lims, om_lims. rewrite app_length, !map_length, seq_length. reflexivity. }
  assert (AC : allcap (all_arcs one n mus oms fuel) = 2 * M * LN).
  { unfold all_arcs. rewrite lims_cap by (intros o Ho; apply (lg_lu _ _ _ _ (HG o Ho))). rewrite LL. reflexivity. }
  destruct (cs_min_cost_rel Rc Rp Bc Bp HC HP unit2 n (all_arcs one n mus oms fuel) (X1 ++ X2) HAr FA (2 * K) R2 H2 Hcost ltac:(lia)
    HBp) with (s := s) (w := w) (fuel := fuel) as (b & vD & E & Hb & _ & V); auto.
  { rewrite AC. lia. }
  { clear - Hs HmaxK. set (c := maxc _) in *. assert (2 * c * (Z.of_nat n + 1) <= 4 * K * Z.of_nat (n + 1)) by nia. lia. }
  { assert (Q1 := scaling_fuel_ok n (all_arcs one n mus oms fuel) (2 * K) ltac:(lia) HmaxK).
    assert (Q2 := scaling_fuel_mono (n + 1) _ _ (2 * K) HlenA). unfold simple_fuel in Hf. lia. }
  rewrite E. cbn [bind]. destruct (V (Hb Hcov)) as (v & x & nu & RV & R & X & V1 & V2).
  assert (VB : Z.abs v <= 4 * (M * LN * K)).
  { rewrite V1, Z.abs_opp. unfold xcost.
    assert (HV : forall k, In k (seq 0 (length (all_arcs one n mus oms fuel))) ->
      - (2 * K) * in_cap (ak (all_arcs one n mus oms fuel) k) <= x k * in_cost (ak (all_arcs one n mus oms fuel) k) <= 2 * K * in_cap (ak (all_arcs one n mus oms fuel) k)).
    { intros k Hk. apply in_seq in Hk. assert (Hkl : (k < length (all_arcs one n mus oms fuel))%nat) by lia.
      assert (B1 := inrange_k 0%nat _ 0%nat x k R Hkl). assert (B2 := Hcost _ (ak_in _ k Hkl)).
      clear - B1 B2 HK. nia. }
    assert (U := zsum_le _ _ _ (fun k Hk => proj2 (HV k Hk))). assert (L := zsum_le _ _ _ (fun k Hk => proj1 (HV k Hk))).
    rewrite zsum_scale in U, L.
    assert (AC' : zsum (seq 0 (length (all_arcs one n mus oms fuel))) (fun k => in_cap (ak (all_arcs one n mus oms fuel) k)) = 2 * M * LN).
    { rewrite <- AC. unfold allcap. rewrite (zsum_ak (all_arcs one n mus oms fuel) (mkIn 0 0 0 0) in_cap). reflexivity. }
    rewrite AC' in U, L. lia. }
  destruct (add_minima_rel fuel n (2 * K) (3 * K) ltac:(lia) ltac:(lia) ltac:(lia) (all_lims one n mus oms fuel) (Y1 ++ Y2) TA v vD HG RV ltac:(lia))
    as (rD & EM & RMi).
  rewrite EM. cbn [bind].
  replace (0 + zsum (mu_lims n mus) hi + zsum oms hi) with (top_cost n mus oms) in R3 by (unfold top_cost; lia).
  rewrite (h_lt _ _ _ HC _ _ _ _ R3 RMi).
  assert (SOL := HX v x nu R X V1 V2). cbv zeta in SOL.
  destruct (top_cost n mus oms <? v + zsum (all_lims one n mus oms fuel) (lo one 32)).
  - exists None, None. split; [reflexivity|]. split; [exact I|exact SOL].
  - eexists (Some _), _. split; [reflexivity|]. split; [exact RMi|exact SOL].
Qed.

End SimpleRel.
