(** * The flow solver's state seen through plain functions *)
From Verif Require Import Base BaseLemmas Data UniqueQueue LCT ProblemDefine Flow.
From Verif Require Import LCTChecked LCTBound LCTSpec LCTForest LCTOps UQProof Sums NetMath Spec Convex FlowNet FlowChecked.
Local Open Scope Z_scope.

(** bound on the numbers stored in the tree; every number computed is at most
    twice as large *)
Definition Cb (m : nat) (M : Z) : Z := 40 * (Z.of_nat m + 1) * M.

Section FlowInv.
Variable one : Z.
#[local] Hint Extern 0 (DataOps Z) => exact (exact_ops one) : typeclass_instances.

Variables (n m : nat) (M : Z) (E : list (OmegaLimit Z)) (Gl : list (list nat)).
Hypothesis HN : flownet n m M E Gl.
Variable okd : Z -> bool.
Hypothesis Hokd : forall z, Z.abs z <= 2 * Cb m M -> okd z = true.
Variables (eps h : Z).
Hypothesis Hh : 0 < h.
(** bound on the values of roots in the current phase *)
Variable W : Z.
Hypothesis HW : Z.of_nat m * M <= W <= 34 * (Z.of_nat m * M).
Variable fuel : nat.
Hypothesis Hfuel : (n + 1 < fuel)%nat.

Notation ei := (nei E).
Notation ej := (nej E).
Notation G := (nG Gl).
Notation lft := (lftE n M E).
Notation pe := (pe (nei E) (nej E)).
Notation exc := (exc m (nei E) (nej E)).
Notation minv := (minv n m M (nei E) (nej E) (nG Gl) (lftE n M E) h).

Let net := flownet_netok _ _ _ _ _ HN.

Record St (s : flow Z) (par : nat -> option nat) (val : nat -> Z) (cur : nat -> nat) (p fl im : nat -> Z) : Prop := {
  st_n : f_n s = n;
  st_M : f_M s = M;
  st_eps : f_eps s = eps;
  st_E : f_edges s = E;
  st_G : f_G s = Gl;
  st_len : length (f_nodes s) = (n + 1)%nat;
  st_rep : Rep (f_nodes s) par val;
  st_imb : vec (f_imb s) (n + 1) im;
  st_cur : vec (f_cur s) (n + 1) cur;
  st_fa : vec (f_fa s) (n + 1) par;
  st_fl : vec (f_flows s) (2 * m) fl;
  st_p : vec (f_scal s) (n + 1) p;
  st_uq : uq_ok (n + 1) (f_uq s);
  st_sb : sbh (Cb m M) (f_nodes s)
}.

Record Inv (s : flow Z) par val cur p fl x rank : Prop := {
  iv_st : St s par val cur p fl (exc x);
  iv_m : minv par val cur p fl x rank;
  iv_p : forall v, (v <= n)%nat -> 0 <= p v <= INT_MAX;
  iv_hi : forall v, (v <= n)%nat -> val v <= 2 * M;
  iv_lo : forall v, (v <= n)%nat -> par v = None -> - W <= val v + exc x v
}.

Lemma fl_range par val cur p fl x rank e :
  minv par val cur p fl x rank -> (e < 2 * m)%nat -> - M <= fl e <= M.
Proof. clear Hfuel.
  intros HI He. assert (A := mi_flM _ _ _ _ _ _ _ _ _ _ _ _ _ _ _ HI e He).
  assert (B := mi_flM _ _ _ _ _ _ _ _ _ _ _ _ _ _ _ HI _ (rev_lt _ _ He)).
  rewrite (mi_anti _ _ _ _ _ _ _ _ _ _ _ _ _ _ _ HI e He) in B. lia.
Qed.

(** ** Sizes *)
Lemma exc_bound x v : (forall e, (e < 2 * m)%nat -> - M <= xd x e) -> Z.abs (exc x v) <= Z.of_nat m * M.
Proof. clear Hfuel Hh HW Hokd.
  intros H. unfold NetMath.exc.
  assert (A : forall k, (k < m)%nat -> Z.abs (x k) <= M).
  { intros k Hk. assert (H1 := H (2 * k)%nat ltac:(lia)). assert (H2 := H (rev_id (2 * k)) ltac:(apply rev_lt; lia)).
    rewrite xd_rev in H2. rewrite xd_even in *. lia. }
  assert (B : forall (L : list nat) f, (forall k, In k L -> Z.abs (f k) <= M) -> Z.abs (zsum L f) <= Z.of_nat (length L) * M).
  { induction L as [|a L IH]; intros f Hf; [simpl; lia|]. cbn [zsum length].
    assert (I1 := IH f (fun k Hk => Hf k (or_intror Hk))). assert (I2 := Hf a (or_introl eq_refl)). lia. }
  eapply Z.le_trans; [apply B|rewrite seq_length; lia].
  intros k Hk. apply in_seq in Hk. specialize (A k ltac:(lia)). destruct (Nat.eqb _ _), (Nat.eqb _ _); lia.
Qed.

Lemma M_small : 0 <= M /\ 2 * M <= Cb m M /\ 0 <= Z.of_nat m * M /\ W + Z.of_nat m * M + 2 * M <= Cb m M.
Proof. clear Hfuel Hh Hokd. assert (A := fn_M _ _ _ _ _ HN). unfold Cb. nia. Qed.

Lemma okd_le z b : b <= 2 * Cb m M -> Z.abs z <= b -> ckd okd z = Ok z.
Proof. clear Hfuel Hh HW. intros Hb Hz. unfold ckd. rewrite Hokd by lia. reflexivity. Qed.

Lemma nonroot_val par val cur p fl x rank c j :
  minv par val cur p fl x rank -> (c <= n)%nat -> par c = Some j -> 0 <= val c <= 2 * M.
Proof. clear Hfuel Hh HW Hokd.
  intros HI Hc Hj. destruct (mi_tree _ _ _ _ _ _ _ _ _ _ _ _ _ _ _ HI c j Hc Hj) as (e & T1 & T2 & T3 & T4 & _).
  destruct (G_edge _ _ _ _ _ _ _ net _ _ _ Hc T1) as [Hle _].
  assert (A := net_M _ _ _ _ _ _ _ net e (pe p e) Hle).
  assert (B := mi_xM _ _ _ _ _ _ _ _ _ _ _ _ _ _ _ HI e Hle). lia.
Qed.

Lemma vals_small par val cur p fl x rank :
  minv par val cur p fl x rank -> (forall v, (v <= n)%nat -> val v <= 2 * M) ->
  (forall v, (v <= n)%nat -> par v = None -> - W <= val v + exc x v) -> vb (Cb m M) val (n + 1).
Proof. clear Hfuel Hh Hokd.
  intros HI H1 H2 v Hv. assert (A := M_small). assert (B := H1 v ltac:(lia)).
  destruct (par v) as [j|] eqn:Ej.
  - assert (D := nonroot_val _ _ _ _ _ _ _ v j HI ltac:(lia) Ej). lia.
  - assert (D := H2 v ltac:(lia) Ej).
    assert (F := exc_bound x v (mi_xM _ _ _ _ _ _ _ _ _ _ _ _ _ _ _ HI)). lia.
Qed.

Lemma inv_vb s par val cur p fl x rank : Inv s par val cur p fl x rank -> vb (Cb m M) val (n + 1).
Proof. clear Hfuel Hh Hokd. intros [HS HI HP Hhi Hlo]. eapply vals_small; eauto. Qed.

Lemma q_chk_ok (s : flow Z) e p fl :
  f_n s = n -> f_M s = M -> f_edges s = E ->
  vec (f_flows s) (2 * m) fl -> vec (f_scal s) (n + 1) p ->
  (e < 2 * m)%nat -> - M <= fl e <= M ->
  (forall v, (v <= n)%nat -> 0 <= p v <= INT_MAX) ->
  q_chk okd s e = Ok (Z.max 0 (lft e (pe p e) - fl e)).
Proof. clear Hfuel Hh HW.
  intros E1 E2 E3 Hfl Hp He HM HI. unfold q_chk. rewrite E1, E2, E3. fold (Dn n). unfold NetMath.pe, nei, nej.
  assert (HD := Dn_pos n).
  assert (HS : 0 <= M /\ 2 * M <= Cb m M) by (assert (A := fn_M _ _ _ _ _ HN); unfold Cb; nia).
  assert (Hi := fn_i _ _ _ _ _ HN e He).
  assert (Hj : (o_j (edge E e) <= n)%nat).
  { destruct (fn_rev _ _ _ _ _ HN e He) as (A & _). rewrite <- A. apply (fn_i _ _ _ _ _ HN). apply rev_lt; auto. }
  assert (Ho := fn_ok _ _ _ _ _ HN e He).
  rewrite (vget_nth E e OmegaLimit0) by (rewrite (fn_len _ _ _ _ _ HN); auto). fold (edge E e). set (o := edge E e) in *.
  cbn [bind]. rewrite (vec_get _ _ _ _ Hp) by lia. cbn [bind]. rewrite (vec_get _ _ _ _ Hp) by lia. cbn [bind].
  assert (B1 := HI _ Hi). assert (B2 := HI _ Hj).
  set (d := p (o_i o) - p (o_j o)).
  assert (HR := cdiv_range d (Dn n) HD ltac:(unfold d; lia)).
  rewrite ck_ok by (unfold d, INT_MIN, INT_MAX in *; lia). cbn [bind]. fold d.
  rewrite ceil_div_cdiv by lia. unfold lftE. fold o. set (t := cdiv d (Dn n) - 1) in *.
  rewrite ck_ok by (unfold INT_MIN, INT_MAX in *; lia). cbn [bind].
  rewrite ck_ok by (unfold INT_MIN, INT_MAX in *; lia). cbn [bind].
  rewrite (vec_get _ _ _ _ Hfl) by lia. cbn [bind].
  unfold eslope, slope. assert (Hlu := eo_lu _ _ Ho).
  destruct (Z.ltb_spec (o_u o) (t + 1)) as [C1|C1].
  - destruct (Z.leb_spec (o_u o) t); [|lia]. cbn [dsub exact_ops].
    rewrite (okd_le _ (2 * M)) by lia. f_equal. lia.
  - destruct (Z.leb_spec (o_u o) t); [lia|].
    destruct (Z.ltb_spec t (o_l o)) as [C2|C2].
    + cbn [dzero exact_ops]. f_equal. lia.
    + assert (Hsl := eo_slope _ _ Ho t ltac:(lia)).
      rewrite (cost_ok _ _ _ (t + 1) (eo_def _ _ Ho)) by lia. cbn [bind].
      rewrite (cost_ok _ _ _ t (eo_def _ _ Ho)) by lia. cbn [bind dsub exact_ops].
      rewrite (okd_le _ M) by lia. cbn [bind]. rewrite (okd_le _ (2 * M)) by lia. cbn [bind].
      unfold dmax. cbn [dzero dsub dlt exact_ops]. f_equal.
      destruct (Z.ltb_spec 0 (cost (o_fn o) (t + 1) - cost (o_fn o) t - fl e)); lia.
Qed.

Lemma G_vget v : (v <= n)%nat -> vget Gl v = Ok (G v).
Proof. clear Hfuel. intros Hv. apply vget_nth. rewrite (fn_Glen _ _ _ _ _ HN). lia. Qed.

Lemma E_vget e : (e < 2 * m)%nat -> vget E e = Ok (edge E e).
Proof. clear Hfuel. intros He. apply vget_nth. rewrite (fn_len _ _ _ _ _ HN). lia. Qed.

Lemma rep_wf nodes par val : Rep nodes par val -> length nodes = (n + 1)%nat -> wf (n + 1) par.
Proof. intros [_ H] <-. exact H. Qed.

(** ranks decrease towards the root *)
Lemma path_rank par val cur p fl x rank y ly z :
  minv par val cur p fl x rank -> wf (n + 1) par -> (y <= n)%nat -> path par y ly -> In z ly ->
  (rank z <= rank y)%nat.
Proof.
  intros HI HWf Hy HP. revert Hy z. induction HP as [y Hr|y w l Hr HP IH]; intros Hy z Hi.
  - destruct Hi as [<-|[]]. lia.
  - destruct Hi as [<-|Hi]; [lia|].
    destruct (mi_tree _ _ _ _ _ _ _ _ _ _ _ _ _ _ _ HI y w Hy Hr) as (e & _ & _ & _ & _ & _ & T).
    assert (Hw : (w < n + 1)%nat) by (eapply wf_lt; eauto; lia).
    assert (H := IH ltac:(lia) z Hi). lia.
Qed.

Ltac stf H := pose proof H as [?Sn ?SM ?Seps ?SE ?SG ?Slen ?Srep ?Simb ?Scur ?Sfa ?Sfl ?Sp ?Suq ?Ssb].
Ltac pj := cbn [f_n f_M f_eps f_nodes f_imb f_cur f_uq f_fa f_edges f_flows f_G f_scal
                with_nodes with_fa with_imb with_uq with_flows with_cur with_scal with_eps bind].

(** the root found through the parent array *)
Lemma root_of_path fa par v l r : vec fa (n + 1) par -> path par v (l ++ [r]) ->
  (forall c, In c (l ++ [r]) -> (c <= n)%nat) ->
  forall k, (length l < k)%nat -> root_of k fa v = Some r.
Proof. clear Hfuel Hh HW Hokd.
  intros HV. revert v. induction l as [|a l IH]; intros v HP Hlt k Hk; (destruct k as [|k]; [lia|]); cbn [root_of].
  - destruct (path_hd _ _ _ HP) as [l' El]. cbn [app] in El. inversion El; subst v.
    rewrite (vec_nth _ _ _ HV) by (specialize (Hlt r (or_introl eq_refl)); lia).
    inversion HP as [z Hz|z w l0 Hz HP']; subst; [rewrite Hz; reflexivity|inversion HP'].
  - destruct (path_hd _ _ _ HP) as [l' El]. cbn [app] in El. inversion El; subst a.
    rewrite (vec_nth _ _ _ HV) by (specialize (Hlt v (or_introl eq_refl)); lia).
    cbn [app] in HP. inversion HP as [z Hz Ez|z w l0 Hz HP']; subst.
    + destruct l; discriminate.
    + rewrite Hz. apply IH; auto; [|simpl in Hk; lia]. intros c Hc. apply Hlt. simpl. auto.
Qed.

Lemma is_root_ok fa par v : vec fa (n + 1) par -> (v <= n)%nat -> par v = None -> is_root fa v = true.
Proof. clear Hfuel Hh HW Hokd. intros HV Hv Hr. unfold is_root. rewrite (vec_nth _ _ _ HV) by lia. rewrite Hr. reflexivity. Qed.

Lemma has_parent_ok fa par v j : vec fa (n + 1) par -> (v <= n)%nat -> par v = Some j -> has_parent fa v = true.
Proof. clear Hfuel Hh HW Hokd. intros HV Hv Hr. unfold has_parent. rewrite (vec_nth _ _ _ HV) by lia. rewrite Hr. reflexivity. Qed.

(** Flow.cpp:147-154 *)
Lemma link_chk_ok s par val cur p fl x rank c e :
  Inv s par val cur p fl x rank -> (c <= n)%nat -> par c = None ->
  nth_error (G c) (cur c) = Some e -> xd x e < lft e (pe p e) ->
  exists s', link_chk okd fuel s c = Ok s' /\ f_uq s' = f_uq s /\
    Inv s' (set_parent par c (Some (ej e))) (set_value val c (lft e (pe p e) - xd x e)) cur p fl x rank.
Proof.
  intros HInv Hc Hr He Ha. assert (HVB := inv_vb _ _ _ _ _ _ _ _ HInv). destruct HInv as [HS HI HP Hhi Hlo]. stf HS.
  destruct (G_edge _ _ _ _ _ _ _ net _ _ _ Hc He) as [Hle Hie].
  destruct (adm_test _ _ _ _ _ _ _ net _ _ _ _ _ _ _ _ c e HI Hc Hr (nth_error_In _ _ He)) as [_ HA].
  destruct (HA Ha) as [HA1 HA2].
  assert (Hej := net_ej _ _ _ _ _ _ _ net e Hle).
  assert (HWf := rep_wf _ _ _ Srep Slen). assert (HMs := M_small).
  destruct (wf_path _ _ HWf (ej e) ltac:(lia)) as [ly Hly].
  assert (Hnot : ~ In c ly).
  { intros Hi. assert (R := path_rank _ _ _ _ _ _ _ _ _ _ HI HWf Hej Hly Hi).
    assert (R2 := mi_rank _ _ _ _ _ _ _ _ _ _ _ _ _ _ _ HI e Hle Ha). rewrite Hie in R2. lia. }
  assert (Hv2 : 0 <= lft e (pe p e) - xd x e <= 2 * M).
  { assert (A1 := net_M _ _ _ _ _ _ _ net e (pe p e) Hle).
    assert (A2 := mi_xM _ _ _ _ _ _ _ _ _ _ _ _ _ _ _ HI e Hle). lia. }
  unfold link_chk, link_pre. rewrite SG, (G_vget c Hc). pj. rewrite (vec_get _ _ _ _ Scur) by lia. pj.
  rewrite (vget_ok _ _ _ He). pj. rewrite SE, (E_vget e Hle). pj.
  rewrite (is_root_ok _ _ _ Sfa Hc Hr).
  assert (Hpre : match root_of (length (f_fa s)) (f_fa s) (ej e) with Some r => negb (Nat.eqb r c) | None => false end = true).
  { destruct (exists_last (l := ly)) as (l & r & El).
    { destruct (path_hd _ _ _ Hly) as [l' ->]. congruence. }
    subst ly. assert (Hlen := path_length _ _ (ej e) _ HWf ltac:(lia) Hly). rewrite app_length in Hlen. simpl in Hlen.
    rewrite (root_of_path _ _ (ej e) l r Sfa Hly).
    - destruct (Nat.eqb_spec r c) as [->|]; [|reflexivity]. exfalso. apply Hnot, in_or_app; simpl; auto.
    - intros z Hz. assert (H := path_lt _ _ (ej e) _ HWf ltac:(lia) Hly z Hz). lia.
    - rewrite (vec_len _ _ _ Sfa). lia. }
  fold (ej e). rewrite Hpre. cbn [andb assert_]. pj.
  rewrite (vec_set _ _ _ _ _ Sfa) by lia. pj.
  rewrite (q_chk_ok _ e p fl); pj; auto; [|eapply fl_range; eauto]. pj.
  rewrite HA1, Z.max_r by lia. rewrite <- Slen in HVB.
  destruct (set_val_chk_ok one okd _ Hokd fuel (f_nodes s) par val c (lft e (pe p e) - xd x e) Srep ltac:(lia) ltac:(lia) Ssb HVB ltac:(lia))
    as (h1 & E1 & SB1 & IR1 & L1 & R1). rewrite E1. pj.
  destruct (vget (f_nodes s) (ej e)) eqn:Ev.
  2:{ exfalso. unfold vget in Ev. destruct (nth_error (f_nodes s) (ej e)) eqn:En; [congruence|].
      apply nth_error_None in En. lia. }
  pj.
  assert (HVB1 : vb (Cb m M) (set_value val c (lft e (pe p e) - xd x e)) (length h1)).
  { rewrite L1. intros i Hi. unfold set_value. destruct (Nat.eqb i c); [lia|apply HVB; auto]. }
  destruct (set_fa_chk_ok one okd _ Hokd fuel h1 par _ c (ej e) ly R1 ltac:(lia) ltac:(lia) ltac:(lia) Hr Hly Hnot (or_intror (conj SB1 IR1)) HVB1)
    as (h2 & E2 & SB2 & L2 & R2). rewrite E2. pj.
  eexists. split; [reflexivity|]. split; [reflexivity|].
  constructor; auto.
  - constructor; pj; auto; try congruence. apply (vec_upd _ _ par); auto; lia.
  - apply (minv_link _ _ _ _ _ _ _ net); auto.
  - intros v Hv. unfold set_value. destruct (Nat.eqb v c); [lia|auto].
  - intros v Hv. unfold set_parent, set_value. destruct (Nat.eqb v c); [congruence|auto].
Qed.

(** Flow.cpp:156-162 *)
Lemma flow_cut_chk_ok s par val cur p fl x rank c j :
  Inv s par val cur p fl x rank -> (c <= n)%nat -> par c = Some j ->
  exists s' fl', flow_cut_chk okd fuel s c = Ok s' /\ f_uq s' = f_uq s /\
    Inv s' (set_parent par c None) val cur p fl' x rank.
Proof.
  intros HInv Hc Hr. assert (HVB := inv_vb _ _ _ _ _ _ _ _ HInv). destruct HInv as [HS HI HP Hhi Hlo]. stf HS.
  destruct (mi_tree _ _ _ _ _ _ _ _ _ _ _ _ _ _ _ HI c j Hc Hr) as (e & T1 & T2 & T3 & T4 & T5 & T6).
  destruct (G_edge _ _ _ _ _ _ _ net _ _ _ Hc T1) as [Hle Hie]. assert (HMs := M_small).
  assert (Hvc := nonroot_val _ _ _ _ _ _ _ c j HI Hc Hr).
  assert (Hfr := fl_range _ _ _ _ _ _ _ e HI Hle).
  assert (Hlf := net_M _ _ _ _ _ _ _ net e (pe p e) Hle).
  assert (Hxr := exc_bound x c (mi_xM _ _ _ _ _ _ _ _ _ _ _ _ _ _ _ HI)).
  assert (HxM : - M <= xd x e <= M).
  { assert (A1 := mi_xM _ _ _ _ _ _ _ _ _ _ _ _ _ _ _ HI e Hle).
    assert (A2 := mi_xM _ _ _ _ _ _ _ _ _ _ _ _ _ _ _ HI _ (rev_lt _ _ Hle)). rewrite xd_rev in A2. lia. }
  rewrite <- Slen in HVB.
  unfold flow_cut_chk. rewrite (has_parent_ok _ _ _ _ Sfa Hc Hr). cbn [assert_ bind].
  rewrite (vec_set _ _ _ _ _ Sfa) by lia. pj.
  destruct (cut_chk_ok one okd _ Hokd fuel (f_nodes s) par val c j Srep ltac:(lia) ltac:(lia) Hr Ssb HVB) as (h1 & E1 & SB1 & L1 & R1).
  rewrite E1. pj. rewrite SG, (G_vget c Hc). pj. rewrite (vec_get _ _ _ _ Scur) by lia. pj.
  rewrite (vget_ok _ _ _ T1). pj.
  rewrite (q_chk_ok _ e p fl); pj; auto. pj.
  rewrite Z.max_r by lia. rewrite <- L1 in HVB.
  destruct (get_val_chk_ok one okd _ Hokd fuel h1 _ val c R1 ltac:(lia) ltac:(lia) SB1 HVB) as (h2 & E2 & SB2 & L2 & R2).
  rewrite E2. pj. cbn [dsub exact_ops]. rewrite (okd_le _ (2 * M)) by lia. pj.
  unfold add_flow_chk. pj. rewrite (vec_get _ _ _ _ Sfl) by lia. pj. cbn [dadd exact_ops].
  rewrite (okd_le _ M) by lia. pj.
  rewrite (vec_set _ _ _ _ _ Sfl) by lia. pj.
  set (fe := fl e + (lft e (pe p e) - fl e - val c)).
  assert (V1 := vec_upd _ _ _ e fe Sfl Hle).
  rewrite (vec_get _ _ _ _ V1) by lia. rewrite fup_eq. pj.
  assert (Hlr := rev_lt _ _ Hle).
  rewrite (vec_set _ _ _ _ _ V1) by lia. pj.
  eexists _, _. split; [reflexivity|]. split; [reflexivity|].
  constructor; auto.
  - constructor; pj; auto; try congruence.
    + apply (vec_upd _ _ par); auto; lia.
    + apply (vec_upd _ _ (fup fl e fe)); auto; lia.
  - eapply (minv_cut _ _ _ _ _ _ _ net); eauto. intros e'. unfold fup, fe.
    cbn [dadd dsub dopp exact_ops]. destruct (Nat.eqb e' (rev_id e)); [lia|]. destruct (Nat.eqb e' e); lia.
  - intros v Hv. unfold set_parent. destruct (Nat.eqb_spec v c) as [->|]; auto. intros _. lia.
Qed.

(** ** Paths and minima *)
Lemma topmost_min (val : nat -> Z) l : l <> [] ->
  exists below y above, l = below ++ y :: above /\
    (forall z, In z below -> val y <= val z) /\ (forall z, In z above -> val y < val z).
Proof.
  induction l as [|a l IH]; intros Hne; [congruence|].
  destruct l as [|b l].
  - exists [], a, []. split; [reflexivity|]. split; intros z [].
  - destruct IH as (below & y & above & El & H1 & H2); [congruence|].
    destruct (Z.le_gt_cases (val y) (val a)) as [C|C].
    + exists (a :: below), y, above. rewrite El. split; [reflexivity|]. split; auto.
      intros z [<-|Hz]; auto.
    + exists [], a, (b :: l). split; [reflexivity|]. split; [intros z []|].
      intros z Hz. rewrite El in Hz. apply in_app_or in Hz. destruct Hz as [Hz|[<-|Hz]]; auto.
      * specialize (H1 z Hz). lia.
      * specialize (H2 z Hz). lia.
Qed.

Lemma path_cut_prefix par v below y above r :
  path par v ((below ++ y :: above) ++ [r]) -> path (set_parent par y None) v (below ++ [y]).
Proof.
  revert v. induction below as [|a below IH]; intros v HP.
  - destruct (path_hd _ _ _ HP) as [l' El]. inversion El; subst y. constructor. apply set_parent_eq.
  - assert (ND := path_nodup _ _ _ HP). inversion HP as [z Hz Ez|z w l Hz HP' Ez El]; subst.
    + destruct below; discriminate.
    + simpl. econstructor; [|apply IH; exact HP'].
      rewrite set_parent_neq; auto. intros ->. inversion ND as [|q1 q2 H1 H2]; subst. apply H1.
      apply in_or_app; left. apply in_or_app; right; simpl; auto.
Qed.

Lemma path_nonroot par v l r y : path par v (l ++ [r]) -> In y l -> exists j, par y = Some j.
Proof.
  remember (l ++ [r]) as lp eqn:El. intros HP. revert l El. induction HP as [v Hv|v w lp Hv HP IH]; intros l El Hi.
  - destruct l as [|a [|b l]]; [destruct Hi|discriminate|discriminate].
  - destruct l as [|a l]; [destruct Hi|]. inversion El; subst. destruct Hi as [<-|Hi]; [eauto|eapply IH; eauto].
Qed.

Lemma path_last_root par v l r : path par v (l ++ [r]) -> par r = None.
Proof.
  remember (l ++ [r]) as lp eqn:El. intros HP. revert l El. induction HP as [v Hv|v w lp Hv HP IH]; intros l El.
  - destruct l as [|a [|b l]]; [inversion El; subst; auto|discriminate|discriminate].
  - destruct l as [|a l]; [inversion El; subst; inversion HP|]. inversion El; subst. eapply IH; eauto.
Qed.

Lemma path_root_neq par v l r : path par v (l ++ [r]) -> l <> [] -> v <> r.
Proof.
  intros HP Hne. assert (ND := path_nodup _ _ _ HP). destruct l as [|a l]; [congruence|].
  destruct (path_hd _ _ _ HP) as [l' El]. inversion El; subst. inversion ND as [|q1 q2 H1 H2]; subst.
  intros ->. apply H1, in_or_app; simpl; auto.
Qed.

(** Flow.cpp:97-103 *)
Lemma send_push_ok s par val cur p fl x rank v l r d :
  Inv s par val cur p fl x rank -> (v <= n)%nat -> path par v (l ++ [r]) -> l <> [] ->
  0 <= d <= Cb m M -> (forall c, In c l -> d <= val c) ->
  exists s' x', send_push_chk okd fuel s v r d = Ok s' /\
    Inv s' par (add_values val (l ++ [r]) (- d)) cur p fl x' rank /\
    (forall w, exc x' w = exc x w + (if Nat.eqb r w then d else 0) - (if Nat.eqb v w then d else 0)) /\
    (forall e, (e < 2 * m)%nat -> xd x' e < lft e (pe p e) -> xd x e < lft e (pe p e)) /\
    ((uq_queue (f_uq s') = uq_queue (f_uq s) /\ (0 < exc x' r -> In r (uq_queue (f_uq s)))) \/
     (uq_queue (f_uq s') = uq_queue (f_uq s) ++ [r] /\ 0 < exc x' r)).
Proof.
  intros HInv Hv HPa Hl [Hd HdC] Hval. assert (HVB := inv_vb _ _ _ _ _ _ _ _ HInv). destruct HInv as [HS HI HP Hhi Hlo]. stf HS.
  assert (HWf := rep_wf _ _ _ Srep Slen). assert (HMs := M_small).
  assert (Hlt : forall c, In c (l ++ [r]) -> (c <= n)%nat).
  { intros c Hc. assert (H := path_lt _ _ v _ HWf ltac:(lia) HPa c Hc). lia. }
  assert (Hrn : (r <= n)%nat) by (apply Hlt, in_or_app; simpl; auto).
  destruct (minv_push_path _ _ _ _ _ _ _ net h Hh par (l ++ [r]) v l r val cur p fl x rank d HPa eq_refl Hlt HI Hd Hval)
    as (x' & HI' & HE' & HM').
  assert (Hvr := path_root_neq _ _ _ _ HPa Hl).
  assert (Hvp : exists jv, par v = Some jv).
  { apply (path_nonroot _ _ _ _ v HPa). destruct (path_hd _ _ _ HPa) as [l' Ep].
    destruct l as [|a0 l0]; [congruence|]. cbn [app] in Ep. inversion Ep; subst. simpl; auto. }
  assert (Hhi' : forall w, (w <= n)%nat -> add_values val (l ++ [r]) (- d) w <= 2 * M).
  { intros w Hw. specialize (Hhi w Hw). unfold add_values. destruct (existsb _ _); lia. }
  assert (Hlo' : forall w, (w <= n)%nat -> par w = None -> - W <= add_values val (l ++ [r]) (- d) w + exc x' w).
  { intros w Hw Hr. specialize (Hlo w Hw Hr). rewrite HE'.
    destruct (Nat.eqb_spec v w) as [->|Hvw]; [destruct Hvp; congruence|].
    destruct (Nat.eqb_spec r w) as [->|Hrw].
    - unfold add_values. rewrite existsb_eqb_true by (apply in_or_app; simpl; auto). lia.
    - unfold add_values. rewrite existsb_eqb_false; [lia|]. intros Hi. apply in_app_or in Hi.
      destruct Hi as [Hi|[Hi|[]]]; [|congruence]. destruct (path_nonroot _ _ _ _ w HPa Hi); congruence. }
  assert (HVB' := vals_small _ _ _ _ _ _ _ HI' Hhi' Hlo').
  rewrite <- Slen in HVB, HVB'.
  assert (Xv := exc_bound x v (mi_xM _ _ _ _ _ _ _ _ _ _ _ _ _ _ _ HI)).
  assert (Xr := exc_bound x r (mi_xM _ _ _ _ _ _ _ _ _ _ _ _ _ _ _ HI)).
  unfold send_push_chk. cbn [dopp exact_ops].
  destruct (add_path_chk_ok one okd _ Hokd fuel (f_nodes s) par val v (l ++ [r]) (- d) Srep ltac:(lia) ltac:(lia) HPa Ssb HVB HVB')
    as (h1 & E1 & SB1 & L1 & R1). rewrite E1. pj.
  rewrite (vec_get _ _ _ _ Simb) by lia. pj. cbn [dsub exact_ops]. rewrite (okd_le _ (2 * Cb m M)) by lia. pj.
  rewrite (vec_set _ _ _ _ _ Simb) by lia. pj.
  assert (V1 := vec_upd _ _ _ v (exc x v - d) Simb ltac:(lia)).
  rewrite (vec_get _ _ _ _ V1) by lia. pj. rewrite fup_neq by congruence. cbn [dadd exact_ops].
  rewrite (okd_le _ (2 * Cb m M)) by lia. pj.
  rewrite (vec_set _ _ _ _ _ V1) by lia. pj.
  assert (V2 := vec_upd _ _ _ r (exc x r + d) V1 ltac:(lia)).
  rewrite (vec_get _ _ _ _ V2) by lia. pj. rewrite fup_eq.
  assert (V3 := vec_ext _ _ _ (exc x') V2).
  assert (HE2 : forall i, fup (fup (exc x) v (exc x v - d)) r (exc x r + d) i = exc x' i).
  { intros i. rewrite HE'. unfold fup. cbn [dadd dsub exact_ops].
    destruct (Nat.eqb_spec i r) as [->|Hir].
    - rewrite Nat.eqb_refl. destruct (Nat.eqb_spec v r); [congruence|lia].
    - destruct (Nat.eqb_spec r i); [congruence|]. destruct (Nat.eqb_spec i v) as [->|Hiv].
      + rewrite Nat.eqb_refl. lia.
      + destruct (Nat.eqb_spec v i); [congruence|lia]. }
  specialize (V3 ltac:(intros; apply HE2)).
  assert (Er : exc x r + d = exc x' r) by (rewrite <- HE2, fup_eq; reflexivity).
  rewrite Er. cbn [dlt dzero exact_ops]. rewrite Er in V3.
  destruct (Z.ltb_spec 0 (exc x' r)) as [Hpos|Hpos].
  - destruct (uq_push_ok (n + 1) (f_uq s) r Suq ltac:(lia)) as (u' & Eu & Ou & Cu). rewrite Eu. pj.
    eexists _, x'. split; [reflexivity|]. split; [|split; [exact HE'|split; [exact HM'|]]].
    + constructor; auto. constructor; pj; auto. lia.
    + pj. destruct Cu as [[C1 C2]|[C1 C2]]; [left|right]; auto.
  - eexists _, x'. split; [reflexivity|]. split; [|split; [exact HE'|split; [exact HM'|]]].
    + constructor; auto. constructor; pj; auto. lia.
    + pj. left. split; auto. lia.
Qed.

Lemma with_nodes_inv s par val cur p fl x rank h1 :
  Inv s par val cur p fl x rank -> length h1 = length (f_nodes s) -> Rep h1 par val -> sbh (Cb m M) h1 ->
  Inv (with_nodes s h1) par val cur p fl x rank.
Proof.
  intros [HS HI HP Hhi Hlo] Hl HR Hsb. stf HS. constructor; auto. constructor; pj; auto. lia.
Qed.

(** is the current edge of [u] admissible? *)
Definition cur_adm (cur : nat -> nat) (p x : nat -> Z) (u : nat) : Prop :=
  exists e, nth_error (G u) (cur u) = Some e /\ xd x e < lft e (pe p e).

Definition adm_le (p x x' : nat -> Z) : Prop :=
  forall e, (e < 2 * m)%nat -> xd x' e < lft e (pe p e) -> xd x e < lft e (pe p e).

Lemma cur_adm_le cur p x x' u : (u <= n)%nat -> adm_le p x x' -> cur_adm cur p x' u -> cur_adm cur p x u.
Proof.
  intros Hu HM (e & He & Ha). exists e. split; auto. apply HM; auto.
  destruct (G_edge _ _ _ _ _ _ _ net _ _ _ Hu He); auto.
Qed.

(** what a [send] from [v] does to tree, flow and queue *)
Record sent (cur : nat -> nat) (p : nat -> Z) (v : nat) (par : nat -> option nat) (x : nat -> Z) (qu : list nat)
  (par' : nat -> option nat) (x' : nat -> Z) (qu' : list nat) : Prop := {
  se_queue : exists ext, qu' = qu ++ ext /\ forall w, In w ext -> w <> v /\ 0 < exc x' w /\ par' w = None;
  se_par : forall u, (u <= n)%nat -> par' u = par u \/ (par u <> None /\ par' u = None /\ ~ cur_adm cur p x' u);
  se_adm : adm_le p x x';
  se_v : 0 <= exc x' v <= exc x v;
  se_other : forall w, w <> v -> exc x w <= exc x' w;
  se_changed : forall w, w <> v -> exc x w <> exc x' w -> par' w = None /\ (0 < exc x' w -> In w qu');
  se_end : par' v = None \/ exc x' v = 0
}.

(** Flow.cpp:104-113 *)
Lemma send_loop_ok : forall k s par val cur p fl x rank v l r,
  (length l <= k)%nat -> Inv s par val cur p fl x rank -> (v <= n)%nat ->
  path par v (l ++ [r]) -> 0 <= exc x v ->
  exists s' par' val' fl' x', send_loop_chk okd fuel k s v r = Ok s' /\
    Inv s' par' val' cur p fl' x' rank /\
    sent cur p v par x (uq_queue (f_uq s)) par' x' (uq_queue (f_uq s')).
Proof.
  induction k as [|k IH]; intros s par val cur p fl x rank v l r Hk HInv Hv HP Hpos.
  - destruct l; [|simpl in Hk; lia]. assert (v = r) by (destruct (path_hd _ _ _ HP) as [l' El]; inversion El; auto). subst r.
    exists s, par, val, fl, x. cbn [send_loop_chk]. rewrite Nat.eqb_refl. split; [reflexivity|]. split; auto.
    constructor; auto; try lia.
    + exists []. rewrite app_nil_r. split; auto. intros w [].
    + red; auto.
    + left. apply (path_last_root par v [] v HP).
  - cbn [send_loop_chk]. destruct (list_eq_dec Nat.eq_dec l []) as [->|Hne].
    + assert (v = r) by (destruct (path_hd _ _ _ HP) as [l' El]; inversion El; auto). subst r.
      exists s, par, val, fl, x. rewrite Nat.eqb_refl. split; [reflexivity|]. split; auto.
      constructor; auto; try lia.
      * exists []. rewrite app_nil_r. split; auto. intros w [].
      * red; auto.
      * left. apply (path_last_root par v [] v HP).
    + assert (Hvr := path_root_neq _ _ _ _ HP Hne).
      apply Nat.eqb_neq in Hvr as Evr. rewrite Evr.
      destruct (topmost_min val l Hne) as (below & y & above & El & Hb & Ha).
      assert (HVB := inv_vb _ _ _ _ _ _ _ _ HInv). pose proof HInv as [HS HI HPp Hhi Hlo]. stf HS.
      assert (HWf := rep_wf _ _ _ Srep Slen).
      assert (Hyl : In y l) by (rewrite El; apply in_or_app; simpl; auto).
      assert (Hyn : (y <= n)%nat).
      { assert (H := path_lt _ _ v _ HWf ltac:(lia) HP y ltac:(apply in_or_app; auto)). lia. }
      destruct (path_nonroot _ _ _ _ y HP Hyl) as [j Hj].
      assert (Hy0 : 0 <= val y).
      { destruct (mi_tree _ _ _ _ _ _ _ _ _ _ _ _ _ _ _ HI y j Hyn Hj) as (e & _ & _ & _ & T4 & _). exact T4. }
      assert (Hpv : exists jv, par v = Some jv).
      { apply (path_nonroot _ _ _ _ v HP). destruct (path_hd _ _ _ HP) as [l' Ep].
        destruct l as [|a0 l0]; [congruence|]. cbn [app] in Ep. inversion Ep; subst. simpl; auto. }
      destruct Hpv as [jv Hjv]. rewrite (has_parent_ok _ _ _ _ Sfa Hv Hjv).
      assert (Hlp := path_length _ _ v _ HWf ltac:(lia) HP). rewrite app_length in Hlp. simpl in Hlp.
      rewrite (root_of_path _ _ v l r Sfa HP);
        [|intros z Hz; assert (H := path_lt _ _ v _ HWf ltac:(lia) HP z Hz); lia|rewrite (vec_len _ _ _ Sfa); lia].
      cbn [ptr_eqb]. rewrite Nat.eqb_refl. cbn [assert_ bind].
      rewrite El in HP. rewrite <- Slen in HVB. assert (HMs := M_small).
      destruct (get_min_chk_ok one okd _ Hokd fuel (f_nodes s) par val v r below y above Srep ltac:(lia) ltac:(lia) HP Hb Ha Ssb HVB)
        as (h1 & E1 & SB1 & L1 & R1). rewrite E1. pj. cbn [fst snd].
      rewrite (vec_get _ _ _ _ Simb) by lia. pj. cbn [dlt exact_ops].
      assert (HInv1 := with_nodes_inv _ _ _ _ _ _ _ _ h1 HInv L1 R1 SB1).
      rewrite <- El in HP.
      assert (Hmin : forall c, In c l -> val y <= val c).
      { intros c Hc. rewrite El in Hc. apply in_app_or in Hc. destruct Hc as [Hc|[<-|Hc]]; auto; [lia|].
        specialize (Ha c Hc). lia. }
      assert (Hrroot := path_last_root _ _ _ _ HP).
      destruct (Z.ltb_spec (exc x v) (val y)) as [C|C].
      * destruct (send_push_ok _ _ _ _ _ _ _ _ v l r (exc x v) HInv1 Hv HP Hne) as (s' & x' & E2 & HI2 & X2 & M2 & Q2).
        { assert (Xv := exc_bound x v (mi_xM _ _ _ _ _ _ _ _ _ _ _ _ _ _ _ HI)). lia. }
        { intros c Hc. specialize (Hmin c Hc). lia. }
        rewrite E2. exists s', par, (add_values val (l ++ [r]) (- exc x v)), fl, x'. split; [reflexivity|]. split; [exact HI2|].
        assert (Xv : exc x' v = 0).
        { rewrite X2, Nat.eqb_refl. destruct (Nat.eqb_spec r v); [congruence|lia]. }
        assert (Xo : forall w, w <> v -> exc x' w = exc x w + (if Nat.eqb r w then exc x v else 0)).
        { intros w Hw. rewrite X2. destruct (Nat.eqb_spec v w); [congruence|lia]. }
        constructor.
        -- revert Q2. pj. intros [[Q2 Q3]|[Q2 Q3]].
           ++ exists []. rewrite app_nil_r. split; auto. intros w [].
           ++ exists [r]. split; auto. intros w [<-|[]]. split; [congruence|]. auto.
        -- auto.
        -- exact M2.
        -- lia.
        -- intros w Hw. rewrite Xo by auto. destruct (Nat.eqb r w); lia.
        -- intros w Hw Hd. rewrite Xo in Hd by auto. destruct (Nat.eqb_spec r w) as [->|]; [|lia].
           split; auto. intros Hp. revert Q2. pj. intros [[Q2 Q3]|[Q2 Q3]]; rewrite Q2; auto.
           apply in_or_app; simpl; auto.
        -- auto.
      * destruct (send_push_ok _ _ _ _ _ _ _ _ v l r (val y) HInv1 Hv HP Hne ltac:(specialize (Hhi y Hyn); lia) Hmin) as (s1 & x1 & E2 & HI2 & X2 & M2 & Q2).
        rewrite E2. pj.
        destruct (flow_cut_chk_ok _ _ _ _ _ _ _ _ y j HI2 Hyn Hj) as (s2 & fl2 & E3 & U3 & HI3).
        rewrite E3. pj.
        assert (Xo : forall w, w <> v -> exc x1 w = exc x w + (if Nat.eqb r w then val y else 0)).
        { intros w Hw. rewrite X2. destruct (Nat.eqb_spec v w); [congruence|lia]. }
        assert (Xv : exc x1 v = exc x v - val y).
        { rewrite X2, Nat.eqb_refl. destruct (Nat.eqb_spec r v); [congruence|lia]. }
        assert (Hlen : (length below <= k)%nat).
        { rewrite El, app_length in Hk. simpl in Hk. lia. }
        rewrite El in HP.
        destruct (IH s2 _ _ _ _ _ _ _ v below y Hlen HI3 Hv (path_cut_prefix _ _ _ _ _ _ HP) ltac:(lia))
          as (s' & par' & val' & fl' & x' & E4 & HI4 & HS4).
        rewrite E4. exists s', par', val', fl', x'. split; [reflexivity|]. split; [exact HI4|].
        assert (Hna : ~ cur_adm cur p x1 y).
        { intros (e & He & Hea).
          destruct (mi_tree _ _ _ _ _ _ _ _ _ _ _ _ _ _ _ (iv_m _ _ _ _ _ _ _ _ HI2) y j Hyn Hj) as (e' & T1 & _ & T3 & _).
          assert (e' = e) by congruence. subst e'. unfold add_values in T3.
          rewrite existsb_eqb_true in T3 by (apply in_or_app; auto). lia. }
        destruct HS4 as [S1 S2 S3 S4 S5 S6 S7]. rewrite U3 in *.
        constructor.
        -- revert Q2. pj. intros [[Q2 Q3]|[Q2 Q3]].
           ++ rewrite Q2 in S1. exact S1.
           ++ destruct S1 as (ext & -> & Hext). exists (r :: ext). rewrite Q2, <- app_assoc. split; [reflexivity|].
              intros w [<-|Hw]; [|auto]. split; [congruence|]. assert (S5r := S5 r ltac:(congruence)). split; [lia|].
              destruct (S2 r) as [Er|(_ & Er & _)].
              ** assert (H := path_lt _ _ v _ HWf ltac:(lia) HP r ltac:(apply in_or_app; simpl; auto)). lia.
              ** rewrite Er. unfold set_parent. destruct (Nat.eqb r y); auto.
              ** exact Er.
        -- intros u Hu. destruct (S2 u Hu) as [Eu|(Eu1 & Eu2 & Eu3)].
           ++ destruct (Nat.eq_dec u y) as [->|Hn].
              ** right. rewrite Eu, set_parent_eq. split; [congruence|]. split; auto.
                 intros Hc. apply Hna. eapply cur_adm_le; eauto.
              ** left. rewrite Eu. apply set_parent_neq; auto.
           ++ right. destruct (Nat.eq_dec u y) as [->|Hn]; [rewrite set_parent_eq in Eu1; congruence|].
              rewrite set_parent_neq in Eu1 by auto. auto.
        -- intros e He Hc. apply M2; auto.
        -- lia.
        -- intros w Hw. assert (A := S5 w Hw). rewrite Xo in A by auto. destruct (Nat.eqb r w); lia.
        -- intros w Hw Hd. destruct (Z.eq_dec (exc x1 w) (exc x' w)) as [Eq|Neq]; [|apply S6; auto].
           rewrite Xo in Eq by auto. destruct (Nat.eqb_spec r w) as [->|]; [|lia].
           assert (Hwn : (w <= n)%nat).
           { assert (H := path_lt _ _ v _ HWf ltac:(lia) HP w ltac:(apply in_or_app; simpl; auto)). lia. }
           split.
           ++ destruct (S2 w Hwn) as [Er|(_ & Er & _)]; [|exact Er].
              rewrite Er. unfold set_parent. destruct (Nat.eqb w y); auto.
           ++ intros Hp. destruct S1 as (ext & -> & _). apply in_or_app; left.
              revert Q2. pj. intros [[Q2 Q3]|[Q2 Q3]]; rewrite Q2; [apply Q3|apply in_or_app; simpl; auto].
              rewrite Xo, Nat.eqb_refl by auto. lia.
        -- exact S7.
Qed.

(** Flow.cpp:94-114 *)
Lemma send_ok s par val cur p fl x rank v :
  Inv s par val cur p fl x rank -> (v <= n)%nat -> 0 <= exc x v ->
  exists s' par' val' fl' x', send_chk okd fuel s v = Ok s' /\
    Inv s' par' val' cur p fl' x' rank /\
    sent cur p v par x (uq_queue (f_uq s)) par' x' (uq_queue (f_uq s')).
Proof.
  intros HInv Hv Hpos. assert (HVB := inv_vb _ _ _ _ _ _ _ _ HInv). pose proof HInv as [HS HI HPp Hhi Hlo]. stf HS.
  assert (HWf := rep_wf _ _ _ Srep Slen).
  destruct (wf_path _ _ HWf v ltac:(lia)) as [lp HP].
  destruct (exists_last (l := lp)) as (l & r & El).
  { destruct (path_hd _ _ _ HP) as [l' ->]. congruence. }
  subst lp.
  assert (Hlen := path_length _ _ v _ HWf ltac:(lia) HP).
  rewrite <- Slen in HVB.
  destruct (find_root_chk_ok one okd _ Hokd fuel (f_nodes s) par val v l r Srep ltac:(lia) ltac:(lia) Ssb HVB HP) as (h1 & E1 & SB1 & L1 & R1).
  unfold send_chk. rewrite E1. pj.
  assert (HInv1 := with_nodes_inv _ _ _ _ _ _ _ _ h1 HInv L1 R1 SB1).
  rewrite app_length in Hlen. simpl in Hlen.
  apply (send_loop_ok fuel _ _ _ _ _ _ _ _ v l r ltac:(lia) HInv1 Hv HP Hpos).
Qed.

End FlowInv.
