(** * The scaling loop of the flow solver *)
From Verif Require Import Base BaseLemmas Data UniqueQueue LCT ProblemDefine Flow.
From Verif Require Import LCTChecked LCTBound LCTSpec LCTForest LCTOps UQProof Sums NetMath FlowNet FlowInv FlowPhase FlowChecked.
Local Open Scope Z_scope.

Section FlowRun.
Variable one : Z.
#[local] Hint Extern 0 (DataOps Z) => exact (exact_ops one) : typeclass_instances.

Variables (n m : nat) (M : Z) (E : list (OmegaLimit Z)) (Gl : list (list nat)).
Hypothesis HN : flownet n m M E Gl.
Variable okd : Z -> bool.
Hypothesis Hokd : forall z, Z.abs z <= 2 * Cb m M -> okd z = true.

Notation ei := (nei E).
Notation ej := (nej E).
Notation G := (nG Gl).
Notation lft := (lftE n M E).
Notation pe := (pe (nei E) (nej E)).
Notation exc := (exc m (nei E) (nej E)).
Notation minv := (minv n m M (nei E) (nej E) (nG Gl) (lftE n M E)).
Notation St := (St n m M E Gl).
Notation Inv := (Inv n m M E Gl).
Notation opt := (opt m (nei E) (nej E) (lftE n M E)).
Notation nodes := (nodes n).

Let net := flownet_netok _ _ _ _ _ HN.

Ltac stf H := pose proof H as [?Sn ?SM ?Seps ?SE ?SG ?Slen ?Srep ?Simb ?Scur ?Sfa ?Sfl ?Sp ?Suq ?Ssb].
Ltac pj := cbn [f_n f_M f_eps f_nodes f_imb f_cur f_uq f_fa f_edges f_flows f_G f_scal
                with_nodes with_fa with_imb with_uq with_flows with_cur with_scal with_eps bind].

(** State between phases: no tree, the stored flow is a circulation [x] that is
    [kap]-optimal for the potentials [p]; the values left in the tree are
    between [-W] and [2 * M]. *)
Record Head (eps kap W : Z) (s : flow Z) (p x : nat -> Z) : Prop := {
  hd_st : exists par val cur, St eps s par val cur p (xd x) (fun _ => 0) /\
            (forall u, (u <= n)%nat -> par u = None) /\ (forall u, (u <= n)%nat -> - W <= val u <= 2 * M);
  hd_exc : forall u, (u <= n)%nat -> exc x u = 0;
  hd_opt : opt kap p x;
  hd_M : forall e, (e < 2 * m)%nat -> - M <= xd x e;
  hd_q : uq_queue (f_uq s) = [];
  hd_p : forall u, (u <= n)%nat -> 0 <= p u
}.

Lemma xd_M x e : (forall e, (e < 2 * m)%nat -> - M <= xd x e) -> (e < 2 * m)%nat -> - M <= xd x e <= M.
Proof. clear Hokd.
  intros H He. assert (A := H e He). assert (B := H _ (rev_lt _ _ He)). rewrite xd_rev in B. lia.
Qed.

Lemma minv_start' h par val p x :
  0 < h -> (forall u, (u <= n)%nat -> par u = None) -> opt 0 p x ->
  (forall e, (e < 2 * m)%nat -> - M <= xd x e) ->
  minv h par val (fun _ => 0%nat) p (xd x) x (fun _ => 0%nat).
Proof. clear Hokd.
  intros Hh Hpar Ho HM. constructor; auto.
  - intros e He. apply xd_rev.
  - intros c j Hc Hj. rewrite Hpar in Hj by auto. congruence.
  - intros e He. eapply Z.le_trans; [|apply (Ho e He)]. apply (net_mono _ _ _ _ _ _ _ net); auto; lia.
  - intros; lia.
  - intros e He Ha. exfalso. assert (O := Ho e He). rewrite Z.sub_0_r in O. lia.
Qed.

(** the flow vector after add_flow_of_edge *)
Lemma fup_xadd x e d : (e < 2 * m)%nat -> forall e', 
  fup (fup (xd x) e (xd x e + d)) (rev_id e) (- (xd x e + d)) e' = xd (xadd x e d) e'.
Proof. clear Hokd.
  intros He e'. unfold fup. destruct (Nat.eqb_spec e' (rev_id e)) as [->|H1].
  - rewrite xd_xadd_rev, xd_rev. lia.
  - destruct (Nat.eqb_spec e' e) as [->|H2].
    + rewrite xd_xadd_eq. reflexivity.
    + rewrite xd_xadd_neq; auto. intros Hd. symmetry in Hd. destruct (same_arc _ _ Hd); congruence.
Qed.

(** Flow.cpp:58-71 *)
Lemma push_all_ok eps s par val cur p x :
  St eps s par val cur p (xd x) (exc x) -> uq_queue (f_uq s) = [] ->
  (forall u, (u <= n)%nat -> 0 <= p u <= INT_MAX) ->
  (forall e, (e < 2 * m)%nat -> - M <= xd x e) ->
  exists s' x', push_all_chk okd s = Ok s' /\
    St eps s' par val cur p (xd x') (exc x') /\
    opt 0 p x' /\ (forall e, (e < 2 * m)%nat -> - M <= xd x' e) /\
    (forall u, In u (uq_queue (f_uq s')) <-> (u <= n)%nat /\ 0 < exc x' u).
Proof.
  intros HS Hq Hp HM. unfold push_all_chk.
  assert (HMs : 0 <= M /\ 0 <= Z.of_nat m * M /\ Z.of_nat m * M + 2 * M <= Cb m M) by (assert (A := fn_M _ _ _ _ _ HN); unfold Cb; nia).
  assert (Elen : length (f_edges s) = (2 * m)%nat).
  { rewrite (st_E _ _ _ _ _ _ _ _ _ _ _ _ _ HS). apply (fn_len _ _ _ _ _ HN). }
  rewrite Elen.
  destruct (for_each_inv
    (fun pre s' => exists x', St eps s' par val cur p (xd x') (exc x') /\ f_uq s' = f_uq s /\
       (forall e, (e < 2 * m)%nat -> - M <= xd x' e) /\
       (forall e, In e pre -> lft e (pe p e) <= xd x' e))
    (fun s e_id =>
         e <- vget (f_edges s) e_id ;;
         v <- q_chk okd s e_id ;;
         if dlt dzero v then
           a <- vget (f_imb s) (o_i e) ;;
           a' <- ckd okd (dsub a v) ;;
           im <- vset (f_imb s) (o_i e) a' ;;
           b <- vget im (o_j e) ;;
           b' <- ckd okd (dadd b v) ;;
           im <- vset im (o_j e) b' ;;
           add_flow_chk okd (with_imb s im) e_id v
         else Ok s) (seq 0 (2 * m)) s) as (s1 & E1 & x1 & HS1 & U1 & HM1 & HA1).
  - exists x. split; [exact HS|]. split; [reflexivity|]. split; [exact HM|]. intros e [].
  - intros pre e post s1 Epre (x1 & HS1 & U1 & HM1 & HA1). stf HS1.
    assert (Hall : forall e', In e' (pre ++ [e]) -> (e' < 2 * m)%nat).
    { intros e' Hi. assert (H : In e' (seq 0 (2 * m))).
      { rewrite Epre. apply in_app_or in Hi. apply in_or_app. destruct Hi as [Hi|[->|[]]]; simpl; auto. }
      apply in_seq in H. lia. }
    assert (Hle : (e < 2 * m)%nat) by (apply Hall, in_or_app; simpl; auto).
    assert (Hi := net_ei _ _ _ _ _ _ _ net e Hle). assert (Hj := net_ej _ _ _ _ _ _ _ net e Hle).
    rewrite SE, (E_vget n m M E Gl HN e Hle). pj.
    rewrite (q_chk_ok one n m M E Gl HN okd Hokd s1 e p (xd x1)); auto; [|apply xd_M; auto]. pj.
    cbn [dlt dzero exact_ops].
    set (qv := Z.max 0 (lft e (pe p e) - xd x1 e)).
    destruct (Z.ltb_spec 0 qv) as [Hq1|Hq1].
    + assert (Eqv : qv = lft e (pe p e) - xd x1 e) by (unfold qv in *; lia).
      fold (ei e) (ej e).
      assert (HB := net_M _ _ _ _ _ _ _ net e (pe p e) Hle).
      assert (HX0 := xd_M x1 e HM1 Hle).
      assert (Xi := exc_bound m M E x1 (ei e) HM1). assert (Xj := exc_bound m M E x1 (ej e) HM1).
      rewrite (vec_get _ _ _ _ Simb) by lia. pj.
      rewrite (okd_le m M okd Hokd (dsub (exc x1 (ei e)) qv) (2 * Cb m M)) by (cbn [dsub exact_ops]; lia). pj.
      rewrite (vec_set _ _ _ _ _ Simb) by lia. pj.
      assert (V1 := vec_upd _ _ _ (ei e) (dsub (exc x1 (ei e)) qv) Simb ltac:(lia)).
      rewrite (vec_get _ _ _ _ V1) by lia. pj.
      rewrite (okd_le m M okd Hokd (dadd (fup (exc x1) (ei e) (dsub (exc x1 (ei e)) qv) (ej e)) qv) (2 * Cb m M))
        by (try lia; cbn [dadd dsub exact_ops]; unfold fup; destruct (Nat.eqb _ _); lia). pj.
      rewrite (vec_set _ _ _ _ _ V1) by lia. pj.
      assert (V2 := vec_upd _ _ _ (ej e) (dadd (fup (exc x1) (ei e) (dsub (exc x1 (ei e)) qv) (ej e)) qv) V1 ltac:(lia)).
      unfold add_flow_chk. pj. rewrite (vec_get _ _ _ _ Sfl) by lia. pj.
      rewrite (okd_le m M okd Hokd (dadd (xd x1 e) qv) M) by (cbn [dadd exact_ops]; lia). pj.
      rewrite (vec_set _ _ _ _ _ Sfl) by lia. pj.
      assert (V3 := vec_upd _ _ _ e (dadd (xd x1 e) qv) Sfl Hle).
      rewrite (vec_get _ _ _ _ V3) by lia. rewrite fup_eq. pj.
      assert (Hlr := rev_lt _ _ Hle).
      rewrite (vec_set _ _ _ _ _ V3) by lia.
      assert (V4 := vec_upd _ _ _ (rev_id e) (dopp (dadd (xd x1 e) qv)) V3 Hlr). pj.
      cbn [dadd dsub dopp exact_ops] in *.
      eexists. split; [reflexivity|]. exists (xadd x1 e qv).
      assert (HX : forall e', (e' < 2 * m)%nat ->
         (xd (xadd x1 e qv) e' = xd x1 e') \/
         (e' = e /\ xd (xadd x1 e qv) e' = lft e (pe p e)) \/
         (e' = rev_id e /\ xd (xadd x1 e qv) e' = - lft e (pe p e))).
      { intros e' He'. rewrite <- (fup_xadd x1 e qv Hle e'). unfold fup.
        destruct (Nat.eqb_spec e' (rev_id e)); [right; right; split; auto; lia|].
        destruct (Nat.eqb_spec e' e); [right; left; split; auto; lia|auto]. }
      split; [|split; [pj; exact U1|split]].
      * constructor; pj; auto.
        -- eapply vec_ext; [exact V2|]. intros i Hin. unfold fup. rewrite (exc_xadd _ _ _ _ _ _ _ net) by auto.
           destruct (Nat.eqb_spec i (ej e)) as [->|Hij].
           ++ rewrite Nat.eqb_refl. destruct (Nat.eqb_spec (ej e) (ei e)) as [->|Hne].
              ** rewrite Nat.eqb_refl. lia.
              ** destruct (Nat.eqb_spec (ei e) (ej e)); [congruence|lia].
           ++ destruct (Nat.eqb_spec (ej e) i); [congruence|].
              destruct (Nat.eqb_spec i (ei e)) as [->|Hii].
              ** rewrite Nat.eqb_refl. lia.
              ** destruct (Nat.eqb_spec (ei e) i); [congruence|lia].
        -- eapply vec_ext; [exact V4|]. intros i Hin. apply fup_xadd; auto.
      * intros e' He'. destruct (HX e' He') as [->|[[-> ->]|[-> ->]]]; [auto|lia|lia].
      * intros e' Hi'. destruct (HX e' (Hall e' Hi')) as [Ex|[[-> ->]|[-> Ex]]].
        -- rewrite Ex. apply in_app_or in Hi'. destruct Hi' as [Hi'|[->|[]]]; auto.
           exfalso. rewrite xd_xadd_eq in Ex. lia.
        -- lia.
        -- rewrite Ex. rewrite (pe_rev _ _ _ _ _ _ _ net) by auto.
           assert (HQ := net_Q _ _ _ _ _ _ _ net e (pe p e) Hle). lia.
    + exists s1. split; [reflexivity|]. exists x1. split; [exact HS1|]. split; [auto|]. split; [auto|].
      intros e' Hi'. apply in_app_or in Hi'. destruct Hi' as [Hi'|[->|[]]]; auto. unfold qv in Hq1. lia.
  - rewrite E1. pj. rewrite (st_n _ _ _ _ _ _ _ _ _ _ _ _ _ HS1).
    destruct (for_each_inv
      (fun pre s' => St eps s' par val cur p (xd x1) (exc x1) /\
         (forall u, In u (uq_queue (f_uq s')) <-> In u pre /\ 0 < exc x1 u))
      (fun s i => a <- vget (f_imb s) i ;;
         if dlt dzero a then u <- uq_push (f_uq s) i ;; Ok (with_uq s u) else Ok s)
      (seq 0 (n + 1)) s1) as (s2 & E2 & HS2 & HQ2).
    + split; auto. intros u. rewrite U1, Hq. simpl. tauto.
    + intros pre i post s2 Epre (HS2 & HQ2). stf HS2.
      assert (Hi : (i < n + 1)%nat).
      { assert (H : In i (seq 0 (n + 1))) by (rewrite Epre; apply in_or_app; simpl; auto). apply in_seq in H. lia. }
      rewrite (vec_get _ _ _ _ Simb) by lia. pj. cbn [dlt dzero exact_ops].
      destruct (Z.ltb_spec 0 (exc x1 i)) as [Hpos|Hpos].
      * destruct (uq_push_ok (n + 1) (f_uq s2) i Suq Hi) as (u' & Eu & Ou & Cu). rewrite Eu. pj.
        eexists. split; [reflexivity|]. split; [constructor; pj; auto|]. pj.
        intros u. destruct Cu as [[C1 C2]|[C1 C2]]; rewrite C2.
        -- rewrite HQ2. rewrite in_app_iff. simpl. split; [tauto|]. intros [[H|[->|[]]] H2]; [tauto|]. apply HQ2; auto.
        -- rewrite !in_app_iff, HQ2. simpl. split.
           ++ intros [[H1 H2]|[->|[]]]; tauto.
           ++ intros [[H|[->|[]]] H2]; tauto.
      * exists s2. split; [reflexivity|]. split; auto. intros u. rewrite HQ2, in_app_iff. simpl.
        split; [tauto|]. intros [[H|[->|[]]] H2]; [tauto|lia].
    + exists s2, x1. split; [exact E2|]. split; [exact HS2|]. split; [|split; [exact HM1|]].
      * intros e He. rewrite Z.sub_0_r. apply HA1. apply in_seq. lia.
      * intros u. rewrite HQ2, in_seq. split; intros [A B]; split; auto; lia.
Qed.

Variable fuel : nat.
Hypothesis Hfuel : (n + 1 < fuel)%nat.
Hypothesis HfuelE : (2 * m < fuel)%nat.

(** One phase, Flow.cpp:31-35 *)
Lemma phase_parts_ok eps h kap W s p x k :
  0 < h -> h = Z.quot eps 2 -> 0 <= kap -> 0 <= W <= 33 * (Z.of_nat m * M) -> Head eps kap W s p x ->
  (forall u, (u <= n)%nat -> p u + Z.of_nat n * (kap + h) <= INT_MAX) ->
  phase_work n m h kap < Z.of_nat k ->
  exists s1 s2 s' p' x', push_all_chk okd (initialization s) = Ok s1 /\
    refine_loop_chk okd fuel k s1 = Ok s2 /\ cut_all_chk okd fuel s2 = Ok s' /\ Head eps h (W + Z.of_nat m * M) s' p' x' /\
    forall u, (u <= n)%nat -> p u <= p' u <= p u + Z.of_nat n * (kap + h).
Proof.
  intros Hh Heps Hkap HW [(par & val & cur & HS & Hpar & Hval) Hexc Hopt HM Hq Hp] Hint Hwork.
  assert (HW' : Z.of_nat m * M <= W + Z.of_nat m * M <= 34 * (Z.of_nat m * M)) by lia.
  unfold initialization. stf HS.
  assert (Hp2 : forall u, (u <= n)%nat -> 0 <= p u <= INT_MAX).
  { intros u Hu. assert (A := Hint u Hu). assert (B := Hp u Hu). nia. }
  destruct (push_all_ok eps (with_cur s (repeat 0%nat (length (f_cur s)))) par val (fun _ => 0%nat) p x)
    as (s1 & x1 & E1 & HS1 & HO1 & HM1 & HQ1); auto.
  { constructor; pj; auto.
    - eapply vec_ext; [exact Simb|]. intros u Hu. rewrite Hexc by lia. reflexivity.
    - rewrite (vec_len _ _ _ Scur). apply vec_repeat. }
  assert (HI1 := minv_start' h par val p x1 Hh Hpar HO1 HM1).
  assert (HInv1 : Inv eps h (W + Z.of_nat m * M) s1 par val (fun _ => 0%nat) p (xd x1) x1 (fun _ => 0%nat)).
  { constructor; auto.
    - intros v Hv. apply Hval; auto.
    - intros v Hv _. assert (A := Hval v Hv). assert (B := exc_bound m M E x1 v HM1). lia. }
  assert (Hp0 : forall u, (u <= n)%nat -> 0 <= p u /\ p u + Z.of_nat n * (kap + h) <= INT_MAX) by (intros; split; auto).
  destruct (refine_loop_ok one n m M E Gl HN okd Hokd eps h Hh Heps _ HW' fuel Hfuel kap p x Hkap Hopt Hexc Hp0)
    with (k := k) (s := s1) (par := par) (val := val) (cur := fun _ : nat => 0%nat) (p := p) (fl := xd x1) (x := x1)
         (rank := fun _ : nat => 0%nat)
    as (s2 & par2 & val2 & cur2 & p2 & fl2 & x2 & rank2 & E2 & HInv2 & HPI2 & HQ2 & HX2); auto.
  { intros v Hv. assert (D := deg_le n m M E Gl HN v Hv). lia. }
  { eapply Z.le_lt_trans; [|exact Hwork]. eapply mu_start; eauto. }
  { constructor; auto; intros; try lia; nia. }
  { constructor.
    - intros u Hu Hpos. apply HQ1; auto.
    - intros u Hi. apply HQ1; auto.
    - intros u Hu _. auto. }
  destruct (cut_all_ok one n m M E Gl HN okd Hokd eps h _ HW' fuel Hfuel s2 par2 val2 cur2 p2 fl2 x2 rank2 HInv2)
    as (s3 & par3 & fl3 & E3 & U3 & HInv3 & HP3).
  exists s1, s2, s3, p2, x2. split; [exact E1|]. split; [exact E2|]. split; [exact E3|].
  destruct HInv3 as [HS3 HI3 HPr3 Hhi3 Hlo3]. split.
  - constructor; auto.
    + exists par3, val2, cur2. split; [|split; [exact HP3|]].
      2:{ intros u Hu. split; [|auto]. assert (A := Hlo3 u Hu (HP3 u Hu)). rewrite HX2 in A by auto. lia. }
      stf HS3. constructor; auto.
      * eapply vec_ext; [eassumption|]. intros u Hu. apply HX2. lia.
      * eapply vec_ext; [eassumption|]. intros e He. apply (mi_fl _ _ _ _ _ _ _ _ _ _ _ _ _ _ _ HI3); auto.
        intros c e' Hc [H1 _]. rewrite HP3 in H1 by auto. congruence.
    + apply (mi_opt _ _ _ _ _ _ _ _ _ _ _ _ _ _ _ HI3).
    + apply (mi_xM _ _ _ _ _ _ _ _ _ _ _ _ _ _ _ HI3).
    + rewrite U3; auto.
    + intros u Hu. apply HPr3; auto.
  - intros u Hu. assert (A := pv_ge _ _ _ _ _ _ _ _ HPI2 u Hu). assert (B := pv_le _ _ _ _ _ _ _ _ HPI2 u Hu). lia.
Qed.

Lemma phase_chk_ok eps h kap W s p x :
  0 < h -> h = Z.quot eps 2 -> 0 <= kap -> 0 <= W <= 33 * (Z.of_nat m * M) -> Head eps kap W s p x ->
  (forall u, (u <= n)%nat -> p u + Z.of_nat n * (kap + h) <= INT_MAX) ->
  phase_work n m h kap < Z.of_nat fuel ->
  exists s' p' x', phase_chk okd fuel s = Ok s' /\ Head eps h (W + Z.of_nat m * M) s' p' x' /\
    forall u, (u <= n)%nat -> p u <= p' u <= p u + Z.of_nat n * (kap + h).
Proof.
  intros A1 A2 A3 AW A4 A5 A6.
  destruct (phase_parts_ok eps h kap W s p x fuel A1 A2 A3 AW A4 A5 A6) as (s1 & s2 & s' & p' & x' & E1 & E2 & E3 & R).
  exists s', p', x'. split; auto. unfold phase_chk, refine_chk. rewrite E1. cbn [bind]. rewrite E2. exact E3.
Qed.

Lemma head_eps eps eps' kap W s p x : Head eps kap W s p x -> Head eps' kap W (with_eps s eps') p x.
Proof. clear Hokd Hfuel HfuelE.
  intros [(par & val & cur & HS & Hpar) Hexc Hopt HM Hq Hp]. constructor; auto.
  exists par, val, cur. split; auto. stf HS. constructor; pj; auto.
Qed.

Lemma pow2_quot k : Z.quot (2 ^ Z.of_nat (S k)) 2 = 2 ^ Z.of_nat k.
Proof using.
  clear Hfuel HfuelE. rewrite Nat2Z.inj_succ, Z.pow_succ_r, Z.mul_comm by lia. apply Z.quot_mul. lia.
Qed.

Lemma work_later h : 0 < h -> phase_work n m h (2 * h) = phase_work n m 1 2.
Proof using.
  clear Hfuel HfuelE.
  intros Hh. unfold phase_work. f_equal. f_equal. f_equal.
  replace (Z.of_nat n * (2 * h + h)) with (Z.of_nat n * 3 * h) by lia. rewrite Z.div_mul by lia.
  change (2 + 1) with 3. rewrite Z.div_1_r. reflexivity.
Qed.

(** the phases after the first, Flow.cpp:31-35 *)
Lemma scaling_chk_later : forall k fuel2 W s p x P,
  (k <= fuel2)%nat -> 0 <= W -> W + Z.of_nat k * (Z.of_nat m * M) <= 33 * (Z.of_nat m * M) ->
  Head (2 ^ Z.of_nat k) (2 ^ Z.of_nat k) W s p x ->
  (forall u, (u <= n)%nat -> p u <= P) -> P + 3 * Z.of_nat n * (2 ^ Z.of_nat k - 1) <= INT_MAX ->
  phase_work n m 1 2 < Z.of_nat fuel ->
  exists s' p' x', scaling_loop_chk okd fuel fuel2 s = Ok s' /\ (exists W', Head 1 1 W' s' p' x') /\
    forall u, (u <= n)%nat -> p u <= p' u <= P + 3 * Z.of_nat n * (2 ^ Z.of_nat k - 1).
Proof.
  induction k as [|k IH]; intros fuel2 W s p x P Hk HW0 HW HH HP HI Hw.
  all: assert (HMm : 0 <= Z.of_nat m * M) by (assert (A := fn_M _ _ _ _ _ HN); nia).
  - change (2 ^ Z.of_nat 0) with 1 in *.
    assert (Ee : f_eps s = 1) by (destruct HH as [(par & val & cur & HS & _) _ _ _ _ _]; apply (st_eps _ _ _ _ _ _ _ _ _ _ _ _ _ HS)).
    exists s, p, x. destruct fuel2; cbn [scaling_loop_chk]; rewrite Ee; cbn; (split; [reflexivity|]); (split; [exists W; exact HH|]);
      intros u Hu; specialize (HP u Hu); lia.
  - destruct fuel2 as [|fuel2]; [lia|]. cbn [scaling_loop_chk].
    set (h := 2 ^ Z.of_nat k) in *.
    assert (Hh : 1 <= h) by (unfold h; assert (A := Z.pow_pos_nonneg 2 (Z.of_nat k) ltac:(lia) ltac:(lia)); lia).
    assert (E2 : 2 ^ Z.of_nat (S k) = 2 * h) by (rewrite Nat2Z.inj_succ, Z.pow_succ_r by lia; reflexivity).
    assert (Ee : f_eps s = 2 ^ Z.of_nat (S k)) by (destruct HH as [(par & val & cur & HS & _) _ _ _ _ _]; apply (st_eps _ _ _ _ _ _ _ _ _ _ _ _ _ HS)).
    rewrite Ee. destruct (Z.ltb_spec (2 ^ Z.of_nat (S k)) 2); [lia|].
    rewrite E2 in HH.
    destruct (phase_chk_ok (2 * h) h (2 * h) W s p x) as (s1 & p1 & x1 & E1 & HH1 & HB1); auto; try lia.
    { rewrite <- E2, pow2_quot. reflexivity. }
    { intros u Hu. specialize (HP u Hu). rewrite E2 in HI. nia. }
    { rewrite work_later by lia. exact Hw. }
    rewrite E1. pj.
    assert (Ee1 : f_eps s1 = 2 * h) by (destruct HH1 as [(par & val & cur & HS & _) _ _ _ _ _]; apply (st_eps _ _ _ _ _ _ _ _ _ _ _ _ _ HS)).
    rewrite Ee1, <- E2, pow2_quot. fold h.
    destruct (IH fuel2 (W + Z.of_nat m * M) (with_eps s1 h) p1 x1 (P + 3 * Z.of_nat n * h)) as (s2 & p2 & x2 & E3 & HH2 & HB2); auto; try lia.
    { eapply head_eps; eauto. }
    { intros u Hu. specialize (HP u Hu). specialize (HB1 u Hu). nia. }
    exists s2, p2, x2. split; [exact E3|]. split; [exact HH2|].
    intros u Hu. specialize (HB1 u Hu). specialize (HB2 u Hu). rewrite E2. nia.
Qed.

(** the whole scaling loop, started with epsilon = 2^(k+1) *)
Lemma scaling_chk_ok k fuel2 s p x kap :
  (k < fuel2)%nat -> (k <= 31)%nat -> 0 <= kap -> Head (2 ^ Z.of_nat (S k)) kap 0 s p x ->
  (forall u, (u <= n)%nat -> p u = 0) ->
  Z.of_nat n * (kap + 2 * 2 ^ Z.of_nat (S k)) <= INT_MAX ->
  phase_work n m 1 2 < Z.of_nat fuel -> phase_work n m (2 ^ Z.of_nat k) kap < Z.of_nat fuel ->
  exists s' p' x', scaling_loop_chk okd fuel fuel2 s = Ok s' /\ (exists W', Head 1 1 W' s' p' x') /\
    forall u, (u <= n)%nat -> 0 <= p' u <= Z.of_nat n * (kap + 2 * 2 ^ Z.of_nat (S k)).
Proof.
  intros Hk Hk2 Hkap HH HP HI Hw Hw1.
  assert (HMm : 0 <= Z.of_nat m * M) by (assert (A := fn_M _ _ _ _ _ HN); nia).
  destruct fuel2 as [|fuel2]; [lia|]. cbn [scaling_loop_chk].
  set (h := 2 ^ Z.of_nat k) in *.
  assert (Hh : 1 <= h) by (unfold h; assert (A := Z.pow_pos_nonneg 2 (Z.of_nat k) ltac:(lia) ltac:(lia)); lia).
  assert (E2 : 2 ^ Z.of_nat (S k) = 2 * h) by (rewrite Nat2Z.inj_succ, Z.pow_succ_r by lia; reflexivity).
  assert (Ee : f_eps s = 2 ^ Z.of_nat (S k)) by (destruct HH as [(par & val & cur & HS & _) _ _ _ _ _]; apply (st_eps _ _ _ _ _ _ _ _ _ _ _ _ _ HS)).
  rewrite Ee. destruct (Z.ltb_spec (2 ^ Z.of_nat (S k)) 2); [lia|].
  rewrite E2 in *.
  destruct (phase_chk_ok (2 * h) h kap 0 s p x) as (s1 & p1 & x1 & E1 & HH1 & HB1); auto; try lia.
  { rewrite <- E2, pow2_quot. reflexivity. }
  { intros u Hu. rewrite HP by auto. nia. }
  rewrite E1. pj.
  assert (Ee1 : f_eps s1 = 2 * h) by (destruct HH1 as [(par & val & cur & HS & _) _ _ _ _ _]; apply (st_eps _ _ _ _ _ _ _ _ _ _ _ _ _ HS)).
  rewrite Ee1, <- E2, pow2_quot. fold h.
  destruct (scaling_chk_later k fuel2 (0 + Z.of_nat m * M) (with_eps s1 h) p1 x1 (Z.of_nat n * (kap + h))) as (s2 & p2 & x2 & E3 & HH2 & HB2); auto; try lia.
  { assert (Z.of_nat k * (Z.of_nat m * M) <= 31 * (Z.of_nat m * M)) by (apply Z.mul_le_mono_nonneg_r; lia). lia. }
  { eapply head_eps; eauto. }
  { intros u Hu. specialize (HB1 u Hu). rewrite HP in HB1 by auto. lia. }
  exists s2, p2, x2. split; [exact E3|]. split; [exact HH2|].
  intros u Hu. specialize (HB1 u Hu). specialize (HB2 u Hu). rewrite HP in HB1 by auto. fold h in HB2. rewrite E2. nia.
Qed.

Lemma scaling_ok k fuel2 s p x kap :
  (k < fuel2)%nat -> (k <= 31)%nat -> 0 <= kap -> Head (2 ^ Z.of_nat (S k)) kap 0 s p x ->
  (forall u, (u <= n)%nat -> p u = 0) ->
  Z.of_nat n * (kap + 2 * 2 ^ Z.of_nat (S k)) <= INT_MAX ->
  phase_work n m 1 2 < Z.of_nat fuel -> phase_work n m (2 ^ Z.of_nat k) kap < Z.of_nat fuel ->
  exists s' p' x', scaling_loop fuel fuel2 s = Ok s' /\ (exists W', Head 1 1 W' s' p' x') /\
    forall u, (u <= n)%nat -> 0 <= p' u <= Z.of_nat n * (kap + 2 * 2 ^ Z.of_nat (S k)).
Proof.
  intros A1 A1' A2 A3 A4 A5 A6 A7. destruct (scaling_chk_ok k fuel2 s p x kap A1 A1' A2 A3 A4 A5 A6 A7) as (s' & p' & x' & E1 & E2).
  exists s', p', x'. split; auto. apply (scaling_loop_chk_sim okd); auto.
Qed.

End FlowRun.
