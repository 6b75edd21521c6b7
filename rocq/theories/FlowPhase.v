(** * One scaling phase of the flow solver *)
From Verif Require Import Base BaseLemmas Data UniqueQueue LCT ProblemDefine Flow.
From Verif Require Import LCTChecked LCTBound LCTSpec LCTForest LCTOps UQProof Sums NetMath FlowNet FlowInv FlowChecked.
Local Open Scope Z_scope.

Section FlowPhase.
Variable one : Z.
#[local] Hint Extern 0 (DataOps Z) => exact (exact_ops one) : typeclass_instances.

Variables (n m : nat) (M : Z) (E : list (OmegaLimit Z)) (Gl : list (list nat)).
Hypothesis HN : flownet n m M E Gl.
Variable okd : Z -> bool.
Hypothesis Hokd : forall z, Z.abs z <= 2 * Cb m M -> okd z = true.
Variables (eps h : Z).
Hypothesis Hh : 0 < h.
Hypothesis Hheps : h = Z.quot eps 2.
Variable W : Z.
Hypothesis HW : Z.of_nat m * M <= W <= 34 * (Z.of_nat m * M).
Variable fuel : nat.
Hypothesis Hfuel : (n + 1 < fuel)%nat.

Notation ei := (nei E).
Notation ej := (nej E).
Notation G := (nG Gl).
Notation lft := (lftE n M E).
Notation pe := (pe (nei E) (nej E)).
Notation exc := (exc m (nei E) (nej E)).
Notation minv := (minv n m M (nei E) (nej E) (nG Gl) (lftE n M E) h).
Notation St := (St n m M E Gl eps).
Notation Inv := (Inv n m M E Gl eps h W).
Notation opt := (opt m (nei E) (nej E) (lftE n M E)).
Notation nodes := (nodes n).

Let net := flownet_netok _ _ _ _ _ HN.

Ltac stf H := pose proof H as [?Sn ?SM ?Seps ?SE ?SG ?Slen ?Srep ?Simb ?Scur ?Sfa ?Sfl ?Sp ?Suq ?Ssb].
Ltac pj := cbn [f_n f_M f_eps f_nodes f_imb f_cur f_uq f_fa f_edges f_flows f_G f_scal
                with_nodes with_fa with_imb with_uq with_flows with_cur with_scal with_eps bind].

(** start of the phase *)
Variables (kap : Z) (p0 x0 : nat -> Z).
Hypothesis Hkap : 0 <= kap.
Hypothesis Hopt0 : opt kap p0 x0.
Hypothesis Hexc0 : forall u, (u <= n)%nat -> exc x0 u = 0.
Hypothesis Hp0 : forall u, (u <= n)%nat -> 0 <= p0 u /\ p0 u + Z.of_nat n * (kap + h) <= INT_MAX.

Record pinv (p x : nat -> Z) : Prop := {
  pv_ge : forall u, (u <= n)%nat -> p0 u <= p u;
  pv_neg : forall u, (u <= n)%nat -> exc x u < 0 -> p u = p0 u;
  pv_le : forall u, (u <= n)%nat -> p u <= p0 u + Z.of_nat n * (kap + h)
}.

Record qinv (par : nat -> option nat) (x : nat -> Z) (qu : list nat) : Prop := {
  qv_in : forall u, (u <= n)%nat -> 0 < exc x u -> In u qu;
  qv_pos : forall u, In u qu -> 0 < exc x u;
  qv_root : forall u, (u <= n)%nat -> 0 < exc x u -> par u = None
}.

(** ** Termination measure *)
Definition deg (v : nat) : nat := length (G v).

Definition cur_admb (cur : nat -> nat) (p x : nat -> Z) (u : nat) : bool :=
  match nth_error (G u) (cur u) with Some e => xd x e <? lft e (pe p e) | None => false end.

Lemma cur_admb_spec cur p x u : cur_admb cur p x u = true <-> cur_adm n M E Gl cur p x u.
Proof.
  unfold cur_admb, cur_adm. destruct (nth_error (G u) (cur u)) as [e|] eqn:Ee.
  - rewrite Z.ltb_lt. split; [eauto|]. intros (e' & He & H). congruence.
  - split; [congruence|]. intros (e' & He & H). congruence.
Qed.

Definition sv (par : nat -> option nat) (cur : nat -> nat) (p x : nat -> Z) (u : nat) : Z :=
  match par u with Some _ => 1 | None => if cur_admb cur p x u then 2 else 0 end.

Definition S2 par cur p x : Z := zsum nodes (fun u => 3 * Z.of_nat (deg u - cur u) + sv par cur p x u).

(** Raising the potential of u pays for going through its edges again and for its children that get cut. *)
Definition RR (p : nat -> Z) : Z :=
  zsum nodes (fun u => (Z.of_nat n * (kap + h) + p0 u - p u) / h * (4 * Z.of_nat (deg u) + 3)).

Definition BB : Z := zsum nodes (fun u => 3 * Z.of_nat (deg u) + 2).

Definition mu par cur p x : Z := RR p + S2 par cur p x.

Lemma sv_range par cur p x u : 0 <= sv par cur p x u <= 2.
Proof. clear Hp0 Hexc0 Hopt0 Hkap Hfuel HW Hokd Hheps Hh. unfold sv. destruct (par u); [lia|]. destruct (cur_admb cur p x u); lia. Qed.

Lemma S2_range par cur p x : 0 <= S2 par cur p x <= BB.
Proof.
  clear Hp0 Hexc0 Hopt0 Hkap Hfuel HW Hokd Hheps Hh.
  split.
  - apply zsum_nonneg. intros u _. assert (H := sv_range par cur p x u). lia.
  - apply zsum_le. intros u _. assert (H := sv_range par cur p x u). lia.
Qed.

Lemma RR_nonneg p x : pinv p x -> 0 <= RR p.
Proof.
  intros [H1 H2 H3]. apply zsum_nonneg. intros u Hu. apply in_nodes in Hu. specialize (H3 u Hu).
  apply Z.mul_nonneg_nonneg; [apply Z.div_pos|]; lia.
Qed.

Lemma mu_nonneg par cur p x : pinv p x -> 0 <= mu par cur p x.
Proof.
  intros HP. assert (A := RR_nonneg _ _ HP). assert (B := S2_range par cur p x). unfold mu. lia.
Qed.

Lemma sv_scan par cur p x v : par v = None ->
  S2 par (fup cur v (cur v + 1)%nat) p x < S2 par cur p x \/ cur_admb cur p x v = true \/ (deg v <= cur v)%nat \/ (n < v)%nat.
Proof.
  intros Hr. destruct (cur_admb cur p x v) eqn:Ea; [auto|]. destruct (Nat.le_gt_cases (deg v) (cur v)); [auto|].
  destruct (Nat.le_gt_cases v n) as [Hv|]; [|auto]. left. unfold S2.
  rewrite (zsum_point nodes v (fun u => 3 * Z.of_nat (deg u - cur u) + sv par cur p x u)
    (fun u => 3 * Z.of_nat (deg u - fup cur v (cur v + 1)%nat u) + sv par (fup cur v (cur v + 1)%nat) p x u)).
  - assert (A : sv par cur p x v = 0) by (unfold sv; rewrite Hr, Ea; reflexivity). rewrite A, fup_eq.
    assert (B := sv_range par (fup cur v (cur v + 1)%nat) p x v). lia.
  - apply seq_NoDup.
  - apply in_nodes; auto.
  - intros k _ Hk. rewrite fup_neq by auto. f_equal. unfold sv, cur_admb. rewrite fup_neq by auto. reflexivity.
Qed.

Lemma S2_link par cur p x v j : (v <= n)%nat -> par v = None -> cur_admb cur p x v = true ->
  S2 (set_parent par v (Some j)) cur p x < S2 par cur p x.
Proof.
  intros Hv Hr Ha. unfold S2.
  rewrite (zsum_point nodes v (fun u => 3 * Z.of_nat (deg u - cur u) + sv par cur p x u)
    (fun u => 3 * Z.of_nat (deg u - cur u) + sv (set_parent par v (Some j)) cur p x u)).
  - unfold sv. rewrite set_parent_eq, Hr, Ha. lia.
  - apply seq_NoDup.
  - apply in_nodes; auto.
  - intros k _ Hk. f_equal. unfold sv. rewrite set_parent_neq by auto. reflexivity.
Qed.

Lemma S2_send cur p v par x qu par' x' qu' :
  sent n m M E Gl cur p v par x qu par' x' qu' -> S2 par' cur p x' <= S2 par cur p x.
Proof.
  intros [_ HP HA _ _ _ _]. apply zsum_le. intros u Hu. apply in_nodes in Hu.
  assert (sv par' cur p x' u <= sv par cur p x u); [|lia].
  destruct (HP u Hu) as [Eu|(E1 & E2 & E3)]; unfold sv.
  - rewrite Eu. destruct (par u); [lia|].
    destruct (cur_admb cur p x' u) eqn:Ea; [|destruct (cur_admb cur p x u); lia].
    apply cur_admb_spec in Ea. apply (cur_adm_le n m M E Gl HN cur p x x' u Hu HA) in Ea.
    apply cur_admb_spec in Ea. rewrite Ea. lia.
  - rewrite E2. destruct (cur_admb cur p x' u) eqn:Ea.
    + exfalso. apply E3, cur_admb_spec; auto.
    + destruct (par u); [lia|congruence].
Qed.

Lemma RR_relabel p v : (v <= n)%nat -> RR (fup p v (p v + h)) = RR p - (4 * Z.of_nat (deg v) + 3).
Proof.
  intros Hv. unfold RR.
  rewrite (zsum_point nodes v (fun u => (Z.of_nat n * (kap + h) + p0 u - p u) / h * (4 * Z.of_nat (deg u) + 3))
    (fun u => (Z.of_nat n * (kap + h) + p0 u - fup p v (p v + h) u) / h * (4 * Z.of_nat (deg u) + 3))).
  - rewrite fup_eq. set (a := Z.of_nat n * (kap + h) + p0 v).
    replace (a - (p v + h)) with (a - p v + (-1) * h) by lia. rewrite Z.div_add by lia. lia.
  - apply seq_NoDup.
  - apply in_nodes; auto.
  - intros k _ Hk. rewrite fup_neq by auto. reflexivity.
Qed.

Definition childb (par : nat -> option nat) (v u : nat) : bool := ptr_eqb (par u) (Some v).

Lemma childb_spec par v u : childb par v u = true <-> par u = Some v.
Proof.
  unfold childb. destruct (par u) as [j|]; cbn [ptr_eqb].
  - rewrite Nat.eqb_eq. split; congruence.
  - split; congruence.
Qed.

(** A node has at most as many children as edges. *)
Lemma children_le par val cur p fl x rank v : minv par val cur p fl x rank -> (v <= n)%nat ->
  zsum nodes (fun u => if childb par v u then 1 else 0) <= Z.of_nat (deg v).
Proof.
  intros HI Hv.
  assert (A : forall L : list nat, zsum L (fun u => if childb par v u then 1 else 0) = Z.of_nat (length (filter (childb par v) L))).
  { induction L as [|a L IH]; [reflexivity|]. cbn [zsum filter]. rewrite IH. destruct (childb par v a); cbn [length]; lia. }
  rewrite A. apply inj_le. unfold deg. rewrite <- (map_length ej (G v)).
  apply NoDup_incl_length; [apply NoDup_filter, seq_NoDup|].
  intros u Hu. apply filter_In in Hu. destruct Hu as [Hu Hc]. apply in_nodes in Hu. apply childb_spec in Hc.
  destruct (mi_tree _ _ _ _ _ _ _ _ _ _ _ _ _ _ _ HI u v Hu Hc) as (e & T1 & T2 & _).
  destruct (G_edge _ _ _ _ _ _ _ net _ _ _ Hu T1) as [Hle Hie].
  apply in_map_iff. exists (rev_id e). split.
  - rewrite (net_rev' _ _ _ _ _ _ _ net) by auto. exact Hie.
  - apply (net_G _ _ _ _ _ _ _ net); auto. split; [apply rev_lt; auto|]. rewrite (net_rev _ _ _ _ _ _ _ net); auto.
Qed.

Lemma S2_relabel par val cur p fl x rank v par' : minv par val cur p fl x rank -> (v <= n)%nat -> par v = None ->
  (forall u, (u <= n)%nat -> par' u = par u \/ (par u = Some v /\ par' u = None)) ->
  S2 par' (fup cur v 0%nat) (fup p v (p v + h)) x <= S2 par cur p x + 4 * Z.of_nat (deg v) + 2.
Proof.
  intros HI Hv Hr HP. assert (C := children_le _ _ _ _ _ _ _ v HI Hv).
  assert (D : zsum nodes (fun u => if Nat.eqb u v then 3 * Z.of_nat (deg v) + 2 else 0) = 3 * Z.of_nat (deg v) + 2).
  { rewrite (zsum_point nodes v (fun _ => 0) (fun u => if Nat.eqb u v then 3 * Z.of_nat (deg v) + 2 else 0)).
    - rewrite zsum_zero by auto. rewrite Nat.eqb_refl. lia.
    - apply seq_NoDup.
    - apply in_nodes; auto.
    - intros k _ Hk. destruct (Nat.eqb_spec k v); [contradiction|reflexivity]. }
  assert (Z.le (S2 par' (fup cur v 0%nat) (fup p v (p v + h)) x)
    (zsum nodes (fun u => (3 * Z.of_nat (deg u - cur u) + sv par cur p x u)
       + ((if childb par v u then 1 else 0) + (if Nat.eqb u v then 3 * Z.of_nat (deg v) + 2 else 0))))); 
    [|rewrite (zsum_add nodes (fun u => 3 * Z.of_nat (deg u - cur u) + sv par cur p x u)) in H;
      fold (S2 par cur p x) in H; rewrite zsum_add, D in H; lia].
  apply zsum_le. intros u Hu. apply in_nodes in Hu.
  destruct (Nat.eqb_spec u v) as [->|Hn].
  - rewrite fup_eq. assert (B := sv_range par' (fup cur v 0%nat) (fup p v (p v + h)) x v). assert (B' := sv_range par cur p x v).
    destruct (childb par v v); lia.
  - rewrite fup_neq by auto.
    assert (HA : cur_admb (fup cur v 0%nat) (fup p v (p v + h)) x u = true -> cur_admb cur p x u = true).
    { unfold cur_admb. rewrite fup_neq by auto. destruct (nth_error (G u) (cur u)) as [e|] eqn:He; [|auto].
      destruct (G_edge _ _ _ _ _ _ _ net _ _ _ Hu He) as [Hle Hie]. rewrite !Z.ltb_lt. intro L.
      eapply Z.lt_le_trans; [exact L|]. apply (net_mono _ _ _ _ _ _ _ net); [exact Hle|].
      unfold NetMath.pe. rewrite Hie, (fup_neq p) by auto. unfold fup. destruct (Nat.eqb_spec (ej e) v) as [->|]; lia. }
    destruct (HP u Hu) as [Eu|(E1 & E2)].
    + assert (sv par' (fup cur v 0%nat) (fup p v (p v + h)) x u <= sv par cur p x u); [|destruct (childb par v u); lia].
      unfold sv. rewrite Eu. destruct (par u); [lia|].
      destruct (cur_admb (fup cur v 0%nat) (fup p v (p v + h)) x u); [rewrite HA by auto; lia|].
      destruct (cur_admb cur p x u); lia.
    + assert (B := sv_range par' (fup cur v 0%nat) (fup p v (p v + h)) x u).
      rewrite (proj2 (childb_spec par v u) E1). unfold sv at 2. rewrite E1. lia.
Qed.

(** ** Relabelling, Flow.cpp:116-126 *)
Lemma update_scaling_ok s par val cur p fl x rank v :
  Inv s par val cur p fl x rank -> pinv p x -> (v <= n)%nat -> par v = None -> 0 < exc x v ->
  (deg v <= cur v)%nat ->
  exists s' par' fl' rank', update_scaling_chk okd fuel s v = Ok s' /\ f_uq s' = f_uq s /\
    Inv s' par' val (fup cur v 0%nat) (fup p v (p v + h)) fl' x rank' /\
    pinv (fup p v (p v + h)) x /\ (forall u, (u <= n)%nat -> par' u = par u \/ (par u = Some v /\ par' u = None)).
Proof.
  intros HInv HPI Hv Hr Hpos Hdeg. unfold update_scaling_chk.
  pose proof (iv_st _ _ _ _ _ _ _ _ _ _ _ _ _ _ _ _ HInv) as HS. rewrite (st_G _ _ _ _ _ _ _ _ _ _ _ _ _ HS), (G_vget n m M E Gl HN v Hv). pj.
  destruct (for_each_inv
    (fun pre s' => exists par' fl', Inv s' par' val cur p fl' x rank /\ f_uq s' = f_uq s /\
       (forall u, (u <= n)%nat -> par' u = par u \/ (par u = Some v /\ par' u = None)) /\
       (forall e, In e pre -> par' (ej e) <> Some v))
    (fun s e_id =>
         e <- vget (f_edges s) e_id ;;
         a <- vget (f_fa s) (o_j e) ;;
         if ptr_eqb a (Some v) then flow_cut_chk okd fuel s (o_j e) else Ok s) (G v) s)
    as (s1 & E1 & par1 & fl1 & HInv1 & U1 & HP1 & HC1).
  - exists par, fl. split; [exact HInv|]. split; [reflexivity|]. split; [auto|]. intros e [].
  - intros pre e post s1 Epre (par1 & fl1 & HInv1 & U1 & HP1 & HC1).
    pose proof (iv_st _ _ _ _ _ _ _ _ _ _ _ _ _ _ _ _ HInv1) as HS1. stf HS1.
    assert (He : In e (G v)) by (rewrite Epre; apply in_or_app; simpl; auto).
    apply (net_G _ _ _ _ _ _ _ net) in He; auto. destruct He as [Hle Hie].
    assert (Hej := net_ej _ _ _ _ _ _ _ net e Hle).
    rewrite SE, (E_vget n m M E Gl HN e Hle). pj. fold (ej e). rewrite (vec_get _ _ _ _ Sfa) by lia. pj.
    destruct (par1 (ej e)) as [j|] eqn:Ep.
    + cbn [ptr_eqb]. destruct (Nat.eqb_spec j v) as [->|Hn].
      * destruct (flow_cut_chk_ok one n m M E Gl HN okd Hokd eps h W HW fuel Hfuel _ _ _ _ _ _ _ _ (ej e) v HInv1 Hej Ep)
          as (s2 & fl2 & E2 & U2 & HInv2).
        exists s2. split; [exact E2|]. exists (set_parent par1 (ej e) None), fl2. split; [exact HInv2|].
        split; [congruence|]. split.
        -- intros u Hu. unfold set_parent. destruct (Nat.eqb_spec u (ej e)) as [->|]; [|auto].
           right. split; [|reflexivity]. destruct (HP1 (ej e) Hej) as [Q|[_ Q]]; congruence.
        -- intros e' Hi. unfold set_parent. destruct (Nat.eqb_spec (ej e') (ej e)); [congruence|].
           apply in_app_or in Hi. destruct Hi as [Hi|[<-|[]]]; auto.
      * exists s1. split; [reflexivity|]. exists par1, fl1. split; [exact HInv1|]. split; [auto|]. split; [auto|].
        intros e' Hi. apply in_app_or in Hi. destruct Hi as [Hi|[<-|[]]]; auto. congruence.
    + cbn [ptr_eqb]. exists s1. split; [reflexivity|]. exists par1, fl1. split; [exact HInv1|]. split; [auto|]. split; [auto|].
      intros e' Hi. apply in_app_or in Hi. destruct Hi as [Hi|[<-|[]]]; auto. congruence.
  - rewrite E1. pj.
    pose proof HInv1 as [HS1 HI1 HPr1 Hhi1 Hlo1]. stf HS1.
    assert (Hr1 : par1 v = None) by (destruct (HP1 v Hv) as [Q|[_ Q]]; congruence).
    assert (Hch : forall u, (u <= n)%nat -> par1 u <> Some v).
    { intros u Hu Eu. destruct (mi_tree _ _ _ _ _ _ _ _ _ _ _ _ _ _ _ HI1 u v Hu Eu) as (e & T1 & T2 & _).
      destruct (G_edge _ _ _ _ _ _ _ net _ _ _ Hu T1) as [Hle Hie].
      apply (HC1 (rev_id e)).
      - apply (net_G _ _ _ _ _ _ _ net); auto. split; [apply rev_lt; auto|]. rewrite (net_rev _ _ _ _ _ _ _ net); auto.
      - rewrite (net_rev' _ _ _ _ _ _ _ net) by auto. rewrite Hie. exact Eu. }
    assert (HI2 := minv_relabel _ _ _ _ _ _ _ net h Hh _ _ _ _ _ _ _ v HI1 Hv Hr1 Hch Hdeg).
    assert (HPI2 : pinv (fup p v (p v + h)) x).
    { destruct HPI as [V1 V2 V3].
      assert (W1 : forall u, (u <= n)%nat -> p0 u <= fup p v (p v + h) u).
      { intros u Hu. specialize (V1 u Hu). unfold fup. destruct (Nat.eqb_spec u v) as [->|]; lia. }
      assert (W2 : forall u, (u <= n)%nat -> exc x u < 0 -> fup p v (p v + h) u = p0 u).
      { intros u Hu Hneg. rewrite fup_neq; auto. intros ->; lia. }
      constructor; auto.
      intros u Hu. destruct (Nat.eq_dec u v) as [->|Hn]; [|rewrite fup_neq; auto].
      assert (HB := pot_bound _ _ _ _ _ _ _ net kap h p0 x0 (fup p v (p v + h)) x v ltac:(lia) Hopt0 Hexc0
         (mi_opt _ _ _ _ _ _ _ _ _ _ _ _ _ _ _ HI2) W1 W2 Hv Hpos). lia. }
    assert (Hb := pv_le _ _ HPI2 v Hv). rewrite fup_eq in Hb.
    assert (Hb0 := Hp0 v Hv). assert (Hg := pv_ge _ _ HPI v Hv).
    rewrite (vec_get _ _ _ _ Sp) by lia. pj. rewrite Seps, <- Hheps.
    rewrite ck_ok by (unfold INT_MIN, INT_MAX in *; lia). pj.
    rewrite (vec_set _ _ _ _ _ Sp) by lia. pj. rewrite (vec_set _ _ _ _ _ Scur) by lia. pj.
    eexists _, par1, fl1, _. split; [reflexivity|]. split; [pj; exact U1|]. split; [|split; [exact HPI2|exact HP1]].
    constructor; [|exact HI2| |exact Hhi1|exact Hlo1].
    + constructor; pj; auto; apply vec_upd; auto; lia.
    + intros u Hu. assert (A := pv_ge _ _ HPI2 u Hu). assert (B := pv_le _ _ HPI2 u Hu). assert (C := Hp0 u Hu). lia.
Qed.

(** ** One step of the main loop, Flow.cpp:85-92 *)
Record stepped (v : nat) (qu : list nat) (par' : nat -> option nat) (x' : nat -> Z) (qu' : list nat) : Prop := {
  sp_queue : exists ext, qu' = qu ++ ext;
  sp_in : forall u, (u <= n)%nat -> 0 < exc x' u -> In u qu';
  sp_pos : forall u, In u qu' -> u <> v -> 0 < exc x' u;
  sp_root : forall u, (u <= n)%nat -> 0 < exc x' u -> par' u = None;
  sp_v : 0 <= exc x' v
}.

Lemma choice_loop_ok : forall k s par val cur p fl x rank v,
  (deg v - cur v < k)%nat -> Inv s par val cur p fl x rank -> pinv p x ->
  qinv par x (uq_queue (f_uq s)) -> (v <= n)%nat -> 0 < exc x v ->
  exists s' par' val' cur' p' fl' x' rank', choice_loop_chk okd fuel k s v = Ok s' /\
    Inv s' par' val' cur' p' fl' x' rank' /\ pinv p' x' /\
    stepped v (uq_queue (f_uq s)) par' x' (uq_queue (f_uq s')) /\
    mu par' cur' p' x' < mu par cur p x.
Proof.
  induction k as [|k IH]; intros s par val cur p fl x rank v Hk HInv HPI HQ Hv Hpos; [lia|].
  assert (Hr := qv_root _ _ _ HQ v Hv Hpos).
  pose proof HInv as [HS HI HPr Hhi Hlo]. stf HS.
  cbn [choice_loop_chk]. rewrite (vec_get _ _ _ _ Scur) by lia. pj. rewrite SG, (G_vget n m M E Gl HN v Hv). pj. fold (deg v).
  destruct (Nat.ltb_spec (cur v) (deg v)) as [Hlt|Hge].
  - destruct (nth_error (G v) (cur v)) as [e|] eqn:He; [|apply nth_error_None in He; unfold deg in Hlt; lia].
    rewrite (vget_ok _ _ _ He). pj.
    destruct (G_edge _ _ _ _ _ _ _ net _ _ _ Hv He) as [Hle Hie].
    rewrite (q_chk_ok one n m M E Gl HN okd Hokd s e p fl); auto; [|eapply fl_range; eauto]. pj.
    destruct (adm_test _ _ _ _ _ _ _ net h _ _ _ _ _ _ _ v e HI Hv Hr (nth_error_In _ _ He)) as [HA _].
    cbn [dlt dzero exact_ops].
    destruct (Z.ltb_spec 0 (Z.max 0 (lft e (pe p e) - fl e))) as [Hq|Hq].
    + (* link and send *)
      assert (Ha : xd x e < lft e (pe p e)) by (apply HA; lia).
      assert (Hca : cur_admb cur p x v = true) by (apply cur_admb_spec; exists e; auto).
      destruct (link_chk_ok one n m M E Gl HN okd Hokd eps h W HW fuel Hfuel _ _ _ _ _ _ _ _ v e HInv Hv Hr He Ha) as (s1 & E1 & U1 & HInv1).
      rewrite E1. pj.
      destruct (send_ok one n m M E Gl HN okd Hokd eps h Hh W HW fuel Hfuel _ _ _ _ _ _ _ _ v HInv1 Hv ltac:(lia))
        as (s2 & par2 & val2 & fl2 & x2 & E2 & HInv2 & HSent).
      rewrite E2. rewrite U1 in HSent.
      exists s2, par2, val2, cur, p, fl2, x2, rank. split; [reflexivity|]. split; [exact HInv2|].
      assert (HS2 := S2_send _ _ _ _ _ _ _ _ _ HSent).
      assert (HL2 := S2_link par cur p x v (ej e) Hv Hr Hca).
      destruct HSent as [(ext & Q1 & Q2) Q3 Q4 Q5 Q6 Q7 Q8]. destruct HQ as [K1 K2 K3]. destruct HPI as [V1 V2 V3].
      split; [|split].
      * constructor; auto. intros u Hu Hneg. apply V2; auto.
        destruct (Nat.eq_dec u v) as [->|Hn]; [lia|]. specialize (Q6 u Hn). lia.
      * constructor.
        -- exists ext; auto.
        -- intros u Hu Hp. destruct (Nat.eq_dec u v) as [->|Hn].
           ++ rewrite Q1. apply in_or_app; left; auto.
           ++ destruct (Z.eq_dec (exc x u) (exc x2 u)) as [Eq|Neq]; [|apply Q7; auto].
              rewrite Q1. apply in_or_app; left. apply K1; auto; lia.
        -- intros u Hi Hn. rewrite Q1 in Hi. apply in_app_or in Hi. destruct Hi as [Hi|Hi]; [|apply Q2; auto].
           specialize (K2 u Hi). specialize (Q6 u Hn). lia.
        -- intros u Hu Hp. destruct (Nat.eq_dec u v) as [->|Hn]; [destruct Q8; [auto|lia]|].
           destruct (Z.eq_dec (exc x u) (exc x2 u)) as [Eq|Neq]; [|apply Q7; auto].
           assert (Kr : par u = None) by (apply K3; auto; lia).
           destruct (Q3 u Hu) as [Eu|(_ & Eu & _)]; [|exact Eu]. rewrite Eu, set_parent_neq by auto. exact Kr.
        -- lia.
      * unfold mu. lia.
    + (* next edge *)
      assert (Hna : lft e (pe p e) <= xd x e) by lia.
      rewrite (vec_set _ _ _ _ _ Scur) by lia. pj.
      assert (HInv1 : Inv (with_cur s (upd (f_cur s) v (cur v + 1)%nat)) par val (fup cur v (cur v + 1)%nat) p fl x rank).
      { constructor; auto.
        - constructor; pj; auto. apply vec_upd; auto; lia.
        - eapply minv_scan with (e := e); eauto. }
      destruct (IH _ par val (fup cur v (cur v + 1)%nat) p fl x rank v ltac:(rewrite fup_eq; lia) HInv1 HPI HQ Hv Hpos)
        as (s2 & par2 & val2 & cur2 & p2 & fl2 & x2 & rank2 & E2 & HInv2 & HPI2 & HS2 & HM2).
      exists s2, par2, val2, cur2, p2, fl2, x2, rank2. split; [exact E2|]. split; [exact HInv2|]. split; [exact HPI2|].
      split; [exact HS2|]. eapply Z.lt_trans; [exact HM2|].
      destruct (sv_scan par cur p x v Hr) as [C|[C|[C|C]]]; [unfold mu; lia| |lia|lia].
      apply cur_admb_spec in C. destruct C as (e' & He' & Ha'). assert (e' = e) by congruence. subst. lia.
  - destruct (update_scaling_ok s par val cur p fl x rank v HInv HPI Hv Hr Hpos Hge)
      as (s1 & par1 & fl1 & rank1 & E1 & U1 & HInv1 & HPI1 & HP1).
    exists s1, par1, val, (fup cur v 0%nat), (fup p v (p v + h)), fl1, x, rank1.
    split; [exact E1|]. split; [exact HInv1|]. split; [exact HPI1|]. destruct HQ as [K1 K2 K3]. split.
    + rewrite U1. constructor; auto.
      * exists []. rewrite app_nil_r; auto.
      * intros u Hu Hp. destruct (HP1 u Hu) as [Q|[_ Q]]; auto. rewrite Q; auto.
      * lia.
    + unfold mu. rewrite RR_relabel by auto.
      assert (A := S2_relabel _ _ _ _ _ _ _ v par1 HI Hv Hr HP1). lia.
Qed.

Variable Hfuel2 : forall v, (v <= n)%nat -> (deg v < fuel)%nat.

(** Flow.cpp:74-78 *)
Lemma refine_loop_ok : forall k s par val cur p fl x rank,
  mu par cur p x < Z.of_nat k -> Inv s par val cur p fl x rank -> pinv p x ->
  qinv par x (uq_queue (f_uq s)) ->
  exists s' par' val' cur' p' fl' x' rank', refine_loop_chk okd fuel k s = Ok s' /\
    Inv s' par' val' cur' p' fl' x' rank' /\ pinv p' x' /\ uq_queue (f_uq s') = [] /\
    (forall u, (u <= n)%nat -> exc x' u = 0).
Proof.
  induction k as [|k IH]; intros s par val cur p fl x rank Hk HInv HPI HQ.
  { assert (H := mu_nonneg par cur p x HPI). lia. }
  cbn [refine_loop_chk]. unfold uq_empty. destruct (uq_queue (f_uq s)) as [|v qu] eqn:Eq.
  - exists s, par, val, cur, p, fl, x, rank. split; [reflexivity|]. split; [exact HInv|]. split; [exact HPI|]. split; [exact Eq|].
    assert (Hle : forall u, (u <= n)%nat -> exc x u <= 0).
    { intros u Hu. destruct (Z.le_gt_cases (exc x u) 0); auto. exfalso. apply (qv_in _ _ _ HQ u); auto. }
    intros u Hu. destruct (Z.eq_dec (exc x u) 0) as [|Hn]; auto. exfalso.
    assert (Hneg : 0 < - exc x u) by (specialize (Hle u Hu); lia).
    destruct (sum_neg_exists nodes (fun w => - exc x w) u) as (w & Hw & Hwn).
    + assert (A := sum_exc_all _ _ _ _ _ _ _ net x).
      assert (B := zsum_scale nodes (-1) (exc x)).
      rewrite (zsum_ext nodes (fun w => - exc x w) (fun w => -1 * exc x w)) by (intros; lia). lia.
    + apply in_nodes; auto.
    + exact Hneg.
    + apply in_nodes in Hw. specialize (Hle w Hw). lia.
  - assert (Hv : (v <= n)%nat).
    { assert (H := uq_lt _ _ (st_uq _ _ _ _ _ _ _ _ _ _ _ _ _ (iv_st _ _ _ _ _ _ _ _ _ _ _ _ _ _ _ _ HInv)) v).
      rewrite Eq in H. specialize (H (or_introl eq_refl)). lia. }
    assert (Hpos : 0 < exc x v) by (apply (qv_pos _ _ _ HQ); simpl; auto).
    assert (HPR : pos_roots s = true).
    { pose proof HInv as [HS0 _ _ _ _]. stf HS0. unfold pos_roots. apply forallb_forall. intros i Hi. rewrite Sn in Hi. apply in_seq in Hi.
      rewrite (vec_nth _ _ _ Simb) by lia. cbn [dlt dzero exact_ops].
      destruct (Z.ltb_spec 0 (exc x i)) as [Hi0|Hi0]; [|reflexivity]. cbn [negb orb].
      apply (is_root_ok n _ par); auto; [lia|]. apply (qv_root _ _ _ HQ); auto. lia. }
    rewrite HPR. cbn [assert_ bind].
    unfold uq_front at 1. rewrite Eq. pj.
    rewrite <- Eq in HQ.
    destruct (choice_loop_ok fuel s par val cur p fl x rank v ltac:(specialize (Hfuel2 v Hv); lia) HInv HPI HQ Hv Hpos)
      as (s1 & par1 & val1 & cur1 & p1 & fl1 & x1 & rank1 & E1 & HInv1 & HPI1 & HS1 & HM1).
    rewrite E1. pj. destruct HS1 as [(ext & T1) T2 T3 T4 T5]. rewrite Eq in T1. cbn [app] in T1.
    unfold uq_front. rewrite T1. pj.
    pose proof HInv1 as [HSt1 HI1 HPr1 Hhi1 Hlo1]. stf HSt1.
    rewrite (vec_get _ _ _ _ Simb) by lia. pj. cbn [deq dzero exact_ops].
    destruct (Z.eqb_spec (exc x1 v) 0) as [Ez|Ez].
    + destruct (uq_pop_ok (n + 1) (f_uq s1) v (qu ++ ext) Suq T1) as (u' & Eu & Ou & Lu). rewrite Eu. pj.
      assert (ND := uq_nodup _ _ Suq). rewrite T1 in ND. inversion ND as [|q1 q2 N1 N2]; subst q1 q2.
      apply (IH (with_uq s1 u') par1 val1 cur1 p1 fl1 x1 rank1); auto; [lia| |].
      * constructor; auto. constructor; pj; auto.
      * pj. rewrite Lu. constructor; auto.
        -- intros u Hu Hp. specialize (T2 u Hu Hp). rewrite T1 in T2. destruct T2 as [->|T2]; [lia|exact T2].
        -- intros u Hi. apply T3; [rewrite T1; simpl; auto|]. intros ->; auto.
    + apply (IH s1 par1 val1 cur1 p1 fl1 x1 rank1); auto; [lia|].
      constructor; auto.
      intros u Hi. destruct (Nat.eq_dec u v) as [->|Hn]; [lia|]. apply T3; auto.
Qed.

(** Flow.cpp:80-82 *)
Lemma cut_all_ok s par val cur p fl x rank :
  Inv s par val cur p fl x rank ->
  exists s' par' fl', cut_all_chk okd fuel s = Ok s' /\ f_uq s' = f_uq s /\
    Inv s' par' val cur p fl' x rank /\ (forall u, (u <= n)%nat -> par' u = None).
Proof.
  intros HInv. unfold cut_all_chk.
  rewrite (st_n _ _ _ _ _ _ _ _ _ _ _ _ _ (iv_st _ _ _ _ _ _ _ _ _ _ _ _ _ _ _ _ HInv)).
  destruct (for_each_inv
    (fun pre s' => exists par' fl', f_uq s' = f_uq s /\
      Inv s' par' val cur p fl' x rank /\ (forall u, In u pre -> par' u = None))
    (fun s i => a <- vget (f_fa s) i ;; match a with None => Ok s | Some _ => flow_cut_chk okd fuel s i end)
    (seq 0 (n + 1)) s) as (s1 & E1 & par1 & fl1 & U1 & HI1 & HA1).
  - exists par, fl. split; [reflexivity|]. split; [exact HInv|]. intros u [].
  - intros pre i post s1 Epre (par1 & fl1 & U1 & HI1 & HA1).
    assert (Hi : (i <= n)%nat).
    { assert (H : In i (seq 0 (n + 1))) by (rewrite Epre; apply in_or_app; simpl; auto). apply in_seq in H. lia. }
    pose proof (iv_st _ _ _ _ _ _ _ _ _ _ _ _ _ _ _ _ HI1) as HS1. stf HS1.
    rewrite (vec_get _ _ _ _ Sfa) by lia. pj. destruct (par1 i) as [j|] eqn:Ep.
    + destruct (flow_cut_chk_ok one n m M E Gl HN okd Hokd eps h W HW fuel Hfuel _ _ _ _ _ _ _ _ i j HI1 Hi Ep) as (s2 & fl2 & E2 & U2 & HI2).
      exists s2. split; [exact E2|]. exists (set_parent par1 i None), fl2. split; [congruence|]. split; [exact HI2|].
      intros u Hu. unfold set_parent. destruct (Nat.eqb_spec u i) as [->|Hn]; auto.
      apply in_app_or in Hu. destruct Hu as [Hu|[->|[]]]; [auto|congruence].
    + exists s1. split; [reflexivity|]. exists par1, fl1. split; auto. split; auto.
      intros u Hu. apply in_app_or in Hu. destruct Hu as [Hu|[->|[]]]; auto.
  - exists s1, par1, fl1. split; [exact E1|]. split; [exact U1|]. split; [exact HI1|].
    intros u Hu. apply HA1. apply in_seq. lia.
Qed.

(** ** Size of the measure *)
Lemma BB_eq : BB = 6 * Z.of_nat m + 2 * Z.of_nat (n + 1).
Proof.
  clear Hfuel2 Hp0 Hexc0 Hopt0 Hkap Hfuel HW Hokd Hheps Hh.
  unfold BB. rewrite zsum_add.
  rewrite (zsum_scale nodes 3 (fun u => Z.of_nat (deg u))).
  assert (A := fn_deg _ _ _ _ _ HN). unfold nodes, deg, nG.
  rewrite A.
  assert (B : forall L : list nat, zsum L (fun _ => 2) = 2 * Z.of_nat (length L)).
  { induction L as [|a L IH]; [reflexivity|]. cbn [zsum length]. rewrite IH. lia. }
  rewrite B, seq_length. lia.
Qed.

Definition phase_work : Z :=
  Z.of_nat n * (kap + h) / h * (8 * Z.of_nat m + 3 * Z.of_nat (n + 1))
  + 6 * Z.of_nat m + 2 * Z.of_nat (n + 1).

Lemma mu_start par cur x : mu par cur p0 x <= phase_work.
Proof.
  clear Hfuel2 Hp0 Hexc0 Hopt0 Hkap Hfuel HW Hokd Hheps.
  unfold mu, phase_work. assert (A := S2_range par cur p0 x). rewrite BB_eq in *.
  assert (B : RR p0 = Z.of_nat n * (kap + h) / h * (8 * Z.of_nat m + 3 * Z.of_nat (n + 1))).
  { unfold RR. rewrite (zsum_ext nodes _ (fun u => Z.of_nat n * (kap + h) / h * (4 * Z.of_nat (deg u) + 3))).
    - rewrite zsum_scale. f_equal. rewrite zsum_add, (zsum_scale nodes 4 (fun u => Z.of_nat (deg u))).
      assert (A2 := fn_deg _ _ _ _ _ HN). unfold nodes, deg, nG. rewrite A2.
      assert (Z3 : forall L : list nat, zsum L (fun _ => 3) = 3 * Z.of_nat (length L)).
      { induction L as [|a L IH]; [reflexivity|]. cbn [zsum length]. rewrite IH. lia. }
      rewrite Z3, seq_length. lia.
    - intros u _. f_equal. f_equal. lia. }
  rewrite B. lia.
Qed.

Lemma deg_le v : (v <= n)%nat -> (deg v <= 2 * m)%nat.
Proof.
  clear Hfuel2 Hp0 Hexc0 Hopt0 Hkap Hfuel HW Hokd Hheps Hh.
  intros Hv. assert (A := fn_deg _ _ _ _ _ HN).
  assert (B : forall L, In v L -> Z.of_nat (length (G v)) <= zsum L (fun v => Z.of_nat (length (nth v Gl [])))).
  { induction L as [|a L IH]; intros Hi; [destruct Hi|]. cbn [zsum].
    assert (0 <= zsum L (fun v => Z.of_nat (length (nth v Gl [])))) by (apply zsum_nonneg; intros; lia).
    destruct Hi as [->|Hi]; [unfold nG; lia|]. specialize (IH Hi). lia. }
  specialize (B (seq 0 (n + 1)) ltac:(apply in_seq; lia)). unfold deg. lia.
Qed.

End FlowPhase.
