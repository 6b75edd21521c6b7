(** * Construction of the flow solver *)
From Verif Require Import Base BaseLemmas Data UniqueQueue LCT ProblemDefine Flow.
From Verif Require Import LCTBound LCTSpec LCTForest LCTOps UQProof Sums NetMath Spec Convex FlowNet PDProof FlowInv FlowPhase FlowRun.
Local Open Scope Z_scope.

Record limit_ok (n : nat) (M K : Z) (o : OmegaLimit Z) : Prop := {
  lo_edge : edge_ok M o;
  lo_i : (o_i o <= n)%nat;
  lo_j : (o_j o <= n)%nat;
  lo_l : - K <= o_l o;
  lo_u : o_u o <= K
}.

Section FlowNew.
Variable one : Z.
#[local] Hint Extern 0 (DataOps Z) => exact (exact_ops one) : typeclass_instances.

(** Flow.cpp:10-13 *)
Lemma eps_loop_ok n U : 0 <= U -> Dn n <= INT_MAX -> 4 * Z.of_nat (n + 1) * U <= INT_MAX ->
  forall d fuel i, (i + d = 31)%nat -> (d < fuel)%nat ->
  exists k, eps_loop fuel n U (2 ^ Z.of_nat i) = Ok (2 ^ Z.of_nat k) /\ (i <= k <= 31)%nat /\
    2 * Z.of_nat (n + 1) * U <= 2 ^ Z.of_nat k /\
    (k = i \/ 2 ^ Z.of_nat k < 4 * Z.of_nat (n + 1) * U).
Proof.
  intros HU HD HI. unfold Dn in HD.
  induction d as [|d IH]; intros fuel i Hi Hf; (destruct fuel as [|fuel]; [lia|]); cbn [eps_loop].
  - replace i with 31%nat by lia. change (2 ^ Z.of_nat 31) with 2147483648.
    rewrite ck_ok by (unfold INT_MIN, INT_MAX in *; lia). cbn [bind].
    rewrite ck_ok by (unfold INT_MIN, INT_MAX in *; lia). cbn [bind].
    rewrite ck_ok by (unfold INT_MIN, INT_MAX in *; nia). cbn [bind].
    destruct (Z.ltb_spec 2147483648 (2 * Z.of_nat (n + 1) * U)); [unfold INT_MAX in *; nia|].
    exists 31%nat. change (2 ^ Z.of_nat 31) with 2147483648. split; [reflexivity|]. split; [lia|]. split; [lia|auto].
  - rewrite ck_ok by (unfold INT_MIN, INT_MAX in *; lia). cbn [bind].
    rewrite ck_ok by (unfold INT_MIN, INT_MAX in *; lia). cbn [bind].
    rewrite ck_ok by (unfold INT_MIN, INT_MAX in *; nia). cbn [bind].
    destruct (Z.ltb_spec (2 ^ Z.of_nat i) (2 * Z.of_nat (n + 1) * U)) as [C|C].
    + assert (Hpos := Z.pow_pos_nonneg 2 (Z.of_nat i) ltac:(lia) ltac:(lia)).
      rewrite ck_ok by (unfold INT_MIN, INT_MAX in *; lia). cbn [bind].
      assert (E2 : 2 ^ Z.of_nat i * 2 = 2 ^ Z.of_nat (S i)) by (rewrite Nat2Z.inj_succ, Z.pow_succ_r by lia; lia).
      rewrite E2. destruct (Z.eqb_spec (2 ^ Z.of_nat (S i)) 0); [lia|]. cbn [negb assert_ bind].
      destruct (IH fuel (S i) ltac:(lia) ltac:(lia)) as (k & Ek & B1 & B2 & B3).
      exists k. split; [exact Ek|]. split; [lia|]. split; [lia|]. right. destruct B3 as [->|B3]; [lia|lia].
    + exists i. split; [reflexivity|]. split; [lia|]. split; [lia|auto].
Qed.

(** Flow.cpp:18-22 *)
Lemma double_edges_ok (limits : list (OmegaLimit Z)) K : K <= INT_MAX ->
  (forall o, In o limits -> - K <= o_l o /\ o_l o <= o_u o /\ o_u o <= K) ->
  forall k edges, (k <= length limits)%nat -> length edges = (2 * length limits)%nat ->
  (forall i, (i < k)%nat -> nth_error edges i = nth_error limits i) ->
  (forall j o, (k <= j)%nat -> nth_error limits j = Some o -> nth_error edges (2 * j) = Some o /\
     exists o', reverse o = Ok o' /\ nth_error edges (2 * j + 1) = Some o') ->
  exists E, double_edges k edges = Ok E /\ length E = (2 * length limits)%nat /\
    (forall j o, nth_error limits j = Some o -> nth_error E (2 * j) = Some o /\
     exists o', reverse o = Ok o' /\ nth_error E (2 * j + 1) = Some o').
Proof.
  intros HK HL. induction k as [|k IH]; intros edges Hk Hlen H1 H2; cbn [double_edges].
  - exists edges. split; [reflexivity|]. split; auto. intros j o Ho. apply H2; auto. lia.
  - destruct (nth_error limits k) as [o|] eqn:Eo; [|apply nth_error_None in Eo; lia].
    assert (Eg : nth_error edges k = Some o) by (rewrite H1; auto).
    rewrite (vget_ok _ _ _ Eg). cbn [bind].
    rewrite vset_ok by lia. cbn [bind]. rewrite vset_ok by (rewrite upd_length; lia). cbn [bind].
    destruct (HL o (nth_error_In _ _ Eo)) as (B1 & B2 & B3).
    destruct (reverse_ok o ltac:(lia) B2 ltac:(lia)) as (o' & Er & _). rewrite Er. cbn [bind].
    rewrite vset_ok by (rewrite !upd_length; lia). cbn [bind].
    apply IH.
    + lia.
    + rewrite !upd_length. exact Hlen.
    + intros i Hi. rewrite !nth_error_upd_neq by lia. apply H1. lia.
    + intros j o2 Hj Ho2. destruct (Nat.eq_dec j k) as [->|Hn].
      * assert (o2 = o) by congruence. subst o2. split.
        -- rewrite !nth_error_upd_neq by lia. apply nth_error_upd_eq. lia.
        -- exists o'. split; auto. replace (2 * k + 1)%nat with (2 * k + 1)%nat by lia.
           apply nth_error_upd_eq. rewrite !upd_length. lia.
      * destruct (H2 j o2 ltac:(lia) Ho2) as (A1 & o2' & A2 & A3). split.
        -- rewrite !nth_error_upd_neq by lia. exact A1.
        -- exists o2'. split; auto. rewrite !nth_error_upd_neq by lia. exact A3.
Qed.

(** Flow.cpp:26-27 *)
Lemma build_G_ok n (E : list (OmegaLimit Z)) :
  (forall e, (e < length E)%nat -> (o_i (edge E e) <= n)%nat) ->
  exists Gl, build_G E (repeat [] (n + 1)) = Ok Gl /\
    vec Gl (n + 1) (fun v => filter (fun e => Nat.eqb (o_i (edge E e)) v) (seq 0 (length E))).
Proof.
  intros Hi. unfold build_G.
  destruct (for_each_inv (fun pre G => vec G (n + 1) (fun v => filter (fun e => Nat.eqb (o_i (edge E e)) v) pre))
    (fun G e_id => e <- vget E e_id ;; g <- vget G (o_i e) ;; vset G (o_i e) (g ++ [e_id]))
    (seq 0 (length E)) (repeat [] (n + 1))) as (Gl & E1 & HV).
  - simpl. apply vec_repeat.
  - intros pre e post G Epre HV.
    assert (He : (e < length E)%nat).
    { assert (H : In e (seq 0 (length E))) by (rewrite Epre; apply in_or_app; simpl; auto). apply in_seq in H. lia. }
    rewrite (vget_nth E e OmegaLimit0) by auto. fold (edge E e). cbn [bind]. specialize (Hi e He).
    rewrite (vec_get _ _ _ _ HV) by lia. cbn [bind]. rewrite (vec_set _ _ _ _ _ HV) by lia.
    eexists. split; [reflexivity|]. eapply vec_ext; [apply vec_upd; [exact HV|lia]|].
    intros v Hv. unfold fup. rewrite filter_app. cbn [filter].
    destruct (Nat.eqb_spec v (o_i (edge E e))) as [->|Hn].
    + rewrite Nat.eqb_refl. reflexivity.
    + destruct (Nat.eqb_spec (o_i (edge E e)) v); [congruence|]. rewrite app_nil_r. reflexivity.
  - exists Gl. auto.
Qed.

Lemma deg_sum n (f : nat -> nat) (L : list nat) : (forall e, In e L -> (f e <= n)%nat) ->
  zsum (seq 0 (n + 1)) (fun v => Z.of_nat (length (filter (fun e => Nat.eqb (f e) v) L))) = Z.of_nat (length L).
Proof.
  induction L as [|a L IH]; intros H.
  - simpl. apply zsum_zero. reflexivity.
  - rewrite (zsum_ext _ _ (fun v => (if Nat.eqb (f a) v then 1 else 0) +
      Z.of_nat (length (filter (fun e => Nat.eqb (f e) v) L)))).
    + rewrite zsum_add, IH by (intros; apply H; simpl; auto).
      rewrite (zsum_indicator (seq 0 (n + 1)) (f a) (fun _ => 1)) by apply seq_NoDup.
      destruct (in_dec Nat.eq_dec (f a) (seq 0 (n + 1))) as [|Hn].
      * cbn [length]. lia.
      * exfalso. apply Hn, in_seq. assert (Hf := H a (or_introl eq_refl)). lia.
    + intros v _. cbn [filter]. destruct (Nat.eqb (f a) v); cbn [length]; lia.
Qed.

Variables (n : nat) (M K U : Z) (limits : list (OmegaLimit Z)).
Notation m := (length limits).
Hypothesis HM : 0 <= M.
Hypothesis HK : K <= INT_MAX.
Hypothesis HL : forall o, In o limits -> limit_ok n M K o.
Hypothesis HU : 0 <= U.
Hypothesis HD : Dn n <= INT_MAX.
Hypothesis HUI : 4 * Z.of_nat (n + 1) * U <= INT_MAX.

Lemma edges_net E Gl :
  length E = (2 * m)%nat ->
  (forall j o, nth_error limits j = Some o -> nth_error E (2 * j) = Some o /\
     exists o', reverse o = Ok o' /\ nth_error E (2 * j + 1) = Some o') ->
  vec Gl (n + 1) (fun v => filter (fun e => Nat.eqb (o_i (edge E e)) v) (seq 0 (length E))) ->
  flownet n m M E Gl.
Proof.
  intros Hlen HE HG.
  assert (HE' : forall j, (j < m)%nat -> edge E (2 * j) = edge limits j /\ In (edge limits j) limits /\
     rev_edge (edge E (2 * j)) (edge E (2 * j + 1)) /\
     edge_ok M (edge E (2 * j + 1))).
  { intros j Hj. destruct (nth_error limits j) as [o|] eqn:Eo; [|apply nth_error_None in Eo; lia].
    destruct (HE j o Eo) as (A1 & o' & A2 & A3).
    assert (L := HL o (nth_error_In _ _ Eo)). destruct L as [L1 L2 L3 L4 L5].
    assert (Elu := eo_lu _ _ L1).
    destruct (reverse_ok o ltac:(lia) Elu ltac:(lia)) as (o2 & B1 & B2 & B3).
    assert (o2 = o') by congruence. subst o2. unfold edge.
    rewrite (nth_error_nth _ _ OmegaLimit0 A1), (nth_error_nth _ _ OmegaLimit0 A3), (nth_error_nth _ _ OmegaLimit0 Eo).
    split; auto. split; [eapply nth_error_In; eauto|]. split; auto. eapply rev_edge_ok; eauto. }
  constructor; auto.
  - apply (vec_len _ _ _ HG).
  - intros e He. destruct (edge_cases e) as [j [->| ->]].
    + destruct (HE' j ltac:(lia)) as (A1 & A2 & _). rewrite A1. apply (lo_i _ _ _ _ (HL _ A2)).
    + destruct (HE' j ltac:(lia)) as (A1 & A2 & (R1 & _) & _). rewrite R1, A1. apply (lo_j _ _ _ _ (HL _ A2)).
  - intros e He. destruct (edge_cases e) as [j [->| ->]].
    + rewrite rev_even. apply HE'. lia.
    + rewrite rev_odd. destruct (HE' j ltac:(lia)) as (A1 & A2 & (R1 & R2 & R3 & R4 & R5) & _).
      repeat split; try congruence; try lia.
      intros x Hx. rewrite <- (R5 (- x)) by lia. f_equal. lia.
  - intros e He. destruct (edge_cases e) as [j [->| ->]].
    + destruct (HE' j ltac:(lia)) as (A1 & A2 & _). rewrite A1. apply (lo_edge _ _ _ _ (HL _ A2)).
    + apply HE'. lia.
  - intros v e Hv. assert (Ev := vec_nth _ _ _ HG v ltac:(lia)). rewrite (nth_error_nth _ _ [] Ev).
    rewrite filter_In, in_seq, Nat.eqb_eq, Hlen. split; intros [A B]; split; auto; lia.
  - rewrite (zsum_ext _ _ (fun v => Z.of_nat (length (filter (fun e => Nat.eqb (o_i (edge E e)) v) (seq 0 (length E)))))).
    + rewrite (deg_sum n (fun e => o_i (edge E e))).
      * rewrite seq_length, Hlen. reflexivity.
      * intros e He. apply in_seq in He. destruct (edge_cases e) as [j [->| ->]].
        -- destruct (HE' j ltac:(lia)) as (A1 & A2 & _). rewrite A1. apply (lo_i _ _ _ _ (HL _ A2)).
        -- destruct (HE' j ltac:(lia)) as (A1 & A2 & (R1 & _) & _). rewrite R1, A1. apply (lo_j _ _ _ _ (HL _ A2)).
    + intros v Hv. apply in_seq in Hv. assert (Ev := vec_nth _ _ _ HG v ltac:(lia)). rewrite (nth_error_nth _ _ [] Ev). reflexivity.
Qed.

(** Flow.cpp:6-28 *)
Lemma flow_new_ok fuel : (31 < fuel)%nat ->
  exists s E Gl k, flow_new fuel n M U limits = Ok s /\ flownet n m M E Gl /\
    (forall j, (j < m)%nat -> edge E (2 * j) = nth j limits OmegaLimit0) /\
    Head n m M E Gl (2 ^ Z.of_nat k) (Dn n * K) 0 s (fun _ => 0) (fun _ => 0) /\
    (k <= 31)%nat /\ 2 * Z.of_nat (n + 1) * U <= 2 ^ Z.of_nat k /\
    (k = 0%nat \/ 2 ^ Z.of_nat k < 4 * Z.of_nat (n + 1) * U).
Proof.
  intros Hf. unfold flow_new.
  destruct (eps_loop_ok n U HU HD HUI 31 fuel 0 eq_refl Hf) as (k & Ek & B1 & B2 & B3).
  change (2 ^ Z.of_nat 0) with 1 in Ek. rewrite Ek. cbn [bind].
  assert (Has : (U <=? Z.quot (Z.quot (2 ^ Z.of_nat k) 2) (Z.of_nat (n + 1))) = true).
  { apply Z.leb_le. assert (Hpos := Z.pow_pos_nonneg 2 (Z.of_nat k) ltac:(lia) ltac:(lia)).
    rewrite !Z.quot_div_nonneg by (try apply Z.quot_pos; lia).
    apply Z.div_le_lower_bound; [lia|]. apply Z.div_le_lower_bound; lia. }
  rewrite Has. cbn [assert_ bind].
  destruct (double_edges_ok limits K HK) with (k := m) (edges := limits ++ repeat (OmegaLimit0 (D:=Z)) m)
    as (E & EE & Hlen & HE).
  { intros o Ho. destruct (HL o Ho) as [[L1 _ _ _] _ _ L4 L5]. lia. }
  { lia. }
  { rewrite app_length, repeat_length. lia. }
  { intros i Hi. apply nth_error_app1; auto. }
  { intros j o Hj Ho. apply nth_error_lt in Ho. lia. }
  rewrite EE. cbn [bind].
  destruct (build_G_ok n E) as (Gl & EG & HG).
  { intros e He. rewrite Hlen in He.
    destruct (edge_cases e) as [j [->| ->]]; (destruct (nth_error limits j) as [o|] eqn:Eo; [|apply nth_error_None in Eo; lia]);
    destruct (HE j o Eo) as (A1 & o' & A2 & A3); assert (L := HL o (nth_error_In _ _ Eo)); destruct L as [L1 L2 L3 L4 L5];
    unfold edge.
    - rewrite (nth_error_nth _ _ OmegaLimit0 A1). auto.
    - rewrite (nth_error_nth _ _ OmegaLimit0 A3). assert (Elu := eo_lu _ _ L1).
      destruct (reverse_ok o ltac:(lia) Elu ltac:(lia)) as (o2 & C1 & (C2 & _) & C3). assert (o2 = o') by congruence. subst.
      rewrite C2. auto. }
  rewrite EG. cbn [bind].
  assert (HN := edges_net E Gl Hlen HE HG).
  eexists _, E, Gl, k. split; [reflexivity|]. split; [exact HN|]. split; [|split; [|split; [lia|split; [lia|]]]].
  - intros j Hj. destruct (nth_error limits j) as [o|] eqn:Eo; [|apply nth_error_None in Eo; lia].
    destruct (HE j o Eo) as (A1 & _). unfold edge. rewrite (nth_error_nth _ _ OmegaLimit0 A1), (nth_error_nth _ _ OmegaLimit0 Eo). reflexivity.
  - assert (Hx0 : forall e, xd (fun _ => 0) e = 0) by (intros e; unfold xd; destruct (Nat.even e); reflexivity).
    constructor.
    + exists (fun _ => None), (fun _ => 0), (fun _ => 0%nat). split; [|split; [auto|intros; lia]].
      constructor; cbn [f_n f_M f_eps f_nodes f_imb f_cur f_uq f_fa f_edges f_flows f_G f_scal]; auto.
      * rewrite repeat_length. lia.
      * apply rep_init.
      * apply vec_repeat.
      * apply vec_repeat.
      * apply vec_repeat.
      * rewrite <- Hlen. eapply vec_ext; [apply vec_repeat|]. intros e He. rewrite Hx0. reflexivity.
      * apply vec_repeat.
      * apply uq_ok_new.
      * intros i nd Hnd. apply nth_error_In, repeat_spec in Hnd. subst nd.
        assert (HC : 0 <= Cb m M) by (unfold Cb; nia). unfold nb. cbn. lia.
    + intros u Hu. unfold exc. apply zsum_zero. intros j _. destruct (Nat.eqb _ _), (Nat.eqb _ _); reflexivity.
    + intros e He. rewrite Hx0. unfold pe, lftE.
      assert (Hc : cdiv (0 - 0 - Dn n * K) (Dn n) = - K).
      { unfold cdiv. replace (- (0 - 0 - Dn n * K)) with (K * Dn n) by lia. rewrite Z.div_mul; [reflexivity|]. assert (X := Dn_pos n). lia. }
      rewrite Hc. unfold eslope, slope.
      assert (Hl : - K <= o_l (edge E e) <= o_u (edge E e)).
      { destruct (edge_cases e) as [j [->| ->]]; (destruct (nth_error limits j) as [o|] eqn:Eo; [|apply nth_error_None in Eo; lia]);
        destruct (HE j o Eo) as (A1 & o' & A2 & A3); assert (L := HL o (nth_error_In _ _ Eo)); destruct L as [L1 L2 L3 L4 L5];
        unfold edge; assert (Elu := eo_lu _ _ L1).
        - rewrite (nth_error_nth _ _ OmegaLimit0 A1). lia.
        - rewrite (nth_error_nth _ _ OmegaLimit0 A3).
          destruct (reverse_ok o ltac:(lia) Elu ltac:(lia)) as (o2 & C1 & (C2 & C3 & C4 & C5 & _) & _). assert (o2 = o') by congruence. subst.
          lia. }
      destruct (Z.leb_spec (o_u (edge E e)) (- K - 1)); [lia|]. destruct (Z.ltb_spec (- K - 1) (o_l (edge E e))); lia.
    + intros e He. rewrite Hx0. lia.
    + reflexivity.
    + intros; lia.
  - destruct B3 as [->|B3]; auto.
Qed.

End FlowNew.
