(** * The size of every number of type Data computed by a run of the library *)
From Verif Require Import Base BaseLemmas Data LCTChecked ProblemDefine Flow FlowChecked ProblemSolver SolverChecked.
From Verif Require Import Sums NetMath Spec FlowSpec Convex FlowNet PDProof FlowPhase FlowNew FlowOpt FlowStates FlowProps SolverNet SolverProof Sim SolverSim.
Local Open Scope Z_scope.

Section Size.
Variable one : Z.
#[local] Hint Extern 0 (DataOps Z) => exact (exact_ops one) : typeclass_instances.
Variable fuel : nat.
Hypothesis Hfuel : (31 < fuel)%nat.
Variable okd : Z -> bool.

Definition bnd (w : Z) (o : OmegaLimit Z) : Prop :=
  forall x, o_l o <= x <= o_u o -> Z.abs (cost (o_fn o) x) <= w.

(** the largest absolute value of the cost *)
Definition wt (o : OmegaLimit Z) : Z := Z.max (Z.abs (hi o)) (Z.abs (lo one fuel o)).

Lemma wt_nonneg o : 0 <= wt o.
Proof. clear. unfold wt. lia. Qed.

Section Good.
Variables (n : nat) (K R : Z).
Hypothesis HK : K <= INT_MAX.
Hypothesis HR : R <= INT_MAX.

Lemma wt_bnd o : lgood n K R o -> bnd (wt o) o.
Proof.
  intros G x Hx. destruct (lo_ok one fuel Hfuel n K R o HK HR G) as (_ & H1 & _).
  specialize (H1 x Hx). assert (H2 := convex_max _ _ _ x (lg_conv _ _ _ _ G) Hx). fold (hi o) in H2. unfold wt. lia.
Qed.

Lemma wt_le w o : lgood n K R o -> bnd w o -> wt o <= w.
Proof.
  intros G HB. destruct (lo_ok one fuel Hfuel n K R o HK HR G) as (_ & _ & (x & Hx & E)).
  assert (H1 := HB x Hx). rewrite E in H1. assert (L := lg_lu _ _ _ _ G).
  assert (H2 := HB (o_l o) ltac:(lia)). assert (H3 := HB (o_u o) ltac:(lia)). unfold wt, hi. lia.
Qed.

Lemma rev_bnd w o o' : rev_edge o o' -> bnd w o -> bnd w o'.
Proof.
  clear. intros (E1 & E2 & E3 & E4 & E5) HB x Hx. rewrite E3, E4 in Hx.
  replace x with (- - x) by lia. rewrite E5 by lia. apply HB. lia.
Qed.

(** ** Merging *)
Lemma merge_chk_good o o2 : o_i o = o_i o2 -> o_j o = o_j o2 -> lgood n K R o -> lgood n K R o2 ->
  (forall z, Z.abs z <= wt o + wt o2 -> okd z = true) ->
  exists o' flag, merge_chk okd o o2 = Ok (o', flag) /\ o_i o' = o_i o /\ o_j o' = o_j o /\
    (flag = false -> lgood n K R o' /\ wt o' <= wt o + wt o2).
Proof.
  intros Hi Hj G1 G2 Hok. unfold merge_chk. rewrite Hi, Hj, !Nat.eqb_refl. cbn [assert_ bind].
  eexists _, _. split; [reflexivity|]. cbn [o_i o_j]. split; [reflexivity|]. split; [reflexivity|].
  intros F. apply negb_false_iff, Z.leb_le in F.
  assert (B1 := wt_bnd o G1). assert (B2 := wt_bnd o2 G2).
  destruct G1 as [A1 A2 A3 A4 A5 A6 A7 A8], G2 as [C1 C2 C3 C4 C5 C6 C7 C8].
  set (o' := mkOm _ _ _ _ _).
  assert (HF : forall x, o_l o' <= x <= o_u o' -> o_fn o' x = Ok (cost (o_fn o) x + cost (o_fn o2) x)).
  { intros x Hx. cbn [o' o_l o_u] in Hx. cbn [o' o_fn].
    rewrite (cost_ok _ _ _ x A2) by lia. cbn [bind]. rewrite (cost_ok _ _ _ x C2) by lia. cbn [bind].
    unfold ckd. cbn [dadd exact_ops]. rewrite Hok; [reflexivity|].
    assert (X1 := B1 x ltac:(lia)). assert (X2 := B2 x ltac:(lia)). lia. }
  assert (HC : forall x, o_l o' <= x <= o_u o' -> cost (o_fn o') x = cost (o_fn o) x + cost (o_fn o2) x).
  { intros x Hx. unfold cost at 1. rewrite HF by auto. reflexivity. }
  assert (G' : lgood n K R o').
  { constructor; try (cbn [o' o_l o_u o_i o_j]; lia).
    - intros x Hx. rewrite HF by auto. eauto.
    - apply (convex_ext (fun x => cost (o_fn o) x + cost (o_fn o2) x)); [apply convex_add; [apply (convex_sub _ (o_l o) (o_u o))|apply (convex_sub _ (o_l o2) (o_u o2))]; auto; cbn [o' o_l o_u]; lia|exact HC]. }
  split; [exact G'|]. apply wt_le; [exact G'|]. intros x Hx. rewrite HC by exact Hx. cbn [o' o_l o_u] in Hx.
  assert (X1 := B1 x ltac:(lia)). assert (X2 := B2 x ltac:(lia)). lia.
Qed.

Lemma zsum_insert {T} l1 (o : T) l2 f : zsum (l1 ++ o :: l2) f = f o + zsum (l1 ++ l2) f.
Proof. clear. rewrite !zsum_app. cbn [zsum]. lia. Qed.

Variable A : Z.
Hypothesis HA : forall z, Z.abs z <= A -> okd z = true.

Lemma merge_loop_chk_ok oms : forall mp,
  (forall o, In o oms -> lgood n K R o) -> (forall o, In o (map snd mp) -> lgood n K R o) ->
  keyed mp -> ksorted mp -> zsum (map snd mp) wt + zsum oms wt <= A ->
  exists r, merge_loop_chk okd oms mp = Ok r /\
    match r with
    | None => True
    | Some mp' => (forall o, In o (map snd mp') -> lgood n K R o) /\ (length mp' <= length mp + length oms)%nat /\
                  zsum (map snd mp') wt <= zsum (map snd mp) wt + zsum oms wt
    end.
Proof.
  induction oms as [|it oms IH]; intros mp G1 G2 HK1 HS HW; cbn [merge_loop_chk].
  - exists (Some mp). split; auto. split; auto. split; [lia|]. cbn [zsum]. lia.
  - assert (Gi := G1 it (or_introl eq_refl)). cbn [zsum] in HW |- *.
    assert (HRe : exists it', (if (o_i it <? o_j it)%nat then reverse it else Ok it) = Ok it' /\ lgood n K R it' /\ wt it' <= wt it).
    { destruct (o_i it <? o_j it)%nat.
      - assert (Bi := wt_bnd it Gi).
        destruct Gi as [A1 A2 A3 A4 A5 A6 A7 A8] eqn:EG. destruct (reverse_ok it ltac:(lia) A1 ltac:(lia)) as (it' & E & HE & HF).
        exists it'. split; auto. assert (G' : lgood n K R it') by (eapply rev_edge_good; eauto).
        split; [exact G'|]. apply wt_le; [exact G'|]. eapply rev_bnd; eauto.
      - exists it. split; auto. split; auto. lia. }
    destruct HRe as (it' & E & Gi' & HQ). rewrite E. cbn [bind]. clear E.
    assert (P1 := zsum_nonneg oms wt (fun o _ => wt_nonneg o)). assert (P2 := wt_nonneg it').
    set (k := (o_i it', o_j it')).
    destruct (map_find mp k) as [o|] eqn:EF.
    + assert (Hin := find_some_in _ _ _ EF). assert (Hk := HK1 _ _ Hin). unfold k in Hk. inversion Hk as [[Hk1 Hk2]].
      assert (Go : lgood n K R o) by (apply G2; apply (in_map snd _ _ Hin)).
      assert (Wo : wt o <= zsum (map snd mp) wt).
      { apply (in_map snd) in Hin. cbn [snd] in Hin. apply in_split in Hin. destruct Hin as (l1 & l2 & E1). rewrite E1, zsum_insert.
        assert (P3 := zsum_nonneg (l1 ++ l2) wt (fun o _ => wt_nonneg o)). lia. }
      destruct (merge_chk_good o it' ltac:(auto) ltac:(auto) Go Gi') as (o' & flag & Em & Ei & Ej & HFl).
      { intros z Hz. apply HA. lia. }
      rewrite Em. cbn [bind]. destruct flag; [exists None; auto|].
      destruct (HFl eq_refl) as [Go' HC]. destruct (map_set_present mp k o o' HS EF) as (l1 & l2 & E1 & E2).
      assert (E1' : map snd mp = map snd l1 ++ o :: map snd l2) by (rewrite E1, map_app; reflexivity).
      assert (E2' : map snd (map_set mp k o') = map snd l1 ++ o' :: map snd l2) by (rewrite E2, map_app; reflexivity).
      rewrite E1', zsum_insert in HW, Wo |- *.
      destruct (IH (map_set mp k o')) as (r & Er & Hr).
      { intros; apply G1; simpl; auto. }
      { rewrite E2'. apply forall_insert. split; auto. rewrite E1' in G2. apply forall_insert in G2. tauto. }
      { unfold keyed. rewrite E2. intros k2 o2 H2.
        assert (H2' : k2 = k /\ o2 = o' \/ In (k2, o2) mp).
        { rewrite E1. apply in_app_or in H2. destruct H2 as [H2|[H2|H2]].
          - right. apply in_or_app. auto.
          - inversion H2. auto.
          - right. apply in_or_app. simpl. auto. }
        destruct H2' as [[-> ->]|H2']; [|apply HK1; auto]. unfold k. congruence. }
      { apply map_set_sorted; auto. }
      { rewrite E2', zsum_insert. lia. }
      exists r. split; [exact Er|]. destruct r as [mp'|]; [|exact I]. rewrite E2', zsum_insert in Hr.
      destruct Hr as (R1 & R2 & R3). split; [exact R1|]. split; [|lia].
      rewrite E2, app_length in R2. rewrite E1, app_length. simpl in *. lia.
    + destruct (map_set_absent mp k it' EF) as (l1 & l2 & E1 & E2).
      assert (E1' : map snd mp = map snd l1 ++ map snd l2) by (rewrite E1, map_app; reflexivity).
      assert (E2' : map snd (map_set mp k it') = map snd l1 ++ it' :: map snd l2) by (rewrite E2, map_app; reflexivity).
      destruct (IH (map_set mp k it')) as (r & Er & Hr).
      { intros; apply G1; simpl; auto. }
      { rewrite E2'. apply forall_insert. split; auto. rewrite E1' in G2. auto. }
      { unfold keyed. rewrite E2. intros k2 o2 H2.
        assert (H2' : k2 = k /\ o2 = it' \/ In (k2, o2) mp).
        { rewrite E1. apply in_app_or in H2. destruct H2 as [H2|[H2|H2]].
          - right. apply in_or_app. auto.
          - inversion H2. auto.
          - right. apply in_or_app. simpl. auto. }
        destruct H2' as [[-> ->]|H2']; [reflexivity|apply HK1; auto]. }
      { apply map_set_sorted; auto. }
      { rewrite E2', zsum_insert, <- E1'. lia. }
      exists r. split; [exact Er|]. destruct r as [mp'|]; [|exact I]. rewrite E2', zsum_insert, <- E1' in Hr.
      destruct Hr as (R1 & R2 & R3). split; [exact R1|]. split; [|lia].
      rewrite E2, app_length in R2. rewrite E1, app_length. simpl in *. lia.
Qed.

Lemma merge_limits_chk_ok (s : solver Z) :
  (0 <= s_n s) -> length (s_mus s) = (Z.to_nat (s_n s) + 1)%nat ->
  (forall o, In o (s_oms s) -> lgood n K R o) -> zsum (s_oms s) wt <= A ->
  exists r, merge_limits_chk okd s = Ok r /\
    match r with
    | None => True
    | Some LL => exists L, LL = L ++ map (mu_limit (s_mus s)) (seq 1 (Z.to_nat (s_n s))) /\
        (forall o, In o L -> lgood n K R o) /\ (length L <= length (s_oms s))%nat /\ zsum L wt <= zsum (s_oms s) wt
    end.
Proof.
  intros Hn Hl G HW. unfold merge_limits_chk.
  destruct (merge_loop_chk_ok (s_oms s) []) as (r & E & Hr); auto.
  - intros o [].
  - intros k o [].
  - constructor.
  - rewrite E. cbn [bind]. destruct r as [mp|]; [|exists None; auto].
    rewrite mu_loop_ok by (intros i Hi; apply in_seq in Hi; lia). cbn [bind app].
    eexists. split; [reflexivity|]. cbv beta iota. exists (map snd mp). split; [reflexivity|].
    destruct Hr as (R1 & R2 & R3). cbn [map zsum length] in *. rewrite map_length. split; [auto|]. split; [lia|lia].
Qed.

(** ** The two sums of [calc] *)
Lemma calc_chk_ok limits : 0 <= R -> 0 <= one -> zsum limits wt <= A -> (forall o, In o limits -> lgood n K R o) ->
  (forall z, Z.abs z <= one + 2 * A -> okd z = true) ->
  exists U, calc_chk okd fuel limits = Ok (zsum limits hi, one + zsum limits (fun o => hi o - lo one fuel o), U) /\
    0 <= U <= R /\ forall o, In o limits -> o_u o - o_l o <= U.
Proof.
  intros HR0 H1 HW HG Hok. unfold calc_chk. unfold ckd at 1. cbn [done exact_ops].
  assert (P0 := zsum_nonneg limits wt (fun o _ => wt_nonneg o)).
  rewrite (Hok one) by lia. cbn [bind].
  destruct (for_each_inv (fun pre (st : Z * Z * Z) => let '(vmax, M, U) := st in
      vmax = zsum pre hi /\ M = one + zsum pre (fun o => hi o - lo one fuel o) /\ 0 <= U <= R /\ forall o, In o pre -> o_u o - o_l o <= U)
    (fun '(vmax, M, U) it =>
      a <- o_fn it (o_l it) ;; b <- o_fn it (o_u it) ;;
      vmax <- ckd okd (dadd vmax (dmax a b)) ;;
      mi <- limit_min fuel it ;;
      c <- ckd okd (dsub (dmax a b) mi) ;;
      M <- ckd okd (dadd M c) ;;
      d <- ck (o_u it - o_l it) ;;
      Ok (vmax, M, Z.max U d)) limits (dzero, one, 0)) as ([[vmax M] U] & E & H2 & H3 & H4 & H5).
  - cbn [dzero exact_ops]. split; [reflexivity|]. split; [simpl; lia|]. split; [lia|]. intros o [].
  - intros pre o post [[vmax M] U] Epre (H2 & H3 & H4 & H5).
    assert (G : lgood n K R o) by (apply HG; rewrite Epre; apply in_or_app; simpl; auto).
    destruct (lo_ok one fuel Hfuel n K R o HK HR G) as (El & _). destruct G as [A1 A2 A3 A4 A5 A6 A7 A8].
    assert (HWp : zsum pre wt + wt o <= A).
    { assert (X := zsum_nonneg post wt (fun o _ => wt_nonneg o)). rewrite Epre, zsum_insert, zsum_app in HW. lia. }
    assert (Hh : forall l, Z.abs (zsum l hi) <= zsum l wt).
    { clear. intros l. induction l as [|o l IH]; cbn [zsum]; [lia|]. unfold wt at 1. lia. }
    assert (Hd : forall l, Z.abs (zsum l (fun o => hi o - lo one fuel o)) <= 2 * zsum l wt).
    { clear. intros l. induction l as [|o l IH]; cbn [zsum]; [lia|]. unfold wt at 1. lia. }
    assert (Pp := zsum_nonneg pre wt (fun o _ => wt_nonneg o)).
    assert (X1 := Hh pre). assert (X2 := Hd pre). assert (X3 : Z.abs (hi o) <= wt o) by (unfold wt; lia).
    assert (X4 : Z.abs (lo one fuel o) <= wt o) by (unfold wt; lia).
    rewrite (cost_ok _ _ _ (o_l o) A2) by lia. cbn [bind]. rewrite (cost_ok _ _ _ (o_u o) A2) by lia. cbn [bind].
    assert (Eh : dmax (cost (o_fn o) (o_l o)) (cost (o_fn o) (o_u o)) = hi o).
    { unfold dmax, hi. cbn [dlt exact_ops]. destruct (Z.ltb_spec (cost (o_fn o) (o_l o)) (cost (o_fn o) (o_u o))); lia. }
    rewrite Eh. unfold ckd. cbn [dadd dsub exact_ops]. rewrite (HA (vmax + hi o)) by (subst; lia). cbn [bind].
    rewrite El. cbn [bind]. rewrite (Hok (hi o - lo one fuel o)) by lia. cbn [bind].
    rewrite (Hok (M + (hi o - lo one fuel o))) by (subst; lia). cbn [bind].
    rewrite ck_ok by (unfold INT_MIN, INT_MAX in *; lia). cbn [bind].
    eexists. split; [reflexivity|]. rewrite !zsum_app. cbn [zsum].
    split; [lia|]. split; [lia|]. split; [lia|].
    intros o2 H. apply in_app_or in H. destruct H as [H|[<-|[]]]; [specialize (H5 _ H)|]; lia.
  - exists U. subst. split; [exact E|auto].
Qed.

End Good.

(** ** The final summation *)
Section Sum.
Variables (n m : nat) (M K : Z) (E : list (OmegaLimit Z)) (Gl : list (list nat)).
Hypothesis HN : flownet n m M E Gl.
Hypothesis HR : forall e, (e < 2 * m)%nat -> int_range (o_l (edge E e)) (o_u (edge E e)).
Hypothesis HK : 0 <= K.
Hypothesis HB : forall e, (e < 2 * m)%nat -> - K <= o_l (edge E e) /\ o_u (edge E e) <= K.
Variable w : nat -> Z.
Hypothesis Hw : forall e, (e < 2 * m)%nat -> bnd (w e) (edge E e).
Hypothesis Hok : forall z, Z.abs z <= zsum (seq 0 (2 * m)) w + 2 * Z.of_nat m * (K * M) -> okd z = true.
Variable x : nat -> Z.
Hypothesis Hx : forall e, (e < 2 * m)%nat -> - M <= xd x e <= M.

Lemma w_nonneg e : (e < 2 * m)%nat -> 0 <= w e.
Proof. intros He. destruct (fn_ok _ _ _ _ _ HN e He) as [H1 _ _ _]. specialize (Hw e He (o_l (edge E e)) ltac:(lia)). lia. Qed.

Lemma xw_le e t : (e < 2 * m)%nat -> o_l (edge E e) <= t <= o_u (edge E e) -> Z.abs (xd x e * t) <= K * M.
Proof.
  intros He Ht. destruct (HB e He). specialize (Hx e He). rewrite Z.abs_mul.
  assert (Z.abs (xd x e) <= M) by lia. assert (Z.abs t <= K) by lia. rewrite (Z.mul_comm K).
  apply Z.mul_le_mono_nonneg; lia.
Qed.

Lemma part_abs e : (e < 2 * m)%nat -> Z.abs (part one E fuel x e) <= w e + K * M.
Proof.
  intros He. destruct (part_ok one n m M E Gl HN fuel Hfuel HR x e He) as (_ & (t & Ht & ->) & _).
  assert (A1 := Hw e He t Ht). assert (A2 := xw_le e t He Ht). lia.
Qed.

Lemma sub_sum pre (e : nat) post : seq 0 (2 * m) = pre ++ e :: post ->
  zsum pre w + w e <= zsum (seq 0 (2 * m)) w /\ Z.of_nat (length pre) + 1 <= 2 * Z.of_nat m /\
  (forall k, In k pre -> (k < 2 * m)%nat) /\ 0 <= zsum pre w /\ (e < 2 * m)%nat /\ ~ In e pre.
Proof.
  intros Epre.
  assert (HIn : forall k, In k (pre ++ e :: post) -> (k < 2 * m)%nat) by (intros k Hk; rewrite <- Epre in Hk; apply in_seq in Hk; lia).
  assert (Hp : forall k, In k post -> 0 <= w k) by (intros; apply w_nonneg, HIn, in_or_app; simpl; auto).
  assert (HL := f_equal (@length nat) Epre). rewrite seq_length, app_length in HL. cbn [length] in HL.
  assert (ND := seq_NoDup (2 * m) 0). rewrite Epre in ND. apply NoDup_remove_2 in ND.
  split; [rewrite Epre, zsum_insert, zsum_app; assert (X := zsum_nonneg post w Hp); lia|].
  split; [lia|]. split; [intros; apply HIn, in_or_app; auto|].
  split; [apply zsum_nonneg; intros; apply w_nonneg, HIn, in_or_app; auto|].
  split; [apply HIn, in_or_app; simpl; auto|]. intros X. apply ND, in_or_app. auto.
Qed.

Lemma parts_abs pre : (forall e, In e pre -> (e < 2 * m)%nat) ->
  Z.abs (zsum pre (part one E fuel x)) <= zsum pre w + Z.of_nat (length pre) * (K * M).
Proof.
  clear Hok. induction pre as [|e pre IH]; intros H; cbn [zsum length]; [lia|].
  assert (A1 := part_abs e (H e (or_introl eq_refl))). assert (A2 := IH (fun k Hk => H k (or_intror Hk))).
  rewrite Nat2Z.inj_succ, Z.mul_succ_l. lia.
Qed.

Lemma tilt_chk_min e : (e < 2 * m)%nat -> limit_min fuel (tilt_chk okd (edge E e) (xd x e)) = Ok (part one E fuel x e).
Proof.
  intros He. destruct (part_ok one n m M E Gl HN fuel Hfuel HR x e He) as (Ep & _).
  destruct (fn_ok _ _ _ _ _ HN e He) as [H1 H2 _ _].
  assert (HKM := fn_M _ _ _ _ _ HN). assert (HKM2 : 0 <= K * M) by nia.
  assert (HS : sim eq (limit_min fuel (tilt (edge E e) (xd x e))) (limit_min fuel (tilt_chk okd (edge E e) (xd x e)))).
  { apply limit_min_sim; [intros a b a' b' -> ->; reflexivity|]. unfold tilt, tilt_chk. constructor; [exact H1|].
    intros t Ht. destruct (HR e He) as (R1 & R2 & _). rewrite ck_ok by lia. cbn [bind].
    rewrite (cost_ok _ _ _ t H2) by exact Ht. cbn [bind]. unfold ckd. cbn [dmuli dsub exact_ops].
    assert (A1 := Hw e He t Ht). assert (A2 := xw_le e t He Ht).
    assert (W : w e <= zsum (seq 0 (2 * m)) w).
    { assert (He' : In e (seq 0 (2 * m))) by (apply in_seq; lia). apply in_split in He'. destruct He' as (l1 & l2 & El).
      destruct (sub_sum _ _ _ El) as (S1 & _ & _ & S2 & _). lia. }
    assert (KM : K * M <= 2 * Z.of_nat m * (K * M)) by (clear - He HKM2; nia).
    assert (W0 := w_nonneg e He).
    rewrite (Hok (xd x e * t)) by lia. cbn [bind]. rewrite (Hok (cost (o_fn (edge E e)) t - xd x e * t)) by lia. apply sim_ok. reflexivity. }
  destruct (HS _ Ep) as (b & Eb & <-). exact Eb.
Qed.

(** Flow.cpp:36-42 *)
Lemma sum_answer_chk_ok s : f_edges s = E -> vec (f_flows s) (2 * m) (xd x) ->
  exists s', sum_answer_chk okd fuel s = Ok (s', zsum (seq 0 (2 * m)) (part one E fuel x)).
Proof.
  intros EE Hfl. unfold sum_answer_chk. rewrite EE, (fn_len _ _ _ _ _ HN).
  assert (HKM := fn_M _ _ _ _ _ HN). assert (HKM2 : 0 <= K * M) by nia.
  destruct (for_each_inv (fun pre (st : flow Z * Z) =>
      f_flows (fst st) = f_flows s /\ length (f_edges (fst st)) = (2 * m)%nat /\
      (forall e, (e < 2 * m)%nat -> ~ In e pre -> nth_error (f_edges (fst st)) e = Some (edge E e)) /\
      snd st = zsum pre (part one E fuel x))
    (fun '(s, answer) e_id =>
       e <- vget (f_edges s) e_id ;; x <- vget (f_flows s) e_id ;;
       es <- vset (f_edges s) e_id (tilt_chk okd e x) ;;
       m <- limit_min fuel (tilt_chk okd e x) ;;
       a <- ckd okd (dadd answer m) ;; Ok (with_edges s es, a))
    (seq 0 (2 * m)) (s, dzero)) as ([s' v] & E1 & H1 & H2 & H3 & H4).
  - cbn [fst snd]. split; auto. split; [rewrite EE; apply (fn_len _ _ _ _ _ HN)|]. split; [|reflexivity].
    intros e He _. rewrite EE. apply nth_error_nth'. rewrite (fn_len _ _ _ _ _ HN). auto.
  - intros pre e post [s1 a1] Epre (H1 & H2 & H3 & H4). cbn [fst snd] in *.
    destruct (sub_sum pre e post Epre) as (S1 & S2 & S3 & S4 & He & ND).
    rewrite (vget_ok _ _ _ (H3 e He ND)). cbn [bind].
    rewrite H1, (vec_get _ _ _ _ Hfl) by auto. cbn [bind].
    rewrite vset_ok by lia. cbn [bind].
    rewrite (tilt_chk_min e He). cbn [bind]. unfold ckd. cbn [dadd exact_ops].
    rewrite Hok.
    2:{ rewrite H4. assert (A1 := parts_abs pre S3). assert (A2 := part_abs e He).
        assert (A3 : (Z.of_nat (length pre) + 1) * (K * M) <= 2 * Z.of_nat m * (K * M)) by (apply Z.mul_le_mono_nonneg_r; lia). lia. }
    cbn [bind]. eexists. split; [reflexivity|]. cbn [fst snd f_flows f_edges with_edges].
    split; auto. split; [rewrite upd_length; auto|]. split.
    + intros e2 He2 Hn. rewrite nth_error_upd_neq.
      * apply H3; auto. intros X. apply Hn, in_or_app. auto.
      * intros ->. apply Hn, in_or_app. simpl. auto.
    + rewrite zsum_app, H4. cbn [zsum]. lia.
  - exists s'. cbn [snd] in H4. rewrite <- H4. exact E1.
Qed.

End Sum.
End Size.

(** ** The whole run *)
Section Run.
Variable one : Z.
#[local] Hint Extern 0 (DataOps Z) => exact (exact_ops one) : typeclass_instances.

(** the weight of the limits made by the constructor *)
Lemma oms_weight fuel (Hf : (31 < fuel)%nat) n mus K oms oms' : 3 * K <= INT_MAX -> Forall2 (om_rel mus) oms oms' ->
  (forall o, In o oms' -> lgood n (2 * K) (3 * K) o) -> 0 <= K ->
  forall wo : nat -> Z, (forall k o x, nth_error oms k = Some o -> o_l o <= x <= o_u o -> Z.abs (cost (o_fn o) x) <= wo k) ->
  zsum oms' (wt one fuel) <= zsum (seq 0 (length oms)) wo.
Proof.
  intros HK HF. induction HF as [|o o' oms oms' HR _ IH]; intros HG HK0 wo Hw; [reflexivity|].
  cbn [length seq zsum]. rewrite <- seq_shift, zsum_map.
  assert (A1 := IH (fun x Hx => HG x (or_intror Hx)) HK0 (fun k => wo (S k)) (fun k => Hw (S k))).
  enough (wt one fuel o' <= wo 0%nat) by lia.
  apply (wt_le one fuel Hf n (2 * K) (3 * K)); [lia|lia|apply HG; simpl; auto|].
  intros x Hx. rewrite (or_u _ _ _ HR) in Hx. destruct (or_fn _ _ _ HR x ltac:(lia)) as (v & Ev & (t & T1 & T2 & T3) & _).
  unfold cost at 1. rewrite Ev, <- T3. apply (Hw 0%nat o t eq_refl). lia.
Qed.

Lemma min_cost_chk_ok fuel n M K U limits okd A :
  network_wf n M K U limits -> flow_iterations n (length limits) K <= Z.of_nat fuel ->
  (forall o, In o limits -> bnd (wt one fuel o) o) -> zsum limits (wt one fuel) <= A ->
  (forall z, Z.abs z <= size_bound (length limits) M -> okd z = true) ->
  (forall z, Z.abs z <= 2 * A + 2 * Z.of_nat (length limits) * (K * M) -> okd z = true) ->
  exists s s' v, flow_new fuel n M U limits = Ok s /\ min_cost_chk okd fuel s = Ok (s', v).
Proof.
  intros HW Hfuel HB HA Hok1 Hok2. pose proof HW as (HM & HL & A1 & A2 & A3 & A4 & A5 & A6).
  assert (HLo : forall o, In o limits -> limit_ok n M K o) by (intros o Ho; apply limit_wf_ok; auto).
  pose proof Hfuel as Hfuel'. rewrite flow_iterations_eq in Hfuel'.
  assert (HD := Dn_pos n).
  assert (Hf : (31 < fuel)%nat).
  { unfold flow_fuel in Hfuel'. assert (X := phase_work_mono n (length limits) 1 (Dn n * K) (Dn n * K) ltac:(lia) ltac:(nia)). lia. }
  destruct (run_ok one n M K U limits HM A2 HLo A1 A3) with (fuel := fuel)
    as (s & E & Gl & s1 & x & E1 & HN & HE & Es & EE & Hfl & Hexc & Hx & _); auto.
  { rewrite Dn_eq. exact A4. }
  { rewrite Dn_eq. exact A6. }
  set (m := length limits) in *.
  assert (HR : forall e, (e < 2 * m)%nat -> int_range (o_l (edge E e)) (o_u (edge E e)) /\ - K <= o_l (edge E e) /\ o_u (edge E e) <= K).
  { intros e He. destruct (edge_cases e) as [j Hj].
    assert (Hjm : (j < m)%nat) by (destruct Hj; lia).
    assert (Lj : limit_ok n M K (edge E (2 * j))) by (rewrite HE by exact Hjm; apply HLo, nth_In; exact Hjm).
    destruct Lj as [[L1 _ _ _] _ _ L4 L5].
    destruct Hj as [->| ->].
    - split; [unfold int_range, INT_MIN, INT_MAX in *; lia|lia].
    - assert (Rv := fn_rev _ _ _ _ _ HN (2 * j)%nat ltac:(lia)). rewrite rev_even in Rv. destruct Rv as (_ & _ & R3 & R4 & _).
      rewrite R3, R4. split; [unfold int_range, INT_MIN, INT_MAX in *; lia|lia]. }
  assert (Es' : scaling_loop_chk okd fuel fuel s = Ok s1).
  { eapply (loop_checked one fuel n M K U limits HW Hfuel okd Hok1); [apply ps_first; exact E1|exact Es]. }
  set (w := fun e => wt one fuel (nth (Nat.div2 e) limits OmegaLimit0)).
  assert (Hd2 : forall j, Nat.div2 (2 * j) = j /\ Nat.div2 (2 * j + 1) = j).
  { intros j. split; [apply Nat.div2_double|]. rewrite Nat.add_1_r. apply Nat.div2_succ_double. }
  assert (Ew : zsum (seq 0 (2 * m)) w = 2 * zsum limits (wt one fuel)).
  { rewrite zsum_pairs, <- zsum_scale. rewrite <- (sumZ_zsum _ limits), (sumZ_nth _ limits OmegaLimit0). apply zsum_ext.
    intros k _. unfold w. destruct (Hd2 k) as [-> ->]. lia. }
  assert (Hw : forall e, (e < 2 * m)%nat -> bnd (w e) (edge E e)).
  { intros e He. destruct (edge_cases e) as [j Hj].
    assert (Hjm : (j < m)%nat) by (destruct Hj; lia).
    assert (Bj : bnd (wt one fuel (nth j limits OmegaLimit0)) (edge E (2 * j))) by (rewrite HE by exact Hjm; apply HB, nth_In; exact Hjm).
    destruct (Hd2 j) as [D1 D2]. unfold w. destruct Hj as [->| ->]; rewrite ?D1, ?D2; [exact Bj|].
    assert (Rv := fn_rev _ _ _ _ _ HN (2 * j)%nat ltac:(lia)). rewrite rev_even in Rv. eapply rev_bnd; eauto. }
  destruct (sum_answer_chk_ok one fuel Hf okd n m M K E Gl HN (fun e He => proj1 (HR e He)) ltac:(lia) (fun e He => proj2 (HR e He)) w Hw) with (x := x) (s := s1)
    as (s2 & Ea); auto.
  { intros z Hz. apply Hok2. lia. }
  exists s, s2. eexists. split; [exact E1|]. unfold min_cost_chk. rewrite Es'. cbn [bind]. rewrite Ea. cbn [bind].
  rewrite (parts_even one n m M E Gl HN fuel Hf (fun e He => proj1 (HR e He))). cbn [dhalf dadd deq exact_ops].
  rewrite Z.mul_comm, Z.quot_mul by lia.
  set (a := zsum _ _). replace (a + a =? a * 2) with true by (symmetry; apply Z.eqb_eq; lia). reflexivity.
Qed.

Theorem run_solver_chk_ok n mus oms K A fuel :
  0 < one -> well_formed n mus oms -> bounded_by n mus oms K -> 1 <= K ->
  28 * Z.of_nat (n + 1) * Z.of_nat (n + 1) * K <= INT_MAX ->
  costs_within n mus oms A ->
  solver_fuel n (length oms) K <= Z.of_nat fuel ->
  exists r, run_solver_chk (within (run_bound n (length oms) K one A)) fuel (Z.of_nat n) mus oms = Ok r.
Proof.
  intros H1 (Hlen & Hmu & Hom) (BM & BO) HK HI (wm & wo & Wm & Wo & WA) Hfuel.
  rewrite !sumZ_zsum in WA.
  assert (HK3 : 3 * K <= INT_MAX) by nia.
  assert (Hn : Z.of_nat n < INT_MAX) by (unfold INT_MAX in *; nia).
  assert (HD : 2 * Z.of_nat (n + 1) <= INT_MAX) by (unfold INT_MAX in *; nia).
  unfold solver_fuel in Hfuel.
  assert (HFF : 2 * Z.of_nat (n + 1) + 33 <= flow_fuel n (length oms + n) (2 * K)).
  { unfold flow_fuel, phase_work. rewrite Z.div_1_r. assert (HD2 := Dn_pos n). nia. }
  assert (Hf1 : (n + 1 < fuel)%nat) by lia. assert (Hf2 : (31 < fuel)%nat) by lia.
  set (okd := within _).
  unfold run_solver_chk, solver_new.
  rewrite Z.mod_small by (unfold SIZE_MAX, INT_MAX in *; lia).
  destruct (Z.eqb_spec (Z.of_nat (length mus)) (Z.of_nat n + 1)); [|lia]. cbn [negb].
  destruct (check_mus_ok n mus Hlen n 1 fuel ltac:(lia) ltac:(lia)) as (b & Eb & Hb). rewrite Eb. cbn [bind].
  assert (b = true). { apply Hb. intros k m Hk Hm. apply (Hmu k m); auto. }
  subst b. cbn [negb].
  destruct (check_omegas_ok one n mus K fuel ltac:(lia) HK3 Hf2 Hlen Hmu BM oms Hom BO) as (r & Er & Hr). rewrite Er. cbn [bind].
  destruct r as [oms'|]; [|exists None; reflexivity].
  destruct Hr as [HF2 HG']. cbn [bind]. unfold solve_chk. cbn [s_n].
  destruct (Z.eqb_spec (Z.of_nat n) SIZE_MAX); [unfold SIZE_MAX, INT_MAX in *; lia|].
  assert (HlenO : length oms' = length oms) by (clear - HF2; induction HF2; simpl; auto).
  assert (Wom := oms_weight fuel Hf2 n mus K oms oms' HK3 HF2 HG' ltac:(lia) wo Wo).
  assert (Gmu : forall i, (1 <= i <= n)%nat -> lgood n (2 * K) (3 * K) (mu_limit mus i)).
  { intros i Hi. apply mu_limit_good; auto; lia. }
  assert (Wmu : zsum (map (mu_limit mus) (seq 1 n)) (wt one fuel) <= zsum (seq 1 n) wm).
  { rewrite zsum_map. apply zsum_le. intros i Hi. apply in_seq in Hi.
    apply (wt_le one fuel Hf2 n (2 * K) (3 * K)); [lia|lia|apply Gmu; lia|].
    intros x Hx. unfold mu_limit in *. destruct (nth_error mus i) as [m|] eqn:Em; [|apply nth_error_None in Em; lia].
    cbn [o_l o_u o_fn] in *. apply (Wm i m x ltac:(lia) Em Hx). }
  assert (N1 := zsum_nonneg oms' (wt one fuel) (fun o _ => wt_nonneg one fuel o)).
  assert (N2 := zsum_nonneg (map (mu_limit mus) (seq 1 n)) (wt one fuel) (fun o _ => wt_nonneg one fuel o)).
  assert (HA0 : 0 <= A) by lia.
  set (UN := one + 2 * A) in *. assert (HUN : 0 < UN /\ A <= UN /\ 2 * A <= UN) by (unfold UN; lia).
  assert (HBd : forall z, Z.abs z <= 4 * (Z.of_nat (n + length oms) + 1) * (K + 20) * UN -> okd z = true).
  { intros z Hz. unfold okd, within, run_bound. apply Z.leb_le. exact Hz. }
  assert (HB1 : forall z, Z.abs z <= UN -> okd z = true).
  { intros z Hz. apply HBd. clear - Hz HUN HK. nia. }
  set (s := mkSolver (Z.of_nat n) mus oms').
  destruct (merge_limits_chk_ok one fuel Hf2 okd n (2 * K) (3 * K) ltac:(lia) ltac:(lia) A ltac:(intros; apply HB1; lia) s) as (r & EL & Hr);
    cbn [s s_n s_mus s_oms] in *; try rewrite !Nat2Z.id in *; auto; try lia.
  rewrite EL. cbn [bind]. destruct r as [LL|]; [|exists None; reflexivity].
  destruct Hr as (L & -> & HGL & HLL & HWL). set (LL := L ++ map (mu_limit mus) (seq 1 n)) in *.
  assert (HG : forall o, In o LL -> lgood n (2 * K) (3 * K) o).
  { intros o Ho. apply in_app_or in Ho. destruct Ho as [Ho|Ho]; [auto|].
    apply in_map_iff in Ho. destruct Ho as (i & <- & Hi). apply in_seq in Hi. apply Gmu; lia. }
  assert (HWLL : zsum LL (wt one fuel) <= A) by (unfold LL; rewrite zsum_app; lia).
  destruct (calc_chk_ok one fuel Hf2 okd n (2 * K) (3 * K) ltac:(lia) ltac:(lia) A ltac:(intros; apply HB1; lia) LL ltac:(lia) ltac:(lia) HWLL HG HB1) as (U & EC & HU & HUo).
  rewrite EC. cbn [bind].
  destruct (slopes_ok one fuel Hf2 n (2 * K) (3 * K) _ LL ltac:(lia) ltac:(lia) HG ltac:(lia) eq_refl) as [HM HLo].
  assert (HMU : one + zsum LL (fun o => hi o - lo one fuel o) <= UN).
  { assert (Hd : forall l, Z.abs (zsum l (fun o => hi o - lo one fuel o)) <= 2 * zsum l (wt one fuel)).
    { clear. intros l. induction l as [|o l IH]; cbn [zsum]; [lia|]. unfold wt at 1. lia. }
    specialize (Hd LL). unfold UN. lia. }
  set (M := one + zsum LL (fun o => hi o - lo one fuel o)) in *. clearbody M.
  assert (Hm : (length LL <= length oms + n)%nat).
  { unfold LL. rewrite app_length, map_length, seq_length. lia. }
  destruct (min_cost_chk_ok fuel n M (2 * K) U LL okd A) as (fs & fs' & v & E1 & E2); auto.
  { split; [exact HM|]. split; [intros o Ho; apply limit_wf_ok; auto|].
    split; [lia|]. split; [lia|]. split; [unfold INT_MAX in *; nia|]. split; [exact HD|]. split; [unfold INT_MAX in *; nia|].
    intros HU0. assert (X := bit_ceil_lt (Z.of_nat (n + 1) * U) ltac:(nia)).
    assert (Y : bit_ceil (Z.of_nat (n + 1) * U) <= 6 * Z.of_nat (n + 1) * K) by nia.
    set (B := bit_ceil (Z.of_nat (n + 1) * U)) in *. clearbody B. unfold INT_MAX in *. nia. }
  { rewrite flow_iterations_eq. eapply Z.le_trans; [|exact Hfuel]. apply flow_fuel_mono; lia. }
  { intros o Ho. apply (wt_bnd one fuel Hf2 n (2 * K) (3 * K)); auto; lia. }
  { intros z Hz. apply HBd. unfold size_bound in Hz. eapply Z.le_trans; [exact Hz|].
    assert (X : Z.of_nat (length LL) + 1 <= Z.of_nat (n + length oms) + 1) by lia.
    clear - X HMU HM HK HUN. set (a := Z.of_nat (length LL) + 1) in *. set (b := Z.of_nat (n + length oms) + 1) in *.
    assert (0 <= a) by (unfold a; lia). clearbody a b.
    assert (a * M <= b * UN) by (apply Z.mul_le_mono_nonneg; lia). assert (0 <= b * UN) by nia. nia. }
  { intros z Hz. apply HBd. eapply Z.le_trans; [exact Hz|].
    assert (X : Z.of_nat (length LL) <= Z.of_nat (n + length oms)) by lia.
    clear - X HMU HM HK HUN. set (a := Z.of_nat (length LL)) in *. set (b := Z.of_nat (n + length oms)) in *.
    assert (0 <= a) by (unfold a; lia). clearbody a b.
    assert (a * M <= b * UN) by (apply Z.mul_le_mono_nonneg; lia). assert (0 <= b * UN) by nia.
    assert (K * (a * M) <= K * (b * UN)) by (apply Z.mul_le_mono_nonneg_l; lia). 
    assert (0 <= K * (b * UN)) by nia. nia. }
  rewrite E1. cbn [bind]. rewrite E2. cbn [bind]. destruct (dlt _ v); eexists; reflexivity.
Qed.

(** the plain model computes the same *)
Lemma run_solver_chk_eq (okd : Z -> bool) fuel n (mus : list (MuLimit Z)) (oms : list (OmegaLimit Z)) r :
  run_solver_chk okd fuel n mus oms = Ok r -> run_solver fuel n mus oms = Ok r.
Proof.
  intros E.
  assert (HS : sim (optR eq) (run_solver_chk okd fuel n mus oms) (run_solver fuel n mus oms)).
  { apply run_solver_sim; intros; subst; auto.
    - split; [reflexivity|]. intros i m _ Em. exists m. split; [exact Em|]. destruct m as [l u f]. constructor. intros x _ a Ea. eauto.
    - clear. induction oms as [|[l u f i j] oms IH]; constructor; [|exact IH]. constructor. intros x _ a Ea. eauto. }
  destruct (HS r E) as (r' & E' & Hr). rewrite E'. f_equal. destruct r, r'; simpl in Hr; try contradiction; congruence.
Qed.

End Run.
