(** * Splaying is amortised: the potential pays for the turns *)
From Coq Require Import Permutation.
From Verif Require Import Base BaseLemmas Data LCT LCTTree LCTHeap LCTSplay LCTTime Sums LCTSizes.
Local Open Scope Z_scope.

Section Amort.
Variable one : Z.
#[local] Hint Extern 0 (DataOps Z) => exact (exact_ops one) : typeclass_instances.

Definition sib (f : frame) : tree := match f with FL _ _ _ _ r => r | FR l _ _ _ _ => l end.
(** the child of x that changes sides when x is rotated above f *)
Definition moved (f : frame) (l r : tree) : option nat := root (if is_FR f then l else r).

Record place (h : heap Z) (p : option nat) (f : frame) (k : list frame) (l : tree) (x : nat) (r : tree) : Prop := {
  pl_x : (x < length h)%nat;
  pl_f : (fx f < length h)%nat;
  pl_xf : x <> fx f;
  pl_fa : fa_of h x = Some (fx f);
  pl_ff : fa_of h (fx f) = kpar k p;
  pl_up : kpar k p <> Some x /\ kpar k p <> Some (fx f);
  pl_l : forall y, root l = Some y -> (y < length h)%nat /\ fa_of h y = Some x /\ y <> x /\ y <> fx f;
  pl_r : forall y, root r = Some y -> (y < length h)%nat /\ fa_of h y = Some x /\ y <> x /\ y <> fx f;
  pl_lr : root l = root r -> root l = None;
  pl_s : forall y, root (sib f) = Some y -> (y < length h)%nat /\ fa_of h y = Some (fx f) /\ y <> x /\ y <> fx f
}.

Lemma rep_root_fa h p t y : rep h p t -> root t = Some y -> (y < length h)%nat /\ fa_of h y = p.
Proof.
  destruct t as [|l x v a m r]; [discriminate|]. intros (H & _) E. inversion E; subst.
  split; [eapply nth_error_lt; eauto|]. rewrite (fa_of_nth _ _ _ H). reflexivity.
Qed.

Lemma place_of h p f k l x v a m r :
  rep h p (plug (f :: k) (Nd l x v a m r)) -> NoDup (idx (plug (f :: k) (Nd l x v a m r))) ->
  ext h p (idx (plug (f :: k) (Nd l x v a m r))) -> place h p f k l x r.
Proof.
  intros HR ND HE.
  assert (IN : forall i, In i (idxk (f :: k) ++ idx (Nd l x v a m r)) -> In i (idx (plug (f :: k) (Nd l x v a m r)))).
  { intros i Hi. eapply Permutation_in; [symmetry; apply idx_plug|exact Hi]. }
  apply nodup_plug in ND. apply rep_plug in HR. destruct HR as [HT HK].
  pose proof HT as (Hx & Hl & Hr). cbn [kpar] in *. cbn [repk] in HK. destruct HK as [H1 HK].
  assert (Hfi : In (fx f) (idxk (f :: k))) by (destruct f; simpl; auto).
  assert (Hxi : In x (idx (Nd l x v a m r))) by (simpl; apply in_or_app; simpl; auto).
  assert (Dis : forall i, In i (idxk (f :: k)) -> In i (idx (Nd l x v a m r)) -> False) by (intros i; apply (NoDup_app_disj _ _ i ND)).
  assert (NDt := NoDup_app_r _ _ ND). assert (NDk := NoDup_app_l _ _ ND).
  assert (Nx : ~ In x (idx l ++ idx r)) by (cbn [idx] in NDt; apply NoDup_remove_2 in NDt; exact NDt).
  assert (Nlr : NoDup (idx l ++ idx r)) by (cbn [idx] in NDt; apply NoDup_remove_1 in NDt; exact NDt).
  assert (Nf : exists nf, nth_error h (fx f) = Some nf /\ n_fa nf = kpar k p).
  { destruct f; destruct H1 as [H1 _]; eexists; (split; [exact H1|reflexivity]). }
  destruct Nf as (nf & Nf1 & Nf2).
  assert (Rs : rep h (Some (fx f)) (sib f)) by (destruct f; apply H1).
  constructor.
  - eapply nth_error_lt; eauto.
  - eapply nth_error_lt; eauto.
  - intros E. apply (Dis (fx f)); auto. rewrite <- E. exact Hxi.
  - rewrite (fa_of_nth _ _ _ Hx). reflexivity.
  - rewrite (fa_of_nth _ _ _ Nf1). exact Nf2.
  - destruct k as [|g k]; cbn [kpar].
    + destruct p as [q|]; [|split; discriminate]. destruct HE as [Hq _]. split; intros E; inversion E; subst; apply Hq, IN, in_or_app; auto.
    + split; intros E; inversion E as [E1].
      * apply (Dis x); auto. rewrite <- E1. cbn [idxk]. apply in_or_app; right. apply in_or_app; left. destruct g; simpl; auto.
      * cbn [idxk] in NDk. apply (NoDup_app_disj _ _ (fx f) NDk).
        -- destruct f; simpl; auto.
        -- rewrite <- E1. apply in_or_app; left. destruct g; simpl; auto.
  - intros y E. destruct (rep_root_fa _ _ _ _ Hl E). assert (Hy := root_in_idx _ _ E). split; [auto|]. split; [auto|]. split.
    + intros ->. apply Nx, in_or_app; auto.
    + intros ->. apply (Dis (fx f)); auto. simpl. apply in_or_app; auto.
  - intros y E. destruct (rep_root_fa _ _ _ _ Hr E). assert (Hy := root_in_idx _ _ E). split; [auto|]. split; [auto|]. split.
    + intros ->. apply Nx, in_or_app; auto.
    + intros ->. apply (Dis (fx f)); auto. simpl. apply in_or_app; simpl; auto.
  - destruct (root l) as [y|] eqn:El; [|auto]. intros Er. symmetry in Er. exfalso.
    apply (NoDup_app_disj _ _ y Nlr); apply root_in_idx; auto.
  - intros y E. destruct (rep_root_fa _ _ _ _ Rs E). assert (Hy := root_in_idx _ _ E). split; [auto|]. split; [auto|].
    assert (Hyk : In y (idxk (f :: k))) by (cbn [idxk]; apply in_or_app; left; destruct f; simpl; auto).
    split.
    + intros ->. apply (Dis x); auto.
    + intros ->. cbn [idxk] in NDk. apply NoDup_app_l in NDk. destruct f; simpl in *; inversion NDk; auto.
Qed.

(** a rotation, with the sizes *)
Lemma rot_sized N h p f k l x v a m r s x0 b0 h' :
  rep h p (plug (f :: k) (Nd l x v a m r)) -> NoDup (idx (plug (f :: k) (Nd l x v a m r))) ->
  ext h p (idx (plug (f :: k) (Nd l x v a m r))) -> length h = N -> rot h x = Ok h' ->
  sized N (fa_of h) s x0 b0 -> fx f <> x0 ->
  length h' = N /\ sized N (fa_of h') (rsz s x (fx f) (moved f l r)) x0 b0 /\
  pot N (rsz s x (fx f) (moved f l r)) = pot N s - Z.log2 (s x) + Z.log2 (s (fx f) - s x + osz s (moved f l r)) /\
  (forall i, i <> x -> i <> fx f -> moved f l r <> Some i -> fa_of h' i = fa_of h i).
Proof.
  intros HR ND HE HN HRot HS H0.
  assert (PL := place_of _ _ _ _ _ _ _ _ _ _ HR ND HE). assert (HD := dir_ok _ _ _ _ _ _ _ _ _ _ HR ND).
  destruct (rot_fa one _ _ _ HRot) as (nx & f' & d & Hn & Hf' & Hd & HL & HF).
  apply rep_plug in HR. destruct HR as [(Hx & _) _]. cbn [kpar] in Hx.
  assert (nx = mkNode (Some (fx f)) (root l) (root r) m v a) by congruence. subst nx. cbn [n_fa] in Hf'.
  inversion Hf'; subst f'. assert (d = is_FR f) by congruence. subst d.
  assert (EM : ch (mkNode (Some (fx f)) (root l) (root r) m v a) (negb (is_FR f)) = moved f l r).
  { unfold ch, moved. destruct (is_FR f); reflexivity. }
  rewrite EM in HF.
  assert (HM : forall y, moved f l r = Some y -> (y < N)%nat /\ fa_of h y = Some x /\ y <> x /\ y <> fx f).
  { intros y. unfold moved. rewrite <- HN. destruct (is_FR f); [apply (pl_l _ _ _ _ _ _ _ PL)|apply (pl_r _ _ _ _ _ _ _ PL)]. }
  destruct PL as [P1 P2 P3 P4 P5 P6 _ _ _ _]. rewrite HN in P1, P2. rewrite <- P5 in P6.
  split; [congruence|]. split; [|split].
  - apply (sized_rot N (fa_of h) s x0 b0 HS x (fx f) _ (fa_of h')); auto.
  - apply (pot_rot N (fa_of h) s x0 x (fx f) _ (fa_of h')); auto.
  - intros i H1 H2 H3. rewrite HF. destruct (Nat.eqb_spec i x); [congruence|]. destruct (Nat.eqb_spec i (fx f)); [congruence|].
    rewrite ptr_eqb_no by auto. reflexivity.
Qed.

Lemma rot_x_roots h p f k l x v m r h' l' r' :
  zst h p (f :: k) l x v m r -> rot h x = Ok h' -> zst h' p k l' x v m r' ->
  root l' = (if is_FR f then Some (fx f) else root l) /\ root r' = (if is_FR f then root r else Some (fx f)).
Proof.
  intros Z0 E Z1.
  destruct (rot_ok one _ _ _ _ _ _ _ _ _ _ (z_rep _ _ _ _ _ _ _ _ Z0) (z_nd _ _ _ _ _ _ _ _ Z0) (z_ext _ _ _ _ _ _ _ _ Z0)) as (h1 & E1 & R & _).
  assert (h1 = h') by congruence. subst h1.
  assert (R1 := z_rep _ _ _ _ _ _ _ _ Z1). apply rep_plug in R1. destruct R1 as [(N1 & _) _].
  apply rep_plug in R. destruct R as [R _].
  destruct f as [y vy ay my u|u y vy ay my]; cbn [rotated] in R; destruct R as (N2 & _); rewrite N1 in N2; inversion N2; subst; cbn [is_FR fx]; auto.
Qed.

(** the root pointers of the children count as much as before *)
Lemma osz_rsz s x f c o : (forall y, o = Some y -> y <> x /\ y <> f) -> osz (rsz s x f c) o = osz s o.
Proof. intros H. destruct o as [y|]; cbn [osz]; auto. destruct (H y eq_refl). apply rsz_other; auto. Qed.

Lemma rsz_at_x s x f c : rsz s x f c x = s f.
Proof. unfold rsz. apply fup_eq. Qed.

Lemma splay_loop_amort N x0 b0 fuel : forall k h p l x v m r s h' c,
  zst h p k l x v m r -> length h = N -> sized N (fa_of h) s x0 b0 -> ~ In x0 (idxk k) ->
  (k <> [] -> osz s (root l) + osz s (root r) <= s x) ->
  splay_loop_t fuel h x = Ok (h', c) ->
  exists d z s', (length k = 2 * d + z)%nat /\ (z <= 1)%nat /\ (c = d + z + 1)%nat /\ length h' = N /\
    sized N (fa_of h') s' x0 b0 /\
    Z.of_nat d + pot N s' <= pot N s + 3 * (Z.log2 (s' x) - Z.log2 (s x)) /\
    (forall i, ~ In i (idx (plug k (Nd l x v 0 m r))) -> s' i = s i) /\ (k = [] -> s' = s).
Proof.
  induction fuel as [|fuel IH]; intros k h p l x v m r s h' c HZ HN HS H0 HK HT; [discriminate|].
  cbn [splay_loop_t] in HT. apply turn_inv in HT. destruct HT as (i0 & HT & ->).
  apply cbind_inv in HT. destruct HT as (rt & i1 & i2 & E1 & HT & ->). apply free_inv in E1. destruct E1 as [E1 ->].
  rewrite (is_root_ok _ _ _ _ _ _ _ _ _ (z_rep _ _ _ _ _ _ _ _ HZ) (z_nd _ _ _ _ _ _ _ _ HZ) (z_ext _ _ _ _ _ _ _ _ HZ)) in E1.
  destruct k as [|f k]; inversion E1; subst rt; clear E1.
  { apply free_inv in HT. destruct HT as [HT ->]. inversion HT; subst h'. exists O, O, s.
    split; [reflexivity|]. split; [lia|]. split; [reflexivity|]. split; [exact HN|]. split; [exact HS|]. split; [lia|]. split; auto. }
  assert (HK' : osz s (root l) + osz s (root r) <= s x) by (apply HK; discriminate). clear HK.
  assert (PL := place_of _ _ _ _ _ _ _ _ _ _ (z_rep _ _ _ _ _ _ _ _ HZ) (z_nd _ _ _ _ _ _ _ _ HZ) (z_ext _ _ _ _ _ _ _ _ HZ)).
  assert (HR0 := z_rep _ _ _ _ _ _ _ _ HZ). apply rep_plug in HR0. destruct HR0 as [(Hx & _) _].
  apply cbind_inv in HT. destruct HT as (nx & i3 & i4 & E3 & HT & ->). apply free_inv in E3. destruct E3 as [E3 ->].
  rewrite (ld_ok _ _ _ Hx) in E3. inversion E3; subst nx. clear E3. cbn [n_fa kpar] in HT.
  apply cbind_inv in HT. destruct HT as (rf & i5 & i6 & E5 & HT & ->). apply free_inv in E5. destruct E5 as [E5 ->].
  assert (Hrf : is_root h (fx f) = Ok (match k with [] => true | _ => false end)).
  { assert (H1 := z_rep _ _ _ _ _ _ _ _ HZ). assert (H2 := z_nd _ _ _ _ _ _ _ _ HZ). assert (H3 := z_ext _ _ _ _ _ _ _ _ HZ).
    cbn [plug] in *.
    assert (exists l1 v1 a1 m1 r1, plug1 f (Nd l x v 0 m r) = Nd l1 (fx f) v1 a1 m1 r1) as (l1&v1&a1&m1&r1&E1)
      by (destruct f; simpl; eauto 8).
    rewrite E1 in *. eapply is_root_ok; eauto. }
  rewrite Hrf in E5. inversion E5; subst rf; clear E5 Hrf.
  assert (Hf0 : fx f <> x0) by (intros E; apply H0; rewrite <- E; destruct f; simpl; auto).
  assert (Xnn : 0 <= s x) by (apply (sz_nn _ _ _ _ _ HS); rewrite <- HN; apply (pl_x _ _ _ _ _ _ _ PL)).
  assert (Mle : osz s (moved f l r) <= s x /\ 0 <= osz s (moved f l r)).
  { assert (0 <= osz s (root l)).
    { destruct (root l) as [y|] eqn:E; cbn [osz]; [|lia]. apply (sz_nn _ _ _ _ _ HS). rewrite <- HN. apply (pl_l _ _ _ _ _ _ _ PL y E). }
    assert (0 <= osz s (root r)).
    { destruct (root r) as [y|] eqn:E; cbn [osz]; [|lia]. apply (sz_nn _ _ _ _ _ HS). rewrite <- HN. apply (pl_r _ _ _ _ _ _ _ PL y E). }
    unfold moved. destruct (is_FR f); lia. }
  assert (NL : forall y, root l = Some y -> y <> x /\ y <> fx f) by (intros y Ey; destruct (pl_l _ _ _ _ _ _ _ PL y Ey) as (_ & _ & A); exact A).
  assert (NR : forall y, root r = Some y -> y <> x /\ y <> fx f) by (intros y Ey; destruct (pl_r _ _ _ _ _ _ _ PL y Ey) as (_ & _ & A); exact A).
  assert (Xf := pl_xf _ _ _ _ _ _ _ PL).
  assert (YX : 1 + s x + osz s (root (sib f)) <= s (fx f)).
  { assert (Hfl : (fx f < N)%nat) by (rewrite <- HN; apply (pl_f _ _ _ _ _ _ _ PL)).
    rewrite (sz_eq _ _ _ _ _ HS _ Hfl). unfold weight. destruct (Nat.eqb_spec (fx f) x0); [congruence|].
    change (s x) with (osz s (Some x)).
    assert (H := kids_opt _ _ _ _ _ HS (Some x) (root (sib f)) (fx f)). rewrite <- HN in *.
    enough (osz s (Some x) + osz s (root (sib f)) <= kids (length h) (fa_of h) s (fx f)) by lia. apply H.
    - intros y Ey. inversion Ey; subst y. split; [apply (pl_x _ _ _ _ _ _ _ PL)|apply (pl_fa _ _ _ _ _ _ _ PL)].
    - intros y Ey. destruct (pl_s _ _ _ _ _ _ _ PL y Ey) as (A1 & A2 & _). auto.
    - intros Ey. symmetry in Ey. destruct (pl_s _ _ _ _ _ _ _ PL x Ey) as (_ & _ & A3 & _). congruence. }
  assert (Snn : 0 <= osz s (root (sib f))).
  { destruct (root (sib f)) as [y|] eqn:E; cbn [osz]; [|lia]. apply (sz_nn _ _ _ _ _ HS). rewrite <- HN. apply (pl_s _ _ _ _ _ _ _ PL y E). }
  (* rotating x above f *)
  assert (RX : forall h1, rot h x = Ok h1 ->
    let s1 := rsz s x (fx f) (moved f l r) in
    exists l1 r1, zst h1 p k l1 x v m r1 /\ length h1 = N /\ sized N (fa_of h1) s1 x0 b0 /\
      pot N s1 = pot N s - Z.log2 (s x) + Z.log2 (s (fx f) - s x + osz s (moved f l r)) /\
      root l1 = (if is_FR f then Some (fx f) else root l) /\ root r1 = (if is_FR f then root r else Some (fx f)) /\
      osz s1 (root l1) + osz s1 (root r1) <= s1 x /\
      Permutation (idx (plug (f :: k) (Nd l x v 0 m r))) (idx (plug k (Nd l1 x v 0 m r1)))).
  { intros h1 Eh s1. destruct (rot_x one _ _ _ _ _ _ _ _ _ HZ) as (h1' & l1 & r1 & Er & Z1 & _ & _ & P1).
    assert (h1' = h1) by congruence. subst h1'.
    destruct (rot_x_roots _ _ _ _ _ _ _ _ _ _ _ _ HZ Er Z1) as [Rl Rr].
    destruct (rot_sized N _ _ _ _ _ _ _ _ _ _ s x0 b0 h1 (z_rep _ _ _ _ _ _ _ _ HZ) (z_nd _ _ _ _ _ _ _ _ HZ) (z_ext _ _ _ _ _ _ _ _ HZ) HN Er HS Hf0)
      as (L1 & S1 & Q1 & _).
    exists l1, r1. split; [exact Z1|]. split; [exact L1|]. split; [exact S1|]. split; [exact Q1|]. split; [exact Rl|]. split; [exact Rr|].
    split; [|exact P1].
    assert (EX : s1 x = s (fx f)) by apply rsz_at_x.
    assert (EF : s1 (fx f) = s (fx f) - s x + osz s (moved f l r)) by (apply rsz_f; exact Xf).
    rewrite Rl, Rr, EX. unfold moved in EF. destruct (is_FR f); cbn [osz]; rewrite EF.
    - unfold s1. rewrite (osz_rsz s x (fx f) _ (root r) NR). lia.
    - unfold s1. rewrite (osz_rsz s x (fx f) _ (root l) NL). lia. }
  destruct k as [|g k].
  - (* one rotation and the end *)
    apply cbind_inv in HT. destruct HT as (h1' & i7 & i8 & E7 & HT & ->). apply free_inv in E7. destruct E7 as [E7 ->].
    inversion E7; subst h1'. clear E7.
    apply cbind_inv in HT. destruct HT as (h1 & i9 & i10 & E9 & HT & ->). apply free_inv in E9. destruct E9 as [E9 ->].
    destruct (RX h1 E9) as (l1 & r1 & Z1 & L1 & S1 & Q1 & _ & _ & _ & P1).
    set (s1 := rsz s x (fx f) (moved f l r)) in *.
    assert (C0 : ~ In x0 (idxk [])) by (simpl; auto).
    destruct (IH [] h1 p l1 x v m r1 s1 h' _ Z1 L1 S1 C0 ltac:(congruence) HT) as (d & z & s' & D1 & D2 & D3 & D4 & D5 & D6 & D7 & D8).
    rewrite (D8 eq_refl) in *. cbn [length] in D1. assert (d = O /\ z = O) as [-> ->] by lia.
    exists O, 1%nat, s1. split; [reflexivity|]. split; [lia|]. split; [lia|]. split; [exact D4|]. split; [exact D5|].
    assert (EX : s1 x = s (fx f)) by apply rsz_at_x.
    split; [|split; [|discriminate]].
    + rewrite Q1, EX.
      assert (Z.log2 (s (fx f) - s x + osz s (moved f l r)) <= Z.log2 (s (fx f))) by (apply Z.log2_le_mono; lia).
      assert (Z.log2 (s x) <= Z.log2 (s (fx f))) by (apply Z.log2_le_mono; lia). lia.
    + intros i Hi. apply rsz_other; intros ->; apply Hi; cbn [plug]; destruct f; simpl; rewrite ?in_app_iff; simpl; rewrite ?in_app_iff; simpl; auto.
  - assert (Hdx : dir h x = Ok (is_FR f)).
    { eapply dir_ok; [exact (z_rep _ _ _ _ _ _ _ _ HZ)|exact (z_nd _ _ _ _ _ _ _ _ HZ)]. }
    assert (HE1 : exists l1 v1 a1 m1 r1, plug1 f (Nd l x v 0 m r) = Nd l1 (fx f) v1 a1 m1 r1 /\
                    (is_FR f = false -> root r1 = root (sib f)) /\ (is_FR f = true -> root l1 = root (sib f))).
    { destruct f; simpl; do 5 eexists; (split; [reflexivity|split; auto; discriminate]). }
    destruct HE1 as (ly & vy & ay & my & ry & EY & SB1 & SB2).
    assert (Hdf : dir h (fx f) = Ok (is_FR g)).
    { assert (H1 := z_rep _ _ _ _ _ _ _ _ HZ). assert (H2 := z_nd _ _ _ _ _ _ _ _ HZ).
      change (plug (f :: g :: k) (Nd l x v 0 m r)) with (plug (g :: k) (plug1 f (Nd l x v 0 m r))) in *.
      rewrite EY in *. eapply dir_ok; eauto. }
    assert (PLf : place h p g k ly (fx f) ry).
    { assert (H1 := z_rep _ _ _ _ _ _ _ _ HZ). assert (H2 := z_nd _ _ _ _ _ _ _ _ HZ). assert (H3 := z_ext _ _ _ _ _ _ _ _ HZ).
      change (plug (f :: g :: k) (Nd l x v 0 m r)) with (plug (g :: k) (plug1 f (Nd l x v 0 m r))) in *.
      rewrite EY in *. eapply place_of; eauto. }
    assert (Hg0 : fx g <> x0).
    { intros E; apply H0; rewrite <- E. cbn [idxk]. apply in_or_app; right. apply in_or_app; left. destruct g; simpl; auto. }
    assert (H0k : ~ In x0 (idxk k)) by (intros E; apply H0; cbn [idxk]; apply in_or_app; right; apply in_or_app; right; exact E).
    assert (ZY : 1 + s (fx f) <= s (fx g)).
    { eapply sized_kid; [exact HS|rewrite <- HN; apply (pl_x _ _ _ _ _ _ _ PLf)|rewrite <- HN; apply (pl_f _ _ _ _ _ _ _ PLf)|exact Hg0|apply (pl_fa _ _ _ _ _ _ _ PLf)]. }
    assert (Xg : x <> fx g).
    { intros E. destruct (pl_up _ _ _ _ _ _ _ PL) as [U _]. cbn [kpar] in U. congruence. }
    assert (Fg := pl_xf _ _ _ _ _ _ _ PLf).
    assert (Mem : forall i, In i (idx (plug (f :: g :: k) (Nd l x v 0 m r))) <-> In i (idxk (f :: g :: k)) \/ In i (idx (Nd l x v 0 m r))).
    { intros i. rewrite <- in_app_iff. split; apply Permutation_in; [apply idx_plug|symmetry; apply idx_plug]. }
    apply cbind_inv in HT. destruct HT as (h1 & i7 & i8 & E7 & HT & ->). apply free_inv in E7. destruct E7 as [E7 ->].
    rewrite Hdx, Hdf in E7. cbn [bind] in E7.
    apply cbind_inv in HT. destruct HT as (h2 & i9 & i10 & E9 & HT & ->). apply free_inv in E9. destruct E9 as [E9 ->].
    destruct (Bool.eqb (is_FR f) (is_FR g)) eqn:Eb.
    + (* both rotations in the same direction *)
      apply eqb_prop in Eb.
      destruct (rot_f one _ _ _ _ _ _ _ _ _ _ HZ Eb) as (h1' & f1 & Er & Z1 & _ & _ & P1).
      assert (h1' = h1) by congruence. subst h1'.
      assert (RS : length h1 = N /\ sized N (fa_of h1) (rsz s (fx f) (fx g) (moved g ly ry)) x0 b0 /\
         pot N (rsz s (fx f) (fx g) (moved g ly ry)) = pot N s - Z.log2 (s (fx f)) + Z.log2 (s (fx g) - s (fx f) + osz s (moved g ly ry)) /\
         (forall i, i <> fx f -> i <> fx g -> moved g ly ry <> Some i -> fa_of h1 i = fa_of h i)).
      { assert (H1 := z_rep _ _ _ _ _ _ _ _ HZ). assert (H2 := z_nd _ _ _ _ _ _ _ _ HZ). assert (H3 := z_ext _ _ _ _ _ _ _ _ HZ).
        change (plug (f :: g :: k) (Nd l x v 0 m r)) with (plug (g :: k) (plug1 f (Nd l x v 0 m r))) in *.
        rewrite EY in *. eapply rot_sized; eauto. }
      assert (EM : moved g ly ry = root (sib f)).
      { unfold moved. rewrite <- Eb. destruct (is_FR f) eqn:Ef; [apply SB2; reflexivity|apply SB1; reflexivity]. }
      rewrite EM in RS. destruct RS as (L1 & S1 & Q1 & K1).
      set (s1 := rsz s (fx f) (fx g) (root (sib f))) in *.
      assert (A1 : s1 (fx f) = s (fx g)) by apply rsz_at_x.
      assert (A2 : s1 (fx g) = s (fx g) - s (fx f) + osz s (root (sib f))) by (apply rsz_f; exact Fg).
      assert (A3 : s1 x = s x) by (apply rsz_other; auto).
      assert (Ef1 : fx f1 = fx f).
      { assert (PL1 := place_of _ _ _ _ _ _ _ _ _ _ (z_rep _ _ _ _ _ _ _ _ Z1) (z_nd _ _ _ _ _ _ _ _ Z1) (z_ext _ _ _ _ _ _ _ _ Z1)).
        assert (B1 := pl_fa _ _ _ _ _ _ _ PL1). rewrite K1 in B1; auto.
        - rewrite (pl_fa _ _ _ _ _ _ _ PL) in B1. congruence.
        - intros E. destruct (pl_s _ _ _ _ _ _ _ PL x E) as (_ & _ & B & _). congruence. }
      assert (NG : forall o, (forall y, o = Some y -> (y < length h)%nat /\ fa_of h y = Some x /\ y <> x /\ y <> fx f) ->
                   forall y, o = Some y -> y <> fx f /\ y <> fx g).
      { intros o Ho y Ey. destruct (Ho y Ey) as (_ & B1 & _ & B3). split; [exact B3|]. intros ->.
        rewrite (pl_ff _ _ _ _ _ _ _ PLf) in B1. assert (U := pl_up _ _ _ _ _ _ _ PLf).
        destruct k as [|g2 k2]; cbn [kpar] in B1.
        - assert (HE := z_ext _ _ _ _ _ _ _ _ HZ). rewrite B1 in HE. destruct HE as [HE _]. apply HE. apply Mem. right. simpl. apply in_or_app; simpl; auto.
        - inversion B1 as [B2]. assert (ND := z_nd _ _ _ _ _ _ _ _ HZ). apply nodup_plug in ND.
          apply (NoDup_app_disj _ _ x ND); [|simpl; apply in_or_app; simpl; auto].
          cbn [idxk]. apply in_or_app; right. apply in_or_app; right. apply in_or_app; left. rewrite <- B2. destruct g2; simpl; auto. }
      assert (B1 : osz s1 (root l) = osz s (root l)) by (apply osz_rsz; apply NG; apply (pl_l _ _ _ _ _ _ _ PL)).
      assert (B2 : osz s1 (root r) = osz s (root r)) by (apply osz_rsz; apply NG; apply (pl_r _ _ _ _ _ _ _ PL)).
      destruct (rot_x one _ _ _ _ _ _ _ _ _ Z1) as (h2' & l2 & r2 & Er2 & Z2 & _ & _ & P2).
      assert (h2' = h2) by congruence. subst h2'.
      destruct (rot_x_roots _ _ _ _ _ _ _ _ _ _ _ _ Z1 Er2 Z2) as [Rl Rr].
      assert (Hf1 : fx f1 <> x0) by congruence.
      destruct (rot_sized N _ _ _ _ _ _ _ _ _ _ s1 x0 b0 h2 (z_rep _ _ _ _ _ _ _ _ Z1) (z_nd _ _ _ _ _ _ _ _ Z1) (z_ext _ _ _ _ _ _ _ _ Z1) L1 Er2 S1 Hf1)
        as (L2 & S2 & Q2 & _).
      rewrite Ef1 in *. set (s2 := rsz s1 x (fx f) (moved f1 l r)) in *.
      assert (C1 : s2 x = s (fx g)) by (unfold s2; rewrite rsz_at_x; exact A1).
      assert (C2 : s2 (fx f) = s1 (fx f) - s1 x + osz s1 (moved f1 l r)) by (apply rsz_f; exact Xf).
      assert (Lnn : 0 <= osz s (root l)).
      { destruct (root l) as [y|] eqn:E; cbn [osz]; [|lia]. apply (sz_nn _ _ _ _ _ HS). rewrite <- HN. apply (pl_l _ _ _ _ _ _ _ PL y E). }
      assert (Rnn : 0 <= osz s (root r)).
      { destruct (root r) as [y|] eqn:E; cbn [osz]; [|lia]. apply (sz_nn _ _ _ _ _ HS). rewrite <- HN. apply (pl_r _ _ _ _ _ _ _ PL y E). }
      assert (C3 : osz s1 (moved f1 l r) <= s x /\ 0 <= osz s1 (moved f1 l r)).
      { unfold moved. destruct (is_FR f1); rewrite ?B1, ?B2; lia. }
      assert (C4 : osz s2 (root l2) + osz s2 (root r2) <= s2 x).
      { rewrite Rl, Rr, C1. unfold moved in C2. destruct (is_FR f1); cbn [osz]; rewrite C2, A1, A3.
        - unfold s2. rewrite (osz_rsz s1 x (fx f) _ (root r) NR), B1, B2. lia.
        - unfold s2. rewrite (osz_rsz s1 x (fx f) _ (root l) NL), B1, B2. lia. }
      destruct (IH k h2 p l2 x v m r2 s2 h' _ Z2 L2 S2 H0k (fun _ => C4) HT) as (d & z & s' & D1 & D2 & D3 & D4 & D5 & D6 & D7 & D8).
      exists (S d), z, s'. split; [cbn [length]; lia|]. split; [exact D2|]. split; [lia|]. split; [exact D4|]. split; [exact D5|].
      split; [|split; [|discriminate]].
      * rewrite C1 in D6. rewrite Q2, Q1, A3, A1 in D6. rewrite A1, A3 in C2.
        assert (DS := double_step (s x) (s (fx f)) (s (fx g)) (s (fx g) - s (fx f) + osz s (root (sib f)))
                        (s (fx g) - s x + osz s1 (moved f1 l r))). lia.
      * intros i Hi. rewrite D7.
        -- assert (Hi2 : i <> x /\ i <> fx f /\ i <> fx g).
           { repeat split; intros ->; apply Hi, Mem.
             - right. simpl. apply in_or_app; simpl; auto.
             - left. cbn [idxk]. apply in_or_app; left. destruct f; simpl; auto.
             - left. cbn [idxk]. apply in_or_app; right. apply in_or_app; left. destruct g; simpl; auto. }
           destruct Hi2 as (I1 & I2 & I3). unfold s2. rewrite rsz_other by auto. apply rsz_other; auto.
        -- intros Hin. apply Hi. eapply Permutation_in; [symmetry; exact P1|]. eapply Permutation_in; [symmetry; exact P2|]. exact Hin.
    + (* rotations in opposite directions *)
      assert (En : is_FR g = negb (is_FR f)) by (destruct (is_FR f), (is_FR g); simpl in *; congruence).
      destruct (RX h1 E7) as (l1 & r1 & Z1 & L1 & S1 & Q1 & Rl1 & Rr1 & Sl1 & P1).
      set (s1 := rsz s x (fx f) (moved f l r)) in *.
      assert (A1 : s1 x = s (fx f)) by apply rsz_at_x.
      assert (A2 : s1 (fx f) = s (fx f) - s x + osz s (moved f l r)) by (apply rsz_f; exact Xf).
      assert (A3 : s1 (fx g) = s (fx g)) by (apply rsz_other; auto).
      destruct (rot_x one _ _ _ _ _ _ _ _ _ Z1) as (h2' & l2 & r2 & Er2 & Z2 & _ & _ & P2).
      assert (h2' = h2) by congruence. subst h2'.
      destruct (rot_x_roots _ _ _ _ _ _ _ _ _ _ _ _ Z1 Er2 Z2) as [Rl2 Rr2].
      destruct (rot_sized N _ _ _ _ _ _ _ _ _ _ s1 x0 b0 h2 (z_rep _ _ _ _ _ _ _ _ Z1) (z_nd _ _ _ _ _ _ _ _ Z1) (z_ext _ _ _ _ _ _ _ _ Z1) L1 Er2 S1 Hg0)
        as (L2 & S2 & Q2 & _).
      set (s2 := rsz s1 x (fx g) (moved g l1 r1)) in *.
      assert (PL1 := place_of _ _ _ _ _ _ _ _ _ _ (z_rep _ _ _ _ _ _ _ _ Z1) (z_nd _ _ _ _ _ _ _ _ Z1) (z_ext _ _ _ _ _ _ _ _ Z1)).
      assert (C1 : s2 x = s (fx g)) by (unfold s2; rewrite rsz_at_x; exact A3).
      assert (C2 : s2 (fx g) = s1 (fx g) - s1 x + osz s1 (moved g l1 r1)) by (apply rsz_f; exact Xg).
      assert (NL1 : forall y, root l1 = Some y -> y <> x /\ y <> fx g) by (intros y Ey; destruct (pl_l _ _ _ _ _ _ _ PL1 y Ey) as (_ & _ & A); exact A).
      assert (NR1 : forall y, root r1 = Some y -> y <> x /\ y <> fx g) by (intros y Ey; destruct (pl_r _ _ _ _ _ _ _ PL1 y Ey) as (_ & _ & A); exact A).
      assert (C3 : osz s1 (moved g l1 r1) + s1 (fx f) <= s1 x /\ 0 <= osz s1 (moved g l1 r1)).
      { split.
        - unfold moved. rewrite En. rewrite Rl1, Rr1 in Sl1. destruct (is_FR f); cbn [negb osz] in *; [rewrite Rr1|rewrite Rl1]; lia.
        - unfold moved. destruct (is_FR g).
          + destruct (root l1) as [y|] eqn:E; cbn [osz]; [|lia]. apply (sz_nn _ _ _ _ _ S1). rewrite <- L1. apply (pl_l _ _ _ _ _ _ _ PL1 y E).
          + destruct (root r1) as [y|] eqn:E; cbn [osz]; [|lia]. apply (sz_nn _ _ _ _ _ S1). rewrite <- L1. apply (pl_r _ _ _ _ _ _ _ PL1 y E). }
      assert (C4 : osz s2 (root l2) + osz s2 (root r2) <= s2 x).
      { rewrite Rl2, Rr2, C1. unfold moved in C2. destruct (is_FR g); cbn [osz]; rewrite C2, A3.
        - unfold s2. rewrite (osz_rsz s1 x (fx g) _ (root r1) NR1). lia.
        - unfold s2. rewrite (osz_rsz s1 x (fx g) _ (root l1) NL1). lia. }
      destruct (IH k h2 p l2 x v m r2 s2 h' _ Z2 L2 S2 H0k (fun _ => C4) HT) as (d & z & s' & D1 & D2 & D3 & D4 & D5 & D6 & D7 & D8).
      exists (S d), z, s'. split; [cbn [length]; lia|]. split; [exact D2|]. split; [lia|]. split; [exact D4|]. split; [exact D5|].
      split; [|split; [|discriminate]].
      * rewrite C1 in D6. rewrite Q2, Q1, A3, A1 in D6.
        assert (DS := double_step (s x) (s (fx f)) (s (fx g)) (s (fx f) - s x + osz s (moved f l r))
                        (s (fx g) - s (fx f) + osz s1 (moved g l1 r1))). lia.
      * intros i Hi. rewrite D7.
        -- assert (Hi2 : i <> x /\ i <> fx f /\ i <> fx g).
           { repeat split; intros ->; apply Hi, Mem.
             - right. simpl. apply in_or_app; simpl; auto.
             - left. cbn [idxk]. apply in_or_app; left. destruct f; simpl; auto.
             - left. cbn [idxk]. apply in_or_app; right. apply in_or_app; left. destruct g; simpl; auto. }
           destruct Hi2 as (I1 & I2 & I3). unfold s2. rewrite rsz_other by auto. apply rsz_other; auto.
        -- intros Hin. apply Hi. eapply Permutation_in; [symmetry; exact P1|]. eapply Permutation_in; [symmetry; exact P2|]. exact Hin.
Qed.
End Amort.
