(** * The amortised cost of the calls of the link-cut tree *)
From Coq Require Import Permutation.
From Verif Require Import Base BaseLemmas Data LCT LCTTree LCTHeap LCTSplay LCTSpec LCTChecked LCTBound LCTForest LCTOps LCTRun LCTTime FuelMono LCTCount Sums LCTSizes LCTAmort.
Local Open Scope Z_scope.

Section AmortOps.
Variable one : Z.
#[local] Hint Extern 0 (DataOps Z) => exact (exact_ops one) : typeclass_instances.
Variable N : nat.
Let L := Z.log2 (Z.of_nat N).

Lemma pdfr_turns fuel : forall k h p l x v a m r h' c,
  rep h p (plug k (Nd l x v a m r)) -> NoDup (idx (plug k (Nd l x v a m r))) -> ext h p (idx (plug k (Nd l x v a m r))) ->
  push_down_from_root_t fuel h x = Ok (h', c) -> c = S (length k).
Proof.
  induction fuel as [|fuel IH]; intros k h p l x v a m r h' c HR ND HE HT; [discriminate|].
  cbn [push_down_from_root_t] in HT. apply turn_inv in HT. destruct HT as (i0 & HT & ->).
  apply cbind_inv in HT. destruct HT as (rt & i1 & i2 & E1 & HT & ->). apply free_inv in E1. destruct E1 as [E1 ->].
  rewrite (is_root_ok _ _ _ _ _ _ _ _ _ HR ND HE) in E1. inversion E1; subst rt.
  apply cbind_inv in HT. destruct HT as (h1 & i3 & i4 & E3 & HT & ->). apply free_inv in HT. destruct HT as [_ ->].
  destruct k as [|f k]; [apply free_inv in E3; destruct E3 as [_ ->]; reflexivity|].
  assert (HR0 := HR). apply rep_plug in HR0. destruct HR0 as [(Hx & _) _].
  apply cbind_inv in E3. destruct E3 as (nx & i5 & i6 & E5 & E3 & ->). apply free_inv in E5. destruct E5 as [E5 ->].
  rewrite (ld_ok _ _ _ Hx) in E5. inversion E5; subst nx. cbn [n_fa kpar] in E3. cbn [plug] in HR, ND, HE.
  assert (E2 : exists l1 v1 a1 m1 r1, plug1 f (Nd l x v a m r) = Nd l1 (fx f) v1 a1 m1 r1) by (destruct f; simpl; eauto 8).
  destruct E2 as (l1 & v1 & a1 & m1 & r1 & E2). rewrite E2 in HR, ND, HE.
  rewrite (IH k _ _ _ _ _ _ _ _ _ _ HR ND HE E3). cbn [length]. lia.
Qed.

Lemma splay_amort x0 b0 fuel k h p l x v a m r s h' c :
  rep h p (plug k (Nd l x v a m r)) -> NoDup (idx (plug k (Nd l x v a m r))) -> ext h p (idx (plug k (Nd l x v a m r))) ->
  submins (plug k (Nd l x v a m r)) ->
  length h = N -> sized N (fa_of h) s x0 b0 -> ~ In x0 (idxk k) ->
  (k <> [] -> osz s (root l) + osz s (root r) <= s x) ->
  splay_t fuel h x = Ok (h', c) ->
  exists d z s', (length k = 2 * d + z)%nat /\ (z <= 1)%nat /\ (c = 3 * d + 2 * z + 2)%nat /\ length h' = N /\
    sized N (fa_of h') s' x0 b0 /\ Z.of_nat d + pot N s' <= pot N s + 3 * (Z.log2 (s' x) - Z.log2 (s x)).
Proof.
  intros HR ND HE HM HN HS H0 HK HT.
  unfold splay_t in HT. apply cbind_inv in HT. destruct HT as (h1 & i1 & j1 & F1 & HT & ->).
  apply cbind_inv in HT. destruct HT as (h2 & i2 & j2 & F2 & HT & ->). apply free_inv in HT. destruct HT as [F3 ->].
  assert (C1 := pdfr_turns _ _ _ _ _ _ _ _ _ _ _ _ HR ND HE F1).
  assert (E1 : push_down_from_root fuel h x = Ok h1) by (rewrite <- push_down_from_root_erase, F1; reflexivity).
  destruct (pdfr_fa one _ _ _ _ E1) as [L1 A1].
  assert (Lk : (length k < fuel)%nat).
  { clear -F1 C1. revert C1. generalize h1 i1 x F1. clear. revert k h.
    induction fuel as [|fuel IH]; intros k h h1 i1 x F1 ->; [discriminate|]. cbn [push_down_from_root_t] in F1.
    apply turn_inv in F1. destruct F1 as (i0 & HT & E). inversion E; subst i0. clear E.
    apply cbind_inv in HT. destruct HT as (rt & i1 & i2 & E1 & HT & E). apply free_inv in E1. destruct E1 as [E1 ->].
    apply cbind_inv in HT. destruct HT as (h2 & i3 & i4 & E3 & HT & ->). apply free_inv in HT. destruct HT as [_ ->].
    destruct rt; [apply free_inv in E3; lia|].
    apply cbind_inv in E3. destruct E3 as (nx & i5 & i6 & E5 & E3 & ->). apply free_inv in E5. destruct E5 as [E5 ->].
    destruct (n_fa nx); [|discriminate]. destruct k as [|f k].
    - assert (length (@nil frame) = i6) by (simpl in *; lia). subst i6. destruct fuel; [discriminate|]. simpl. lia.
    - assert (i6 = S (length k)) by (simpl in *; lia). simpl. assert (Q := IH k _ _ _ _ E3 H). lia. }
  destruct (submins_plug _ _ _ _ _ _ _ HM) as (Hl & Hr & HK0).
  destruct (pdfr_ok one fuel k h p l x v a m r Lk HR ND HE) as (h1' & E1' & R1 & S1).
  assert (h1' = h1) by congruence. subst h1'.
  assert (P1 : Permutation (idx (plug k (Nd l x v a m r)))
      (idx (plug (fst (pdk k)) (pd (addt (snd (pdk k)) (Nd l x v a m r)))))).
  { apply perm_plug. rewrite idxk_pdk, idx_pd, idx_addt. reflexivity. }
  assert (LK : length (fst (pdk k)) = length k) by apply length_pdk.
  assert (HI : idxk (fst (pdk k)) = idxk k) by apply idxk_pdk.
  assert (HK' := pdk_ok k HK0).
  destruct (pdk k) as [k' w]. cbn [fst snd addt pd] in *.
  set (l1 := addt (a + w) l) in *. set (r1 := addt (a + w) r) in *.
  set (m1 := (fst m + w, snd m)) in *.
  assert (Z1 : zst h1 p k' l1 x (v + w) m1 r1).
  { constructor; auto.
    - eapply Permutation_NoDup; eauto.
    - eapply ext_perm; [exact P1|]. eapply ext_same; eauto.
    - apply allmins_addt; auto.
    - apply allmins_addt; auto. }
  assert (S1' : sized N (fa_of h1) s x0 b0) by (eapply sized_ext; [exact HS|intros; apply A1|auto]).
  assert (RL : root l1 = root l /\ root r1 = root r) by (unfold l1, r1; destruct l, r; split; reflexivity).
  destruct RL as [RL RR].
  destruct (splay_loop_amort one N x0 b0 fuel k' h1 p l1 x (v + w) m1 r1 s h2 i2 Z1) as (d & z & s' & D1 & D2 & D3 & D4 & D5 & D6 & _).
  { congruence. }
  { exact S1'. }
  { rewrite HI. exact H0. }
  { rewrite RL, RR. intros Hn. apply HK. intros ->. destruct k'; [congruence|discriminate]. }
  { exact F2. }
  destruct (push_up_fa one _ _ _ F3) as [L3 A3].
  exists d, z, s'. split; [lia|]. split; [exact D2|]. split; [lia|]. split; [congruence|]. split; [|exact D6].
  eapply sized_ext; [exact D5|intros; apply A3|auto].
Qed.

(** the two children in the auxiliary tree are kids *)
Lemma kids_of_children x0 b0 h p k l x v a m r s :
  rep h p (plug k (Nd l x v a m r)) -> NoDup (idx (plug k (Nd l x v a m r))) -> length h = N ->
  sized N (fa_of h) s x0 b0 -> (x < N)%nat /\ osz s (root l) + osz s (root r) <= kids N (fa_of h) s x.
Proof.
  intros HR ND HN HS. apply rep_plug in HR. destruct HR as [(Hx & Hl & Hr) _].
  apply nodup_plug, NoDup_app_r in ND. cbn [idx] in ND. apply NoDup_remove_1 in ND.
  split; [rewrite <- HN; eapply nth_error_lt; eauto|].
  apply (kids_opt _ _ _ _ _ HS (root l) (root r) x).
  - intros y E. rewrite <- HN. exact (rep_root_fa _ _ _ _ Hl E).
  - intros y E. rewrite <- HN. exact (rep_root_fa _ _ _ _ Hr E).
  - destruct (root l) as [y|] eqn:El; [|auto]. intros Er. symmetry in Er. exfalso.
    apply (NoDup_app_disj _ _ y ND); apply root_in_idx; auto.
Qed.

Lemma slack_of x0 b0 h p k l x v a m r s :
  rep h p (plug k (Nd l x v a m r)) -> NoDup (idx (plug k (Nd l x v a m r))) -> length h = N ->
  sized N (fa_of h) s x0 b0 -> x <> x0 \/ b0 = 1 -> osz s (root l) + osz s (root r) <= s x.
Proof.
  intros HR ND HN HS HX. destruct (kids_of_children _ _ _ _ _ _ _ _ _ _ _ _ HR ND HN HS) as [Hx H].
  rewrite (sz_eq _ _ _ _ _ HS x Hx). unfold weight. destruct (Nat.eqb_spec x x0); lia.
Qed.

Lemma access_loop_amort par val x0 b0 fuel0 : forall fuel h p tq ts q s h' c,
  trees_ok h par val ((p, tq) :: ts) -> wf N par -> length h = N -> (N < fuel0)%nat -> allmins tq ->
  root tq = Some q -> In x0 (idx tq) -> sized N (fa_of h) s x0 b0 ->
  access_loop_t fuel0 fuel h p (root tq) = Ok (h', c) ->
  exists K d s' ts', trees_ok h' par val ((None, plug K tq) :: ts') /\ length h' = N /\
    sized N (fa_of h') s' x0 b0 /\ (c <= 3 * d + 5 * length K)%nat /\
    Z.of_nat d + pot N s' <= pot N s + 3 * (L - Z.log2 (s q)).
Proof.
  induction fuel as [|fuel IH]; intros h p tq ts q s h' c HT HW HN Hf0 HA Hq H0 HS HL.
  all: destruct p as [g|]; cbn [access_loop_t] in HL; try discriminate.
  1,3: apply free_inv in HL; destruct HL as [HL ->]; inversion HL; subst h'; exists [], O, s, ts;
    (split; [exact HT|]); (split; [exact HN|]); (split; [exact HS|]); (split; [simpl; lia|]);
    pose proof (t_ok _ _ _ _ HT) as F0; inversion F0 as [|a0 c0 Hg0 F0']; subst a0 c0; destruct Hg0 as (HR0 & _); cbn [fst snd] in HR0;
    destruct (rep_root_fa _ _ _ _ HR0 Hq) as [Hql Hqf]; rewrite HN in Hql;
    assert (Hle := root_le _ _ _ _ _ HS q Hql Hqf); assert (Hlog := Z.log2_le_mono _ _ Hle); unfold L; lia.
  assert (HW' : wf (length h) par) by (rewrite HN; exact HW).
  assert (HE := ext_of _ _ _ _ _ _ _ HT HW' H0). cbn [ext] in HE. destruct HE as [Hgq (ng & Hng & _)].
  assert (Hg : In g (aidx ts)).
  { assert (Hl : (g < length h)%nat) by (eapply nth_error_lt; eauto). apply (t_all _ _ _ _ HT) in Hl. rewrite aidx_cons in Hl.
    apply in_app_or in Hl. tauto. }
  apply in_flat_map in Hg. destruct Hg as ([pg tg] & Hi & Hgt). apply in_split in Hi. destruct Hi as (ta & tb & ->). cbn [snd] in Hgt.
  assert (HT1 : trees_ok h par val ((pg, tg) :: (Some g, tq) :: ta ++ tb)).
  { eapply trees_perm; [|exact HT]. rewrite perm_swap. apply perm_skip. symmetry. apply Permutation_middle. }
  assert (Ltg : (length (idx tg) <= length h)%nat) by (eapply trees_len; [exact HT1|left; reflexivity]).
  destruct (access_step one fuel0 h par val g tq pg tg _ HT1 HW' Hgt) as
    (h1 & h2 & h3 & nx & tg3 & r3 & E1 & E2 & E3 & E4 & E5 & E6 & L3 & T3 & A3 & S1 & l3 & v3 & m3 & Etg & _); [lia|exact HA|].
  apply turn_inv in HL. destruct HL as (i & HL & ->).
  apply cbind_inv in HL. destruct HL as (h1' & i1 & j1 & F1 & HL & ->).
  assert (h1' = h1) by (assert (E : splay fuel0 h g = Ok h1') by (rewrite <- splay_erase, F1; reflexivity); congruence). subst h1'.
  apply cbind_inv in HL. destruct HL as (h2' & i2 & j2 & F2 & HL & ->). apply free_inv in F2. destruct F2 as [F2 ->].
  assert (h2' = h2) by congruence. subst h2'.
  apply cbind_inv in HL. destruct HL as (h3' & i3 & j3 & F3 & HL & ->). apply free_inv in F3. destruct F3 as [F3 ->].
  assert (h3' = h3) by congruence. subst h3'.
  apply cbind_inv in HL. destruct HL as (nx' & i4 & j4 & F4 & HL & ->). apply free_inv in F4. destruct F4 as [F4 ->].
  assert (nx' = nx) by congruence. subst nx'. rewrite E5, <- E6 in HL.
  pose proof (t_ok _ _ _ _ HT1) as F0. inversion F0 as [|a0 c0 Hg0 F0']; subst a0 c0. destruct Hg0 as (HR0 & HM0 & HC0). cbn [fst snd] in *.
  inversion F0' as [|a1 c1 Hq1 F0'']; subst a1 c1. destruct Hq1 as (HRq & _). cbn [fst snd] in HRq.
  assert (NDg := trees_tail_nodup _ _ _ _ _ _ HT1). assert (HEg := ext_of _ _ _ _ _ _ _ HT1 HW' Hgt).
  assert (Dgq : forall y, In y (idx tg) -> In y (idx tq) -> False).
  { pose proof (t_nd _ _ _ _ HT1) as ND1. rewrite !aidx_cons in ND1. intros y Hy Hy2.
    apply (NoDup_app_disj _ _ y ND1 Hy). apply in_or_app; auto. }
  destruct (rep_root_fa _ _ _ _ HRq Hq) as [Hql Hqf].
  assert (Hg0 : g <> x0) by (intros ->; apply (Dgq x0); auto).
  destruct (focus tg g Hgt) as (k & l & v & a & m & r & ->).
  destruct (splay_amort x0 b0 fuel0 k h pg l g v a m r s h1 i1 HR0 NDg HEg HM0 HN HS) as (d & z & s1 & D1 & D2 & D3 & D4 & D5 & D6).
  { intros Hin. apply (Dgq x0); auto. eapply Permutation_in; [symmetry; apply idx_plug|]. apply in_or_app; auto. }
  { intros _. eapply slack_of; eauto. }
  { exact F1. }
  assert (Hqg : 1 + s q <= s g).
  { eapply sized_kid; [exact HS|congruence| |exact Hg0|exact Hqf]. rewrite <- HN. eapply nth_error_lt; eauto. }
  destruct (setc_fa _ _ _ _ _ E2) as [L2 A2]. destruct (push_up_fa one _ _ _ E3) as [_ A3'].
  assert (FA : forall y, fa_of h3 y = fa_of h1 y).
  { intros y. rewrite A3', A2. rewrite Hq. cbn [ptr_eqb]. destruct (Nat.eqb_spec q y) as [->|]; [|reflexivity].
    assert (Hy : nth_error h1 y = nth_error h y).
    { apply S1. intros Hin. apply (Dgq y Hin). apply root_in_idx; exact Hq. }
    unfold fa_of in Hqf |- *. rewrite Hy. rewrite <- Hqf. reflexivity. }
  subst tg3.
  assert (S3 : sized N (fa_of h3) s1 x0 b0) by (eapply sized_ext; [exact D5|intros; apply FA|auto]).
  assert (L3' : length h3 = N) by congruence.
  assert (I0 : In x0 (idx (Nd l3 g v3 0 m3 tq))) by (simpl; apply in_or_app; simpl; auto).
  destruct (IH h3 pg (Nd l3 g v3 0 m3 tq) _ g s1 h' j4 T3 HW L3' Hf0 A3 eq_refl I0 S3 HL) as (K & d2 & s' & ts' & G1 & G2 & G3 & G4 & G5).
  exists (FR l3 g v3 0 m3 :: K), (d + d2)%nat, s', ts'. split; [exact G1|]. split; [exact G2|]. split; [exact G3|].
  split; [cbn [length]; lia|].
  assert (M1 : Z.log2 (s q) <= Z.log2 (s g)) by (apply Z.log2_le_mono; lia). lia.
Qed.

Lemma access_amort par val b0 fuel h x p k l v a m r ts s h' c :
  trees_ok h par val ((p, plug k (Nd l x v a m r)) :: ts) -> wf N par -> length h = N -> (N < fuel)%nat ->
  sized N (fa_of h) s x b0 -> (b0 = 1 \/ k = [] /\ l = Lf) -> access_t fuel h x = Ok (h', c) ->
  exists l' v' m' ts' s', trees_ok h' par val ((None, Nd l' x v' 0 m' Lf) :: ts') /\ length h' = N /\
    sized N (fa_of h') s' x b0 /\ Z.of_nat c + 13 * pot N s' <= 13 * pot N s + 78 * L + 14.
Proof.
  intros HT HW HN Hf HS HB HA.
  assert (HW' : wf (length h) par) by (rewrite HN; exact HW).
  assert (Hxi : In x (idx (plug k (Nd l x v a m r)))).
  { eapply Permutation_in; [symmetry; apply idx_plug|]. apply in_or_app; right. simpl. apply in_or_app; simpl; auto. }
  pose proof (t_ok _ _ _ _ HT) as F0. inversion F0 as [|a0 c0 Hg0 F0']; subst a0 c0. destruct Hg0 as (HR0 & HM0 & HC0). cbn [fst snd] in *.
  assert (Hx : (x < length h)%nat) by (eapply rep_lt; eauto).
  assert (HRep : Rep h par val) by (split; [eauto|exact HW']).
  assert (NDg := trees_tail_nodup _ _ _ _ _ _ HT). assert (HEg := ext_of _ _ _ _ _ _ _ HT HW' Hxi).
  destruct (access_count one fuel h par val x h' c HRep Hx ltac:(lia) HA) as (_ & l' & v' & m' & ts' & T' & _ & L').
  unfold access_t in HA. apply cbind_inv in HA. destruct HA as (hm & ci & cj & HA & HF & ->).
  destruct fuel as [|fuel0] eqn:Ef; [lia|]. rewrite <- Ef in *. rewrite Ef in HA at 2. cbn [access_loop_t] in HA.
  assert (HT1 : trees_ok h par val ((p, plug k (Nd l x v a m r)) :: (Some x, Lf) :: ts)).
  { apply (trees_perm _ _ _ ((Some x, Lf) :: (p, plug k (Nd l x v a m r)) :: ts)); [apply perm_swap|].
    destruct HT as [H1 H2 H3]. constructor; auto. constructor; auto. split; [|split]; simpl; auto. }
  assert (Ltg := trees_len _ _ _ _ _ _ HT (or_introl eq_refl)).
  destruct (access_step one fuel h par val x Lf p _ _ HT1 HW' Hxi) as
    (h1 & h2 & h3 & nx & tg3 & r3 & E1 & E2 & E3 & E4 & E5 & E6 & L3 & T3 & A3 & S1 & l3 & v3 & m3 & Etg & EI); [lia|exact I|].
  cbn [root] in E2.
  apply turn_inv in HA. destruct HA as (i & HL & ->).
  apply cbind_inv in HL. destruct HL as (h1' & i1 & j1 & F1 & HL & ->).
  assert (h1' = h1) by (assert (E : splay fuel h x = Ok h1') by (rewrite <- splay_erase, F1; reflexivity); congruence). subst h1'.
  apply cbind_inv in HL. destruct HL as (h2' & i2 & j2 & F2 & HL & ->). apply free_inv in F2. destruct F2 as [F2 ->].
  assert (h2' = h2) by congruence. subst h2'.
  apply cbind_inv in HL. destruct HL as (h3' & i3 & j3 & F3 & HL & ->). apply free_inv in F3. destruct F3 as [F3 ->].
  assert (h3' = h3) by congruence. subst h3'.
  apply cbind_inv in HL. destruct HL as (nx' & i4 & j4 & F4 & HL & ->). apply free_inv in F4. destruct F4 as [F4 ->].
  assert (nx' = nx) by congruence. subst nx'. rewrite E5, <- E6 in HL.
  destruct (splay_amort x b0 fuel k h p l x v a m r s h1 i1 HR0 NDg HEg HM0 HN HS) as (d & z & s1 & D1 & D2 & D3 & D4 & D5 & D6).
  { intros Hin. apply nodup_plug in NDg. apply (NoDup_app_disj _ _ x NDg Hin). simpl. apply in_or_app; simpl; auto. }
  { intros Hk. destruct HB as [HB|[HB _]]; [|congruence]. eapply slack_of; eauto. }
  { exact F1. }
  destruct (setc_fa _ _ _ _ _ E2) as [L2 A2]. destruct (push_up_fa one _ _ _ E3) as [_ A3'].
  assert (S3 : sized N (fa_of h3) s1 x b0).
  { eapply sized_ext; [exact D5| |auto]. intros y _. rewrite A3', A2. reflexivity. }
  subst tg3. assert (L3' : length h3 = N) by congruence.
  assert (I0 : In x (idx (Nd l3 x v3 0 m3 Lf))) by (simpl; apply in_or_app; simpl; auto).
  assert (HB3 : b0 = 1 \/ l3 = Lf).
  { destruct HB as [HB|[-> ->]]; auto. right. cbn [plug idx app] in EI. destruct l3 as [|la y va aa ma ra]; auto. exfalso.
    assert (ND3 : NoDup (idx (Nd la y va aa ma ra) ++ x :: idx r3)) by (rewrite EI; exact NDg).
    assert (HH : exists y0 I0, idx (Nd la y va aa ma ra) = y0 :: I0).
    { cbn [idx]. destruct (idx la); simpl; eauto. }
    destruct HH as (y0 & I1 & EY). rewrite EY in EI, ND3. cbn [app] in EI, ND3. inversion EI; subst y0.
    inversion ND3 as [|z1 z2 Hn _]; subst. apply Hn, in_or_app; simpl; auto. }
  destruct (access_loop_amort par val x b0 fuel fuel0 h3 p (Nd l3 x v3 0 m3 Lf) _ x s1 hm j4 T3 HW L3' Hf A3 eq_refl I0 S3 HL)
    as (K & d2 & s2 & ts2 & G1 & G2 & G3 & G4 & G5).
  pose proof (t_ok _ _ _ _ G1) as FF. inversion FF as [|a0 c0 Hg0 FF']; subst a0 c0. destruct Hg0 as (HR2 & HM2 & HC2). cbn [fst snd] in *.
  assert (NDK := trees_tail_nodup _ _ _ _ _ _ G1).
  assert (Hxi2 : In x (idx (plug K (Nd l3 x v3 0 m3 Lf)))).
  { eapply Permutation_in; [symmetry; apply idx_plug|]. apply in_or_app; right. exact I0. }
  assert (HWm : wf (length hm) par) by (rewrite G2; exact HW).
  assert (HEK := ext_of _ _ _ _ _ _ _ G1 HWm Hxi2).
  destruct (splay_amort x b0 fuel K hm None l3 x v3 0 m3 Lf s2 h' cj HR2 NDK HEK HM2 G2 G3) as (df & zf & s' & B1 & B2 & B3 & B4 & B5 & B6).
  { intros Hin. apply nodup_plug in NDK. apply (NoDup_app_disj _ _ x NDK Hin). exact I0. }
  { intros _. destruct HB3 as [HB3|HB3]; [eapply slack_of; eauto|]. subst l3. cbn [root osz].
    assert (Q := sz_nn _ _ _ _ _ G3 x). lia. }
  { exact HF. }
  exists l', v', m', ts', s'. split; [exact T'|]. split; [congruence|]. split; [exact B5|].
  assert (FX : fa_of h' x = None).
  { pose proof (t_ok _ _ _ _ T') as FT. inversion FT as [|a0 c0 Hg0 FT']; subst a0 c0. destruct Hg0 as ((Hn & _) & _). cbn [fst snd] in Hn.
    rewrite (fa_of_nth _ _ _ Hn). reflexivity. }
  assert (XN : s' x <= Z.of_nat N) by (apply (root_le _ _ _ _ _ B5); [lia|exact FX]).
  assert (XL : Z.log2 (s' x) <= L) by (apply Z.log2_le_mono; exact XN).
  assert (P1 := Z.log2_nonneg (s x)). assert (P2 := Z.log2_nonneg (s1 x)). assert (P3 := Z.log2_nonneg (s2 x)). lia.
Qed.

(** Afterwards the node is a root, and it can get its full weight back. *)
Lemma sized_any F s x0 x1 : sized N F s x0 1 -> sized N F s x1 1.
Proof.
  intros HS. constructor; try apply HS. intros v Hv. rewrite (sz_eq _ _ _ _ _ HS v Hv). unfold weight.
  destruct (Nat.eqb v x0), (Nat.eqb v x1); lia.
Qed.

Lemma kids_fup F s x w v : F x <> Some v -> kids N F (fup s x w) v = kids N F s v.
Proof.
  intros H. apply zsum_ext. intros y _. destruct (Nat.eq_dec y x) as [->|Hn].
  - rewrite (ptr_eqb_no _ _ H). reflexivity.
  - rewrite fup_neq by auto. reflexivity.
Qed.

Lemma pot_fup s x w : (x < N)%nat -> pot N (fup s x w) = pot N s - Z.log2 (s x) + Z.log2 w.
Proof.
  intros Hx. unfold pot. rewrite (zsum_point (seq 0 N) x (fun y => Z.log2 (s y)) (fun y => Z.log2 (fup s x w y))).
  - cbv beta. rewrite fup_eq. lia.
  - apply seq_NoDup.
  - apply in_seq0; auto.
  - intros k _ Hk. cbv beta. rewrite fup_neq by auto. reflexivity.
Qed.

Lemma sized_full F s x b0 : sized N F s x b0 -> (x < N)%nat -> F x = None ->
  exists s', sized N F s' x 1 /\ pot N s' <= pot N s + L.
Proof.
  intros HS Hx HF. assert (Hb := sz_b _ _ _ _ _ HS). assert (Hn := sz_nn _ _ _ _ _ HS x Hx).
  set (s' := fup s x (s x - b0 + 1)).
  assert (HS' : sized N F s' x 1).
  { constructor.
    - intros v Hv. unfold s'. rewrite kids_fup by (rewrite HF; discriminate). unfold weight.
      assert (E := sz_eq _ _ _ _ _ HS v Hv). unfold weight in E. destruct (Nat.eqb_spec v x) as [->|Hvx].
      + rewrite fup_eq. lia.
      + rewrite fup_neq by auto. lia.
    - intros v Hv. unfold s'. destruct (Nat.eq_dec v x) as [->|Hvx]; [rewrite fup_eq; lia|]. rewrite fup_neq by auto. apply (sz_nn _ _ _ _ _ HS); auto.
    - lia.
    - apply (sz_in _ _ _ _ _ HS). }
  exists s'. split; [exact HS'|]. unfold s' at 1. rewrite pot_fup by auto.
  assert (XN := root_le _ _ _ _ _ HS' x Hx HF). unfold s' in XN. rewrite fup_eq in XN.
  assert (XL := Z.log2_le_mono _ _ XN). fold L in XL. assert (P := Z.log2_nonneg (s x)). lia.
Qed.

(** The states between the calls: either every node weighs 1, or [set_fa] has
    just been called on [x], which still weighs less. *)
Definition normal (h : heap Z) par val s : Prop := Rep h par val /\ length h = N /\ sized N (fa_of h) s O 1.
Definition pending (x : nat) (h : heap Z) par val s : Prop :=
  wf N par /\ length h = N /\
  exists b0 p v a m r ts, trees_ok h par val ((p, Nd Lf x v a m r) :: ts) /\ sized N (fa_of h) s x b0.

Lemma access_paid par val fuel h x s h' c :
  normal h par val s \/ pending x h par val s -> (x < N)%nat -> (N < fuel)%nat -> access_t fuel h x = Ok (h', c) ->
  exists l' v' m' ts' s', trees_ok h' par val ((None, Nd l' x v' 0 m' Lf) :: ts') /\ length h' = N /\ wf N par /\
    sized N (fa_of h') s' x 1 /\ fa_of h' x = None /\ Z.of_nat c + 13 * pot N s' <= 13 * pot N s + 91 * L + 14.
Proof.
  intros HC Hx Hf HA.
  assert (HH : exists b0 p k l v a m r ts, trees_ok h par val ((p, plug k (Nd l x v a m r)) :: ts) /\ wf N par /\ length h = N /\
             sized N (fa_of h) s x b0 /\ (b0 = 1 \/ k = [] /\ l = Lf)).
  { destruct HC as [([[ts HT] HW] & HN & HS)|(HW & HN & b0 & p & v & a & m & r & ts & HT & HS)].
    - rewrite <- HN in Hx. destruct (find_tree _ _ _ _ _ HT Hx) as (q & t & ts' & HPm & Hxt).
      assert (HT1 := trees_perm _ _ _ _ _ HPm HT). destruct (focus t x Hxt) as (k & l & v & a & m & r & ->).
      exists 1, q, k, l, v, a, m, r, ts'. split; [exact HT1|]. split; [rewrite <- HN; exact HW|]. split; [exact HN|]. split; [eapply sized_any; eauto|auto].
    - exists b0, p, [], Lf, v, a, m, r, ts. split; [exact HT|]. split; [exact HW|]. split; [exact HN|]. split; [exact HS|]. right; auto. }
  destruct HH as (b0 & p & k & l & v & a & m & r & ts & HT & HW & HN & HS & HB).
  destruct (access_amort par val b0 fuel h x p k l v a m r ts s h' c HT HW HN Hf HS HB HA) as (l' & v' & m' & ts' & s' & T' & L' & S' & P').
  assert (FX : fa_of h' x = None).
  { pose proof (t_ok _ _ _ _ T') as FT. inversion FT as [|a0 c0 Hg0 FT']; subst a0 c0. destruct Hg0 as ((Hn & _) & _). cbn [fst snd] in Hn.
    rewrite (fa_of_nth _ _ _ Hn). reflexivity. }
  destruct (sized_full _ _ _ _ S' Hx FX) as (s2 & S2 & P2).
  exists l', v', m', ts', s2. repeat (split; [assumption|]). lia.
Qed.

(** [set_fa] *)
Lemma sized_link F F' s x y : sized N F s O 1 -> (x < N)%nat -> (y < N)%nat -> y <> x -> F x = None ->
  (forall i, F' i = if Nat.eqb i x then Some y else F i) ->
  exists s' b0, sized N F' s' x b0 /\ pot N s' <= pot N s.
Proof.
  intros HS Hx Hy Hyx HF HF'. assert (HS1 := sized_any _ _ _ x HS).
  assert (K0 : 0 <= kids N F s x) by (apply (kids_nonneg _ _ _ _ _ HS1)).
  assert (KE : forall v, kids N F' (fup s x 0) v = kids N F s v).
  { intros v. apply zsum_ext. intros i _. rewrite HF'. destruct (Nat.eqb_spec i x) as [->|Hn].
    - rewrite fup_eq, HF. cbn [ptr_eqb]. destruct (Nat.eqb y v); reflexivity.
    - rewrite fup_neq by auto. reflexivity. }
  exists (fup s x 0), (- kids N F s x). split.
  - constructor.
    + intros v Hv. rewrite KE. unfold weight. destruct (Nat.eqb_spec v x) as [->|Hn].
      * rewrite fup_eq. lia.
      * rewrite fup_neq by auto. assert (E := sz_eq _ _ _ _ _ HS1 v Hv). unfold weight in E.
        destruct (Nat.eqb_spec v x); [congruence|]. exact E.
    + intros v Hv. destruct (Nat.eq_dec v x) as [->|Hn]; [rewrite fup_eq; lia|]. rewrite fup_neq by auto. apply (sz_nn _ _ _ _ _ HS1); auto.
    + lia.
    + intros v w Hv E. rewrite HF' in E. destruct (Nat.eqb v x); [inversion E; subst; auto|]. eapply (sz_in _ _ _ _ _ HS1); eauto.
  - rewrite pot_fup by auto. assert (P := Z.log2_nonneg (s x)). change (Z.log2 0) with 0. lia.
Qed.

Lemma set_fa_amort par val fuel h x y ly s h' c :
  normal h par val s -> (x < N)%nat -> (y < N)%nat -> (N < fuel)%nat ->
  par x = None -> path par y ly -> ~ In x ly -> set_fa_t fuel h x (Some y) = Ok (h', c) ->
  exists s', pending x h' (set_parent par x (Some y)) val s' /\ Z.of_nat c + 13 * pot N s' <= 13 * pot N s + 39 * L + 4.
Proof.
  intros ([[ts HT] HW] & HN & HS) Hx Hy Hf Hpx HPy Hnot HA.
  assert (Hx' : (x < length h)%nat) by lia.
  destruct (find_tree _ _ _ _ _ HT Hx') as (p & t & ts' & HPm & Hxi).
  assert (HT1 := trees_perm _ _ _ _ _ HPm HT). clear HT HPm ts.
  pose proof (t_ok _ _ _ _ HT1) as F0. inversion F0 as [|a0 c0 Hg0 F0']; subst a0 c0. destruct Hg0 as (HR0 & HM0 & HC0). cbn [fst snd] in *.
  assert (NDg := trees_tail_nodup _ _ _ _ _ _ HT1). assert (HEg := ext_of _ _ _ _ _ _ _ HT1 HW Hxi).
  assert (Lt1 := trees_len _ _ _ _ _ _ HT1 (or_introl eq_refl)).
  unfold set_fa_t in HA. apply cbind_inv in HA. destruct HA as (h1 & i & j & F1 & HA & ->).
  apply cbind_inv in HA. destruct HA as (nx & i2 & j2 & F2 & HA & ->). apply free_inv in F2. destruct F2 as [F2 ->].
  apply cbind_inv in HA. destruct HA as (u & i3 & j3 & F3 & HA & ->). apply free_inv in F3. destruct F3 as [F3 ->].
  apply free_inv in HA. destruct HA as [HA ->].
  assert (E1 : splay fuel h x = Ok h1) by (rewrite <- splay_erase, F1; reflexivity).
  destruct (splay_ok one fuel h p t x HR0 NDg HEg HM0 Hxi ltac:(lia)) as (h1' & l & v & m & r & E1' & R1 & V1 & A1 & S1).
  assert (h1' = h1) by congruence. subst h1'.
  assert (Ipm : In x (map fst (vals 0 t))) by (rewrite map_fst_vals; exact Hxi).
  destruct (chain_none_first _ _ _ _ _ HC0 Ipm Hpx) as [-> (v0 & LL & HL)].
  assert (I : idx (Nd l x v 0 m r) = idx t) by (rewrite <- (map_fst_vals 0 t), <- V1, map_fst_vals; reflexivity).
  assert (T1 : trees_ok h1 par val ((None, Nd l x v 0 m r) :: ts')).
  { apply (trees_upd h h1 par val par val [(None, t)] [(None, Nd l x v 0 m r)] ts'); auto.
    - simpl. rewrite app_nil_r. exact S1.
    - unfold aidx. cbn [flat_map snd]. rewrite I. reflexivity.
    - constructor; [|constructor]. split; [|split]; cbn [fst snd]; auto.
      + apply allmins_submins; auto.
      + rewrite V1; auto. }
  assert (El : l = Lf).
  { destruct l as [|la y0 va aa ma ra]; auto. exfalso.
    assert (Eh : idx t = x :: map fst LL) by (rewrite <- (map_fst_vals 0 t), HL; reflexivity).
    rewrite <- I in Eh. rewrite <- I in NDg. cbn [idx] in Eh, NDg.
    assert (HH : exists y1 I0, idx la ++ y0 :: idx ra = y1 :: I0) by (destruct (idx la); simpl; eauto).
    destruct HH as (y1 & I0 & EY). rewrite EY in Eh, NDg. cbn [app] in Eh, NDg. inversion Eh; subst y1.
    inversion NDg as [|z1 z2 Hn _]; subst. apply Hn, in_or_app; simpl; auto. }
  subst l.
  destruct (focus t x Hxi) as (k & lt & vt & at_ & mt & rt & ->).
  assert (HSx := sized_any _ _ _ x HS).
  destruct (splay_amort x 1 fuel k h None lt x vt at_ mt rt s h1 i HR0 NDg HEg HM0 HN HSx) as (d & z & s1 & D1 & D2 & D3 & D4 & D5 & D6).
  { intros Hin. apply nodup_plug in NDg. apply (NoDup_app_disj _ _ x NDg Hin). simpl. apply in_or_app; simpl; auto. }
  { intros _. eapply slack_of; eauto. }
  { exact F1. }
  pose proof R1 as (Hn & _ & Rr).
  assert (FX : fa_of h1 x = None) by (rewrite (fa_of_nth _ _ _ Hn); reflexivity).
  assert (XL : Z.log2 (s1 x) <= L) by (apply Z.log2_le_mono; apply (root_le _ _ _ _ _ D5); auto).
  destruct (modi_fa _ _ _ _ HA) as [L2 A2].
  assert (Hyx : y <> x) by (intros ->; apply Hnot; destruct (path_hd _ _ _ HPy) as [l' ->]; simpl; auto).
  destruct (sized_link (fa_of h1) (fa_of h') s1 x y (sized_any _ _ _ O D5) Hx Hy Hyx FX A2) as (s' & b0 & S' & P').
  assert (P1 := Z.log2_nonneg (s x)).
  exists s'. split; [|lia].
  rewrite (modi_ok _ _ _ _ Hn) in HA. unfold set_fa_ in HA; cbn [n_c0 n_c1 n_min n_val n_add] in HA. inversion HA as [EH].
  rewrite EH. split; [eapply wf_link; eauto; rewrite <- HN; exact HW|]. split; [congruence|].
  exists b0, (Some y), v, 0, m, r, ts'. split; [|exact S'].
  assert (NDt := trees_tail_nodup _ _ _ _ _ _ T1).
  pose proof (t_ok _ _ _ _ T1) as FT. inversion FT as [|a0 c0 Hg0 FT']; subst a0 c0. destruct Hg0 as (_ & HM1 & HC1). cbn [fst snd] in *.
  change ((Some y, Nd Lf x v 0 m r) :: ts') with ([(Some y, Nd Lf x v 0 m r)] ++ ts').
  apply (trees_upd h1 h' par val _ val [(None, Nd Lf x v 0 m r)] _ ts' T1).
  - rewrite <- EH. split; [apply upd_length|]. intros w Hi2. apply nth_error_upd_neq. intros ->. apply Hi2. rewrite aidx_cons. simpl; auto.
  - reflexivity.
  - constructor; [|constructor]. split; [|split]; cbn [fst snd].
    + eapply (rep_new_father h1 h' None (Some y) (Nd Lf x v 0 m r) x _ NDt R1 eq_refl Hn).
      * rewrite <- EH. apply nth_error_upd_eq. lia.
      * intros w Hi2 Hix. rewrite <- EH. apply nth_error_upd_neq; auto.
    + exact HM1.
    + cbn [vals app] in HC1 |- *. cbn [idx app] in NDt. inversion NDt as [|z1 z2 Hz Hd]; subst z1 z2.
      cbn [chain] in HC1 |- *. destruct HC1 as (Q1 & Q2 & Q3). split; [apply set_parent_eq|]. split; auto.
      eapply chain_ext; [|exact Q3]. intros w Hzi. split; auto. apply set_parent_neq. intros ->. apply Hz.
      rewrite <- (map_fst_vals (0 + 0)). exact Hzi.
  - intros p2 t2 Hi2 HC2. eapply chain_ext; [|exact HC2]. intros w Hz. split; auto.
    apply set_parent_neq. eapply other_not; [exact T1| |exact Hi2|exact Hz]. simpl; auto.
Qed.
End AmortOps.
