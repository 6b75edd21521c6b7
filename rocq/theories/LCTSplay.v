(** * splay brings a node to the root of its auxiliary tree *)
From Coq Require Import Permutation.
From Verif Require Import Base BaseLemmas Data LCT LCTTree LCTHeap.
Local Open Scope Z_scope.

Section Splay.
Variable one : Z.
#[local] Hint Extern 0 (DataOps Z) => exact (exact_ops one) : typeclass_instances.

Definition fr_ok (f : frame) : Prop :=
  match f with
  | FL x v a m r => a = 0 /\ allmins r
  | FR l x v a m => a = 0 /\ allmins l
  end.

Lemma vals_0 w t : vals w t = addw w (vals 0 t).
Proof. rewrite <- vals_addw. reflexivity. Qed.

Lemma vals_ext t t' : vals 0 t = vals 0 t' -> forall w, vals w t = vals w t'.
Proof. intros H w. rewrite vals_0, (vals_0 w t'), H. reflexivity. Qed.

Lemma vals_plug_ext k t t' :
  (forall w, vals w t = vals w t') -> forall w, vals w (plug k t) = vals w (plug k t').
Proof.
  revert t t'; induction k as [|f k IH]; intros t t' H w; simpl; [auto|].
  apply IH. intros w'. destruct f; simpl; rewrite H; reflexivity.
Qed.

(** the state of the splay loop: zipper at [x] with no pending additions on
    the way from the root *)
Record zst (h : heap Z) (p : option nat) (k : list frame) l x v m r : Prop := {
  z_rep : rep h p (plug k (Nd l x v 0 m r));
  z_nd : NoDup (idx (plug k (Nd l x v 0 m r)));
  z_ext : ext h p (idx (plug k (Nd l x v 0 m r)));
  z_k : Forall fr_ok k;
  z_l : allmins l;
  z_r : allmins r
}.

Lemma perm_plug k k' t t' :
  Permutation (idxk k ++ idx t) (idxk k' ++ idx t') -> Permutation (idx (plug k t)) (idx (plug k' t')).
Proof. intros H. rewrite !idx_plug. exact H. Qed.

Lemma same_off_perm h h' L L' : Permutation L L' -> same_off h h' L -> same_off h h' L'.
Proof. intros HP HS. eapply same_off_weaken; [exact HS|]. intros i; apply Permutation_in; exact HP. Qed.

Lemma rot_x h p f k l x v m r :
  zst h p (f :: k) l x v m r ->
  exists h' l' r', rot h x = Ok h' /\ zst h' p k l' x v m r' /\
    vals 0 (plug k (Nd l' x v 0 m r')) = vals 0 (plug (f :: k) (Nd l x v 0 m r)) /\
    same_off h h' (idx (plug (f :: k) (Nd l x v 0 m r))) /\
    Permutation (idx (plug (f :: k) (Nd l x v 0 m r))) (idx (plug k (Nd l' x v 0 m r'))).
Proof.
  intros [HR ND HE HK Hl Hr].
  destruct (rot_ok one _ _ _ _ _ _ _ _ _ _ HR ND HE) as (h' & E & R & S).
  assert (HP : Permutation (idx (plug (f :: k) (Nd l x v 0 m r))) (idx (plug k (rotated f l x v 0 m r)))).
  { apply perm_plug. rewrite idx_rotated. cbn [idxk].
    rewrite !app_assoc. apply Permutation_app_tail. apply Permutation_app_comm. }
  inversion HK as [|f0 k0 Hf HK']; subst.
  destruct f as [y vy ay my s|s y vy ay my]; cbn [rotated] in *; destruct Hf as [-> Hs];
    do 3 eexists; (split; [exact E|]); repeat split.
  - exact R.
  - eapply Permutation_NoDup; eauto.
  - eapply ext_perm; [exact HP|]. eapply ext_same; eauto.
  - exact HK'.
  - exact Hl.
  - apply allmins_pu; auto.
  - cbn [plug]. apply vals_plug_ext. intros w. cbn [plug1 vals].
    rewrite !Z.add_0_r. rewrite <- app_assoc. reflexivity.
  - apply S.
  - apply S.
  - exact HP.
  - exact R.
  - eapply Permutation_NoDup; eauto.
  - eapply ext_perm; [exact HP|]. eapply ext_same; eauto.
  - exact HK'.
  - apply allmins_pu; auto.
  - exact Hr.
  - cbn [plug]. apply vals_plug_ext. intros w. cbn [plug1 vals].
    rewrite !Z.add_0_r. rewrite <- app_assoc. reflexivity.
  - apply S.
  - apply S.
  - exact HP.
Qed.

Lemma rot_f h p f g k l x v m r :
  zst h p (f :: g :: k) l x v m r -> is_FR f = is_FR g ->
  exists h' f', rot h (fx f) = Ok h' /\ zst h' p (f' :: k) l x v m r /\
    vals 0 (plug (f' :: k) (Nd l x v 0 m r)) = vals 0 (plug (f :: g :: k) (Nd l x v 0 m r)) /\
    same_off h h' (idx (plug (f :: g :: k) (Nd l x v 0 m r))) /\
    Permutation (idx (plug (f :: g :: k) (Nd l x v 0 m r))) (idx (plug (f' :: k) (Nd l x v 0 m r))).
Proof.
  intros [HR ND HE HK Hl Hr] Hd.
  inversion HK as [|f0 k0 Hf HK']; subst. inversion HK' as [|f0 k0 Hg HK'']; subst.
  set (T := plug (f :: g :: k) (Nd l x v 0 m r)) in *.
  destruct f as [y vy ay my s|s y vy ay my]; destruct Hf as [-> Hs]; cbn [fx is_FR] in *;
    destruct g as [z vz az mz u|u z vz az mz]; destruct Hg as [-> Hu]; cbn [is_FR] in *; try discriminate.
  - assert (ET : T = plug (FL z vz 0 mz u :: k) (Nd (Nd l x v 0 m r) y vy 0 my s)) by reflexivity.
    rewrite ET in *.
    destruct (rot_ok one _ _ _ _ _ _ _ _ _ _ HR ND HE) as (h' & E & R & S).
    cbn [rotated] in R.
    assert (HP : Permutation (idx (plug (FL z vz 0 mz u :: k) (Nd (Nd l x v 0 m r) y vy 0 my s)))
       (idx (plug k (Nd (Nd l x v 0 m r) y vy 0 my (Nd s z vz 0 (pu s z vz u) u))))).
    { apply perm_plug. cbn [idxk].
      pose proof (idx_rotated (FL z vz 0 mz u) (Nd l x v 0 m r) y vy 0 my s) as HQ.
      cbn [rotated] in HQ. rewrite HQ. rewrite !app_assoc. apply Permutation_app_tail. apply Permutation_app_comm. }
    exists h', (FL y vy 0 my (Nd s z vz 0 (pu s z vz u) u)). split; [exact E|]. repeat split.
    + exact R.
    + eapply Permutation_NoDup; eauto.
    + eapply ext_perm; [exact HP|]. eapply ext_same; eauto.
    + constructor; auto. split; [reflexivity|]. apply allmins_pu; auto.
    + exact Hl.
    + exact Hr.
    + cbn [plug]. apply vals_plug_ext. intros w. cbn [plug1 vals].
      rewrite !Z.add_0_r. rewrite <- !app_assoc. simpl. rewrite <- ?app_assoc. reflexivity.
    + apply S.
    + apply S.
    + exact HP.
  - assert (ET : T = plug (FR u z vz 0 mz :: k) (Nd s y vy 0 my (Nd l x v 0 m r))) by reflexivity.
    rewrite ET in *.
    destruct (rot_ok one _ _ _ _ _ _ _ _ _ _ HR ND HE) as (h' & E & R & S).
    cbn [rotated] in R.
    assert (HP : Permutation (idx (plug (FR u z vz 0 mz :: k) (Nd s y vy 0 my (Nd l x v 0 m r))))
       (idx (plug k (Nd (Nd u z vz 0 (pu u z vz s) s) y vy 0 my (Nd l x v 0 m r))))).
    { apply perm_plug. cbn [idxk].
      pose proof (idx_rotated (FR u z vz 0 mz) s y vy 0 my (Nd l x v 0 m r)) as HQ.
      cbn [rotated] in HQ. rewrite HQ. rewrite !app_assoc. apply Permutation_app_tail. apply Permutation_app_comm. }
    exists h', (FR (Nd u z vz 0 (pu u z vz s) s) y vy 0 my). split; [exact E|]. repeat split.
    + exact R.
    + eapply Permutation_NoDup; eauto.
    + eapply ext_perm; [exact HP|]. eapply ext_same; eauto.
    + constructor; auto. split; [reflexivity|]. apply allmins_pu; auto.
    + exact Hl.
    + exact Hr.
    + cbn [plug]. apply vals_plug_ext. intros w. cbn [plug1 vals].
      rewrite !Z.add_0_r. rewrite <- !app_assoc. simpl. rewrite <- ?app_assoc. reflexivity.
    + apply S.
    + apply S.
    + exact HP.
Qed.

Lemma splay_loop_ok fuel : forall k h p l x v m r,
  (length k < fuel)%nat -> zst h p k l x v m r ->
  exists h' l' r', splay_loop fuel h x = Ok h' /\ zst h' p [] l' x v m r' /\
    vals 0 (Nd l' x v 0 m r') = vals 0 (plug k (Nd l x v 0 m r)) /\
    same_off h h' (idx (plug k (Nd l x v 0 m r))) /\
    Permutation (idx (plug k (Nd l x v 0 m r))) (idx (Nd l' x v 0 m r')).
Proof.
  induction fuel as [|fuel IH]; intros k h p l x v m r Hf HZ; [lia|].
  cbn [splay_loop].
  rewrite (is_root_ok _ _ _ _ _ _ _ _ _ (z_rep _ _ _ _ _ _ _ _ HZ) (z_nd _ _ _ _ _ _ _ _ HZ) (z_ext _ _ _ _ _ _ _ _ HZ)).
  cbn [bind]. destruct k as [|f k].
  - exists h, l, r. split; [reflexivity|]. split; [exact HZ|]. split; [reflexivity|].
    split; [apply same_off_refl|reflexivity].
  - assert (HR0 := z_rep _ _ _ _ _ _ _ _ HZ). apply rep_plug in HR0. destruct HR0 as [(Hx & _) _].
    rewrite (ld_ok _ _ _ Hx). cbn [bind n_fa kpar].
    assert (Hrf : is_root h (fx f) = Ok (match k with [] => true | _ => false end)).
    { assert (H1 := z_rep _ _ _ _ _ _ _ _ HZ). assert (H2 := z_nd _ _ _ _ _ _ _ _ HZ). assert (H3 := z_ext _ _ _ _ _ _ _ _ HZ).
      cbn [plug] in *.
      assert (exists l1 v1 a1 m1 r1, plug1 f (Nd l x v 0 m r) = Nd l1 (fx f) v1 a1 m1 r1) as (l1&v1&a1&m1&r1&E1)
        by (destruct f; simpl; eauto 8).
      rewrite E1 in *. eapply is_root_ok; eauto. }
    rewrite Hrf. cbn [bind].
    destruct k as [|g k].
    + cbn [bind].
      destruct (rot_x _ _ _ _ _ _ _ _ _ HZ) as (h1 & l1 & r1 & E1 & Z1 & V1 & S1 & P1).
      rewrite E1. cbn [bind].
      destruct (IH [] h1 p l1 x v m r1) as (h2 & l2 & r2 & E2 & Z2 & V2 & S2 & P2); auto; [simpl in *; lia|].
      exists h2, l2, r2. split; [exact E2|]. split; [exact Z2|]. split; [congruence|]. split.
      * eapply same_off_trans; [exact S1|]. eapply same_off_perm; [symmetry; exact P1|exact S2].
      * etransitivity; eauto.
    + assert (Hdx : dir h x = Ok (is_FR f)).
      { eapply dir_ok; [exact (z_rep _ _ _ _ _ _ _ _ HZ)|exact (z_nd _ _ _ _ _ _ _ _ HZ)]. }
      assert (Hdf : dir h (fx f) = Ok (is_FR g)).
      { assert (H1 := z_rep _ _ _ _ _ _ _ _ HZ). assert (H2 := z_nd _ _ _ _ _ _ _ _ HZ).
        change (plug (f :: g :: k) (Nd l x v 0 m r)) with (plug (g :: k) (plug1 f (Nd l x v 0 m r))) in *.
        assert (exists l1 v1 a1 m1 r1, plug1 f (Nd l x v 0 m r) = Nd l1 (fx f) v1 a1 m1 r1) as (l1&v1&a1&m1&r1&E1)
          by (destruct f; simpl; eauto 8).
        rewrite E1 in *. eapply dir_ok; eauto. }
      rewrite Hdx, Hdf. cbn [bind].
      destruct (Bool.eqb (is_FR f) (is_FR g)) eqn:Eb.
      * apply eqb_prop in Eb.
        destruct (rot_f _ _ _ _ _ _ _ _ _ _ HZ Eb) as (h1 & f1 & E1 & Z1 & V1 & S1 & P1).
        rewrite E1. cbn [bind].
        destruct (rot_x _ _ _ _ _ _ _ _ _ Z1) as (h2 & l2 & r2 & E2 & Z2 & V2 & S2 & P2).
        rewrite E2. cbn [bind].
        destruct (IH k h2 p l2 x v m r2) as (h3 & l3 & r3 & E3 & Z3 & V3 & S3 & P3); auto; [simpl in *; lia|].
        exists h3, l3, r3. split; [exact E3|]. split; [exact Z3|]. split; [congruence|]. split.
        -- eapply same_off_trans; [exact S1|].
           eapply same_off_trans; [eapply same_off_perm; [symmetry; exact P1|exact S2]|].
           eapply same_off_perm; [|exact S3]. rewrite P1, P2. reflexivity.
        -- rewrite P1, P2, P3. reflexivity.
      * destruct (rot_x _ _ _ _ _ _ _ _ _ HZ) as (h1 & l1 & r1 & E1 & Z1 & V1 & S1 & P1).
        rewrite E1. cbn [bind].
        destruct (rot_x _ _ _ _ _ _ _ _ _ Z1) as (h2 & l2 & r2 & E2 & Z2 & V2 & S2 & P2).
        rewrite E2. cbn [bind].
        destruct (IH k h2 p l2 x v m r2) as (h3 & l3 & r3 & E3 & Z3 & V3 & S3 & P3); auto; [simpl in *; lia|].
        exists h3, l3, r3. split; [exact E3|]. split; [exact Z3|]. split; [congruence|]. split.
        -- eapply same_off_trans; [exact S1|].
           eapply same_off_trans; [eapply same_off_perm; [symmetry; exact P1|exact S2]|].
           eapply same_off_perm; [|exact S3]. rewrite P1, P2. reflexivity.
        -- rewrite P1, P2, P3. reflexivity.
Qed.

(** mins of everything but the root are right *)
Lemma submins_plug k l x v a m r :
  submins (plug k (Nd l x v a m r)) ->
  allmins l /\ allmins r /\
  Forall (fun f => match f with FL _ _ _ _ s => allmins s | FR s _ _ _ _ => allmins s end) k.
Proof.
  assert (G : forall k t, submins (plug k t) -> (k = [] /\ submins t) \/ allmins t).
  { induction k0 as [|f k0 IH]; intros t H; simpl in *; [left; auto|].
    destruct (IH _ H) as [[-> H']|H'].
    - right. destruct f; simpl in H'; tauto.
    - right. destruct f; simpl in H'; tauto. }
  assert (G2 : forall k t, submins (plug k t) ->
     Forall (fun f => match f with FL _ _ _ _ s => allmins s | FR s _ _ _ _ => allmins s end) k).
  { induction k0 as [|f k0 IH]; intros t H; constructor; simpl in H.
    - destruct (G _ _ H) as [[_ H']|H']; destruct f; simpl in H'; tauto.
    - eapply IH; eauto. }
  intros H. destruct (G _ _ H) as [[_ H']|H']; simpl in H'; repeat split; try tauto; eapply G2; eauto.
Qed.

Lemma pdk_ok k : Forall (fun f => match f with FL _ _ _ _ s => allmins s | FR s _ _ _ _ => allmins s end) k ->
  Forall fr_ok (fst (pdk k)).
Proof.
  induction k as [|f k IH]; intros H; simpl; [constructor|].
  inversion H as [|f0 k0 Hf HK]; subst. specialize (IH HK).
  destruct (pdk k) as [k' w]; simpl in *. destruct f; simpl; constructor; auto; split; auto using allmins_addt.
Qed.

Lemma vals_pdk k t w : vals w (plug (fst (pdk k)) (addt (snd (pdk k)) t)) = vals w (plug k t).
Proof.
  revert t w; induction k as [|f k IH]; intros t w; simpl; [rewrite addt_0; reflexivity|].
  destruct (pdk k) as [k' w'] eqn:E. cbn [fst snd] in *.
  destruct f as [y vy ay my s|s y vy ay my]; cbn [fst snd plug plug1].
  - rewrite <- IH. apply vals_plug_ext. intros w2. cbn [vals addt].
    rewrite !vals_addt. rewrite !Z.add_0_r. rewrite !Z.add_assoc. reflexivity.
  - rewrite <- IH. apply vals_plug_ext. intros w2. cbn [vals addt].
    rewrite !vals_addt. rewrite !Z.add_0_r. rewrite !Z.add_assoc. reflexivity.
Qed.

Theorem splay_ok fuel h p t x :
  rep h p t -> NoDup (idx t) -> ext h p (idx t) -> submins t -> In x (idx t) ->
  (length (idx t) < fuel)%nat ->
  exists h' l v m r, splay fuel h x = Ok h' /\
    rep h' p (Nd l x v 0 m r) /\
    vals 0 (Nd l x v 0 m r) = vals 0 t /\
    allmins (Nd l x v 0 m r) /\
    same_off h h' (idx t).
Proof.
  intros HR ND HE HM Hx Hf.
  destruct (focus t x Hx) as (k & l & v & a & m & r & ->).
  assert (Lk : (length k < fuel)%nat).
  { assert (length k <= length (idx (plug k (Nd l x v a m r))))%nat; [|lia].
    rewrite (Permutation_length (idx_plug k _)). rewrite app_length.
    assert (length k <= length (idxk k))%nat; [|lia].
    clear. induction k as [|f k IH]; simpl; [lia|]. rewrite app_length. destruct f; simpl; lia. }
  destruct (submins_plug _ _ _ _ _ _ _ HM) as (Hl & Hr & HK).
  unfold splay.
  destruct (pdfr_ok one fuel k h p l x v a m r Lk HR ND HE) as (h1 & E1 & R1 & S1).
  rewrite E1. cbn [bind].
  assert (P1 : Permutation (idx (plug k (Nd l x v a m r)))
      (idx (plug (fst (pdk k)) (pd (addt (snd (pdk k)) (Nd l x v a m r)))))).
  { apply perm_plug. rewrite idxk_pdk, idx_pd, idx_addt. reflexivity. }
  assert (V1 : vals 0 (plug (fst (pdk k)) (pd (addt (snd (pdk k)) (Nd l x v a m r)))) = vals 0 (plug k (Nd l x v a m r))).
  { rewrite <- (vals_pdk k (Nd l x v a m r)). apply vals_plug_ext. intros w. apply vals_pd. }
  assert (LK : length (fst (pdk k)) = length k) by apply length_pdk.
  assert (HK' := pdk_ok k HK).
  destruct (pdk k) as [k' w]. cbn [fst snd addt pd] in *.
  set (l1 := addt (a + w) l) in *. set (r1 := addt (a + w) r) in *.
  set (m1 := (fst m + w, snd m)) in *.
  assert (Z1 : zst h1 p k' l1 x (v + w) m1 r1).
  { constructor; auto.
    - eapply Permutation_NoDup; eauto.
    - eapply ext_perm; [exact P1|]. eapply ext_same; eauto.
    - apply allmins_addt; auto.
    - apply allmins_addt; auto. }
  destruct (splay_loop_ok fuel k' h1 p l1 x (v + w) m1 r1) as (h2 & l2 & r2 & E2 & Z2 & V2 & S2 & P2); auto; [lia|].
  rewrite E2. cbn [bind].
  destruct Z2 as [HR2 ND2 HE2 _ Hl2 Hr2]. cbn [plug] in *.
  destruct HR2 as (Hx2 & HL2 & HRR2).
  rewrite (push_up_ok one _ _ _ _ _ _ _ _ Hx2 HL2 HRR2).
  exists (upd h2 x (mkNode p (root l2) (root r2) (pu l2 x (v + w) r2) (v + w) 0)), l2, (v + w), (pu l2 x (v + w) r2), r2.
  assert (Nx : ~ In x (idx l2 ++ idx r2)) by (cbn [idx] in ND2; apply NoDup_remove_2 in ND2; exact ND2).
  split; [reflexivity|]. split; [|split; [|split]].
  - cbn [rep]. repeat split.
    + apply nth_error_upd_eq. eapply nth_error_lt; eauto.
    + eapply rep_frame; [|exact HL2]. intros i Hi. apply nth_error_upd_neq. intros ->. apply Nx, in_or_app; auto.
    + eapply rep_frame; [|exact HRR2]. intros i Hi. apply nth_error_upd_neq. intros ->. apply Nx, in_or_app; auto.
  - rewrite <- V1, <- V2. reflexivity.
  - apply allmins_pu; auto.
  - eapply same_off_trans; [exact S1|].
    eapply same_off_trans; [eapply same_off_perm; [symmetry; exact P1|exact S2]|].
    apply same_off_upd. exact Hx.
Qed.

End Splay.
