(** * The numbers stored in the link-cut tree stay as small as the values of the forest

    [sbh C h]: in every node of the heap the stored value, the stored value
    without the pending addition and the cached minimum are at most [C] in
    absolute value. *)
From Coq Require Import Permutation.
From Verif Require Import Base BaseLemmas Data LCT LCTTree LCTHeap LCTSplay LCTChecked.
Local Open Scope Z_scope.

Section Bound.
Variable one : Z.
#[local] Hint Extern 0 (DataOps Z) => exact (exact_ops one) : typeclass_instances.
Variable okd : Z -> bool.
Variable C : Z.
Hypothesis Hokd : forall z, Z.abs z <= 2 * C -> okd z = true.

Definition nb (n : node Z) : Prop :=
  Z.abs (n_val n) <= C /\ Z.abs (n_val n - n_add n) <= C /\ Z.abs (fst (n_min n)) <= C.

Definition sbh (h : heap Z) : Prop := forall i n, nth_error h i = Some n -> nb n.

(** the same, but nothing is said about the pending addition of node [x] *)
Definition sbx (x : nat) (h : heap Z) : Prop :=
  forall i n, nth_error h i = Some n ->
    Z.abs (n_val n) <= C /\ Z.abs (fst (n_min n)) <= C /\ (i <> x -> nb n).

Lemma sbh_sbx x h : sbh h -> sbx x h.
Proof. intros H i n E. destruct (H _ _ E) as (H1 & H2 & H3). repeat split; auto. Qed.

Lemma ckd_ok z : Z.abs z <= 2 * C -> ckd okd z = Ok z.
Proof. intros H. unfold ckd. rewrite Hokd; auto. Qed.

Lemma sbh_upd h i n : sbh h -> nb n -> sbh (upd h i n).
Proof.
  intros H Hn j m E. destruct (Nat.eq_dec i j) as [<-|Hij].
  - assert (L := nth_error_lt _ _ _ E). rewrite upd_length in L. rewrite nth_error_upd_eq in E by auto.
    inversion E; subst; auto.
  - rewrite nth_error_upd_neq in E by auto. eauto.
Qed.

Lemma sbx_upd x h i n : sbx x h -> nb n -> sbx x (upd h i n).
Proof.
  intros H Hn j m E. destruct (Nat.eq_dec i j) as [<-|Hij].
  - assert (L := nth_error_lt _ _ _ E). rewrite upd_length in L. rewrite nth_error_upd_eq in E by auto.
    inversion E; subst; auto. repeat split; auto; apply Hn.
  - rewrite nth_error_upd_neq in E by auto. eauto.
Qed.

Lemma sbx_fix x h n : sbx x h -> nb n -> sbh (upd h x n).
Proof.
  intros H Hn j m E. destruct (Nat.eq_dec x j) as [<-|Hij].
  - assert (L := nth_error_lt _ _ _ E). rewrite upd_length in L. rewrite nth_error_upd_eq in E by auto.
    inversion E; subst; auto.
  - rewrite nth_error_upd_neq in E by auto. apply (H j m E). auto.
Qed.

Lemma modi_inv (h : heap Z) x f h' : modi h x f = Ok h' -> exists n, nth_error h x = Some n /\ h' = upd h x (f n).
Proof.
  unfold modi, ld. intros H. apply bind_inv in H. destruct H as (n & E & H). apply vget_inv in E.
  rewrite (vset_ok h x (f n) (nth_error_lt _ _ _ E)) in H. inversion H; eauto.
Qed.

Lemma modi_sb h x f h' : (forall n, nb n -> nb (f n)) -> sbh h -> modi h x f = Ok h' -> sbh h'.
Proof. intros Hf HS H. apply modi_inv in H. destruct H as (n & E & ->). apply sbh_upd; eauto. Qed.

Lemma nb_fa p n : nb n -> nb (set_fa_ p n).
Proof. exact (fun H => H). Qed.
Lemma nb_ch d c n : nb n -> nb (set_ch_ d c n).
Proof. destruct d; exact (fun H => H). Qed.
Lemma nb_min m n : Z.abs (fst m) <= C -> nb n -> nb (set_min_ m n).
Proof. intros Hm (H1 & H2 & H3). split; auto. Qed.

Lemma push_up_sb h x h' : sbh h -> push_up h x = Ok h' -> sbh h'.
Proof.
  intros HS H. unfold push_up in H. apply bind_inv in H. destruct H as (nx & Ex & H). apply vget_inv in Ex.
  apply bind_inv in H. destruct H as (m1 & E1 & H). apply bind_inv in H. destruct H as (m2 & E2 & H).
  assert (B1 : Z.abs (fst m1) <= C).
  { destruct (n_c0 nx) as [c|].
    - apply bind_inv in E1. destruct E1 as (nc & Ec & E1). apply vget_inv in Ec. injection E1 as E1; rewrite <- E1.
      match goal with |- context [if ?b then _ else _] => destruct b end; [apply (HS _ _ Ec)|apply (HS _ _ Ex)].
    - inversion E1; subst m1. apply (HS _ _ Ex). }
  assert (B2 : Z.abs (fst m2) <= C).
  { destruct (n_c1 nx) as [c|].
    - apply bind_inv in E2. destruct E2 as (nc & Ec & E2). apply vget_inv in Ec. injection E2 as E2; rewrite <- E2.
      match goal with |- context [if ?b then _ else _] => destruct b end; [apply (HS _ _ Ec)|auto].
    - inversion E2; subst m2. auto. }
  eapply modi_sb; [|exact HS|exact H]. intros n. apply nb_min; auto.
Qed.

Lemma setc_sb h x p d h' : sbh h -> setc h x p d = Ok h' -> sbh h'.
Proof.
  intros HS H. unfold setc in H. apply bind_inv in H. destruct H as (h1 & E & H).
  assert (S1 : sbh h1) by (eapply modi_sb; [|exact HS|exact E]; intros; apply nb_ch; auto).
  destruct p as [c|]; [|inversion H; subst; auto].
  eapply modi_sb; [|exact S1|exact H]. intros; apply nb_fa; auto.
Qed.

Lemma rot_sb h x h' : sbh h -> rot h x = Ok h' -> sbh h'.
Proof.
  intros HS H. unfold rot in H. apply bind_inv in H. destruct H as (nx & Ex & H).
  destruct (n_fa nx) as [f|]; [|discriminate].
  apply bind_inv in H. destruct H as (nf & Ef & H).
  apply bind_inv in H. destruct H as (c & Ec & H). apply bind_inv in H. destruct H as (cc & Ecc & H).
  apply bind_inv in H. destruct H as (h1 & E1 & H). apply bind_inv in H. destruct H as (h2 & E2 & H).
  apply bind_inv in H. destruct H as (h3 & E3 & H).
  assert (S1 : sbh h1) by (eapply setc_sb; eauto). assert (S2 : sbh h2) by (eapply setc_sb; eauto).
  assert (S3 : sbh h3).
  { destruct (n_fa nf) as [g|].
    - apply bind_inv in E3. destruct E3 as (ng & Eg & E3). destruct (ptr_eqb _ _).
      + eapply setc_sb; eauto.
      + eapply modi_sb; [|exact S2|exact E3]. intros; apply nb_fa; auto.
    - eapply modi_sb; [|exact S2|exact E3]. intros; apply nb_fa; auto. }
  eapply push_up_sb; eauto.
Qed.

Lemma splay_loop_sb fuel : forall h x h', sbh h -> splay_loop fuel h x = Ok h' -> sbh h'.
Proof.
  induction fuel as [|fuel IH]; intros h x h' HS H; [discriminate|]. cbn [splay_loop] in H.
  apply bind_inv in H. destruct H as (r & Er & H). destruct r; [inversion H; subst; auto|].
  apply bind_inv in H. destruct H as (nx & Ex & H). destruct (n_fa nx) as [f|]; [|discriminate].
  apply bind_inv in H. destruct H as (rf & Erf & H). apply bind_inv in H. destruct H as (h1 & E1 & H).
  assert (S1 : sbh h1).
  { destruct rf; [inversion E1; subst; auto|]. apply bind_inv in E1. destruct E1 as (dx & Ed & E1).
    apply bind_inv in E1. destruct E1 as (df & Edf & E1). destruct (Bool.eqb dx df); eapply rot_sb; eauto. }
  apply bind_inv in H. destruct H as (h2 & E2 & H). eapply IH; [|exact H]. eapply rot_sb; eauto.
Qed.

(** ** update_add and push_down *)
Lemma update_add_chk_ok h c n w :
  nth_error h c = Some n -> nb n -> Z.abs (n_val n + w) <= C -> Z.abs (fst (n_min n) + w) <= C ->
  exists n', update_add_chk okd h c w = Ok (upd h c n') /\ update_add h c w = Ok (upd h c n') /\ nb n'.
Proof.
  intros E (B1 & B2 & B3) Hv Hm.
  exists (mkNode (n_fa n) (n_c0 n) (n_c1 n) (fst (n_min n) + w, snd (n_min n)) (n_val n + w) (n_add n + w)).
  split; [|split].
  - unfold update_add_chk. rewrite (ld_ok _ _ _ E). cbn [bind]. dz.
    rewrite !ckd_ok by lia. cbn [bind]. rewrite vset_ok by (eapply nth_error_lt; eauto). reflexivity.
  - unfold update_add. rewrite (modi_ok _ _ _ _ E). reflexivity.
  - split; [|split]; cbn [n_val n_add n_min fst]; lia.
Qed.

Definition bv (w : Z) (t : tree) : Prop := forall x v, In (x, v) (vals w t) -> Z.abs v <= C.

Lemma lmin_in L m : lmin L = Some m -> exists x, In (x, fst m) L.
Proof.
  revert m; induction L as [|[x v] L IH]; intros m; cbn [lmin]; [discriminate|].
  destruct (lmin L) as [m'|]; cbn [lmo].
  - unfold lm2. cbn [fst]. destruct (v <=? fst m'); intros H; inversion H; subst m.
    + exists x. simpl; auto.
    + destruct (IH _ eq_refl) as [y Hy]. exists y. simpl; auto.
  - intros H; inversion H; subst m. exists x. simpl; auto.
Qed.

Lemma child_bound w l x v a m r :
  allmins (Nd l x v a m r) -> bv w (Nd l x v a m r) -> Z.abs (v + w) <= C /\ Z.abs (fst m + w) <= C.
Proof.
  intros HA HB. split.
  - apply (HB x). cbn [vals]. apply in_or_app. simpl; auto.
  - destruct HA as (_ & _ & HA).
    assert (E : lmin (vals w (Nd l x v a m r)) = Some (fst m + w, snd m)).
    { rewrite vals_0, lmin_addw, HA. reflexivity. }
    apply lmin_in in E. destruct E as [y Hy]. exact (HB _ _ Hy).
Qed.

Lemma push_down_chk_ok h p l x v a m r h' :
  rep h p (Nd l x v a m r) -> NoDup (idx (Nd l x v a m r)) -> sbx x h ->
  allmins l -> allmins r -> bv 0 (Nd l x v a m r) ->
  push_down h x = Ok h' -> push_down_chk okd h x = Ok h' /\ sbh h'.
Proof.
  intros (H1 & H2 & H3) ND HS Al Ar HB. unfold push_down, push_down_chk. rewrite (ld_ok _ _ _ H1).
  cbn [bind n_add n_c0 n_c1]. dz.
  destruct (Z.eqb_spec a 0) as [->|Ha]; cbn [negb].
  { intros E; inversion E; subst; auto. split; auto. intros i n En.
    destruct (HS _ _ En) as (B1 & B2 & B3). destruct (Nat.eq_dec i x) as [->|Hi]; auto.
    rewrite H1 in En. inversion En; subst n. cbn [n_val n_add n_min] in *.
    split; [|split]; cbn [n_val n_add n_min]; rewrite ?Z.sub_0_r; auto. }
  assert (Nx : ~ In x (idx l ++ idx r)) by (simpl in ND; apply NoDup_remove_2 in ND; exact ND).
  assert (NDlr : NoDup (idx l ++ idx r)) by (simpl in ND; apply NoDup_remove_1 in ND; exact ND).
  assert (Bl : bv a l).
  { intros y u Hy. apply (HB y). cbn [vals]. apply in_or_app; left. exact Hy. }
  assert (Br : bv a r).
  { intros y u Hy. apply (HB y). cbn [vals]. apply in_or_app; right. right. exact Hy. }
  assert (G : exists h1, match root l with None => Ok h | Some c => update_add_chk okd h c a end = Ok h1 /\
     match root l with None => Ok h | Some c => update_add h c a end = Ok h1 /\ sbx x h1 /\
     forall i, ~ In i (idx l) -> nth_error h1 i = nth_error h i).
  { destruct l as [|ll lx lv la lm lr]; cbn [root]; [exists h; auto|].
    destruct H2 as (Nl & _). destruct (child_bound _ _ _ _ _ _ _ Al Bl) as [C1 C2].
    assert (Hlx : lx <> x) by (intros ->; apply Nx, in_or_app; left; cbn [idx]; apply in_or_app; simpl; auto).
    destruct (update_add_chk_ok h lx _ a Nl (proj2 (proj2 (HS _ _ Nl)) Hlx) C1 C2) as (n' & E1 & E2 & S').
    eexists; split; [exact E1|]. split; [exact E2|]. split; [apply sbx_upd; auto|].
    intros i Hi. apply nth_error_upd_neq. intros ->. apply Hi. cbn [idx]. apply in_or_app; simpl; auto. }
  destruct G as (h1 & E1 & E1' & S1 & F1). rewrite E1, E1'. cbn [bind].
  assert (G : exists h2, match root r with None => Ok h1 | Some c => update_add_chk okd h1 c a end = Ok h2 /\
     match root r with None => Ok h1 | Some c => update_add h1 c a end = Ok h2 /\ sbx x h2 /\
     nth_error h2 x = nth_error h1 x).
  { destruct r as [|rl rx rv ra rm rr]; cbn [root]; [exists h1; auto|].
    destruct H3 as (Nr & _). destruct (child_bound _ _ _ _ _ _ _ Ar Br) as [C1 C2].
    assert (Hrx : In rx (idx (Nd rl rx rv ra rm rr))) by (cbn [idx]; apply in_or_app; simpl; auto).
    assert (Nr1 : nth_error h1 rx = Some (mkNode (Some x) (root rl) (root rr) rm rv ra)).
    { rewrite F1; auto. intros Hi. exact (NoDup_app_disj _ _ rx NDlr Hi Hrx). }
    assert (Hrxx : rx <> x) by (intros ->; apply Nx, in_or_app; auto).
    destruct (update_add_chk_ok h1 rx _ a Nr1 (proj2 (proj2 (S1 _ _ Nr1)) Hrxx) C1 C2) as (n' & E2 & E3 & S').
    eexists; split; [exact E2|]. split; [exact E3|]. split; [apply sbx_upd; auto|].
    apply nth_error_upd_neq. intros ->. apply Nx, in_or_app; auto. }
  destruct G as (h2 & E2 & E2' & S2 & F2). rewrite E2, E2'. cbn [bind].
  intros E. split; auto. apply modi_inv in E. destruct E as (n & En & ->).
  apply sbx_fix; auto. rewrite F2, F1 in En by (intros Hi; apply Nx, in_or_app; auto).
  rewrite H1 in En. inversion En; subst n. unfold set_add_, nb; cbn [n_val n_add n_min n_fa n_c0 n_c1].
  destruct (HS _ _ H1) as (B1 & B2 & B3). cbn [n_val n_add n_min] in *. rewrite Z.sub_0_r. auto.
Qed.

Lemma vals_plug_in k t : Forall fr_ok k -> forall p, In p (vals 0 t) -> In p (vals 0 (plug k t)).
Proof.
  intros HK. revert t. induction HK as [|f k Hf HK IH]; intros t p Hp; cbn [plug]; auto.
  apply IH. destruct f; destruct Hf as [-> _]; cbn [plug1 vals]; rewrite ?Z.add_0_r; apply in_or_app; simpl; auto.
Qed.

Lemma pdfr_chk_ok fuel : forall k h p l x v a m r h',
  (length k < fuel)%nat ->
  rep h p (plug k (Nd l x v a m r)) -> NoDup (idx (plug k (Nd l x v a m r))) ->
  ext h p (idx (plug k (Nd l x v a m r))) -> submins (plug k (Nd l x v a m r)) ->
  (sbh h \/ k = [] /\ sbx x h) -> bv 0 (plug k (Nd l x v a m r)) ->
  push_down_from_root fuel h x = Ok h' -> pdfr_chk okd fuel h x = Ok h' /\ sbh h'.
Proof.
  induction fuel as [|fuel IH]; intros k h p l x v a m r h' Hf HR ND HE HM HS HB; [lia|].
  cbn [push_down_from_root pdfr_chk]. rewrite (is_root_ok _ _ _ _ _ _ _ _ _ HR ND HE). cbn [bind].
  destruct (submins_plug _ _ _ _ _ _ _ HM) as (Al & Ar & HK).
  destruct k as [|f k].
  - cbn [bind]. cbn [plug] in *. intros E. eapply push_down_chk_ok; eauto.
    destruct HS as [HS|[_ HS]]; auto. apply sbh_sbx; auto.
  - destruct HS as [HS|[HS _]]; [|discriminate].
    assert (HR0 := HR). apply rep_plug in HR0. destruct HR0 as [(Hx & _) _].
    rewrite (ld_ok _ _ _ Hx). cbn [bind n_fa kpar].
    assert (E1 : exists l1 v1 a1 m1 r1, plug1 f (Nd l x v a m r) = Nd l1 (fx f) v1 a1 m1 r1).
    { destruct f; simpl; eauto 8. }
    destruct E1 as (l1 & v1 & a1 & m1 & r1 & E1).
    assert (HR1 := HR). assert (ND1 := ND). assert (HE1 := HE). assert (HM1 := HM). assert (HB1 := HB).
    cbn [plug] in HR1, ND1, HE1, HM1, HB1.
    rewrite E1 in HR1, ND1, HE1, HM1, HB1.
    assert (Hf1 : (length k < fuel)%nat) by (simpl in Hf; lia).
    destruct (pdfr_ok one fuel k h p l1 (fx f) v1 a1 m1 r1 Hf1 HR1 ND1 HE1) as (h1 & E & R & S).
    destruct (IH k h p l1 (fx f) v1 a1 m1 r1 h1 Hf1 HR1 ND1 HE1 HM1 (or_introl HS) HB1 E) as [Ec S1].
    rewrite E, Ec. cbn [bind]. rewrite <- E1 in R.
    assert (R' : rep h1 p (plug (fst (pdk (f :: k))) (addt (snd (pdk (f :: k))) (Nd l x v a m r)))).
    { cbn [pdk]. destruct (pdk k) as [k' w]. cbn [fst snd] in R.
      destruct f; cbn [plug1 addt pd fst snd plug] in *; exact R. }
    clear R.
    assert (ND' : NoDup (idx (plug (fst (pdk (f :: k))) (addt (snd (pdk (f :: k))) (Nd l x v a m r))))).
    { apply nodup_plug_inv. rewrite idxk_pdk, idx_addt. apply nodup_plug with (k := f :: k). exact ND. }
    assert (HK' := pdk_ok (f :: k) HK).
    assert (HV := vals_pdk (f :: k) (Nd l x v a m r) 0).
    destruct (pdk (f :: k)) as [k' w] eqn:EK. cbn [fst snd] in *. cbn [addt] in R', ND', HV.
    apply rep_plug in R'. destruct R' as [R' _]. apply nodup_plug in ND'. apply NoDup_app_r in ND'.
    intros E2. eapply push_down_chk_ok; eauto; [apply sbh_sbx; auto|].
    intros y u Hy. apply (HB y). rewrite <- HV. apply vals_plug_in; auto.
Qed.

Theorem splay_chk_ok fuel h p t x :
  rep h p t -> NoDup (idx t) -> ext h p (idx t) -> submins t -> In x (idx t) ->
  (length (idx t) < fuel)%nat -> (sbh h \/ root t = Some x /\ sbx x h) -> bv 0 t ->
  exists h' l v m r, splay_chk okd fuel h x = Ok h' /\ sbh h' /\
    rep h' p (Nd l x v 0 m r) /\
    vals 0 (Nd l x v 0 m r) = vals 0 t /\
    allmins (Nd l x v 0 m r) /\
    same_off h h' (idx t).
Proof.
  intros HR ND HE HM Hx Hf HS HB.
  destruct (splay_ok one fuel h p t x HR ND HE HM Hx Hf) as (h' & l & v & m & r & E & R & V & A & S).
  exists h', l, v, m, r.
  assert (G : splay_chk okd fuel h x = Ok h' /\ sbh h'); [|destruct G; auto 10].
  unfold splay in E. apply bind_inv in E. destruct E as (h1 & E1 & E). apply bind_inv in E. destruct E as (h2 & E2 & E3).
  assert (F : exists k l v a m r, t = plug k (Nd l x v a m r) /\ (sbh h \/ k = [] /\ sbx x h)).
  { destruct HS as [HS|[Hr HS]].
    - destruct (focus t x Hx) as (k & l0 & v0 & a0 & m0 & r0 & ->). exists k, l0, v0, a0, m0, r0. auto.
    - destruct t as [|l0 y v0 a0 m0 r0]; [discriminate|]. inversion Hr; subst y.
      exists [], l0, v0, a0, m0, r0. auto. }
  destruct F as (k & l0 & v0 & a0 & m0 & r0 & -> & HS'). clear HS.
  assert (Lk : (length k < fuel)%nat).
  { assert (length k <= length (idx (plug k (Nd l0 x v0 a0 m0 r0))))%nat; [|lia].
    rewrite (Permutation_length (idx_plug k _)). rewrite app_length.
    assert (length k <= length (idxk k))%nat; [|lia].
    clear. induction k as [|f k IH]; simpl; [lia|]. rewrite app_length. destruct f; simpl; lia. }
  destruct (pdfr_chk_ok fuel k h p l0 x v0 a0 m0 r0 h1 Lk HR ND HE HM HS' HB E1) as [Ec S1].
  unfold splay_chk. rewrite Ec. cbn [bind]. rewrite E2. cbn [bind]. split; auto.
  eapply push_up_sb; [|exact E3]. eapply splay_loop_sb; eauto.
Qed.

End Bound.

Lemma sbh_le C C' h : C <= C' -> sbh C h -> sbh C' h.
Proof. intros HC H i n E. destruct (H i n E) as (H1 & H2 & H3). repeat split; lia. Qed.

(** every heap has some bound *)
Lemma sbh_exists h : exists C, 0 <= C /\ sbh C h.
Proof.
  induction h as [|n h IH].
  - exists 0. split; [lia|]. intros [|i] n E; discriminate.
  - destruct IH as (C & HC & IH).
    exists (C + Z.abs (n_val n) + Z.abs (n_add n) + Z.abs (fst (n_min n))). split; [lia|].
    intros [|i] n' E; cbn [nth_error] in E.
    + inversion E; subst n'. repeat split; lia.
    + destruct (IH _ _ E) as (H1 & H2 & H3). repeat split; lia.
Qed.

Lemma bound_exists (f : nat -> Z) N : exists C, 0 <= C /\ forall i, (i < N)%nat -> Z.abs (f i) <= C.
Proof.
  induction N as [|N IH].
  - exists 0. split; [lia|]. intros; lia.
  - destruct IH as (C & HC & IH). exists (C + Z.abs (f N)). split; [lia|].
    intros i Hi. destruct (Nat.eq_dec i N) as [->|Hn]; [lia|]. specialize (IH i ltac:(lia)). lia.
Qed.
