(** * Heap-level correctness of rot / push_down / splay *)
From Coq Require Import Permutation.
From Verif Require Import Base BaseLemmas Data LCT LCTTree.
Local Open Scope Z_scope.

Ltac dz := cbn [dzero done dadd dsub dopp dmuli dhalf dlt dle deq exact_ops] in *.

Section Heap.
Variable one : Z.
#[local] Hint Extern 0 (DataOps Z) => exact (exact_ops one) : typeclass_instances.

Lemma modi_ok (h : heap Z) x f nx :
  nth_error h x = Some nx -> modi h x f = Ok (upd h x (f nx)).
Proof.
  intros H. unfold modi, ld. rewrite (vget_ok _ _ _ H). simpl.
  apply vset_ok. eapply nth_error_lt; eauto.
Qed.

Lemma ld_ok (h : heap Z) x nx : nth_error h x = Some nx -> ld h x = Ok nx.
Proof. apply vget_ok. Qed.

Lemma ptr_eqb_spec p r : ptr_eqb p r = true <-> p = r.
Proof.
  destruct p, r; simpl; split; intros H; try congruence.
  - apply Nat.eqb_eq in H. congruence.
  - inversion H. apply Nat.eqb_refl.
Qed.

Lemma ptr_eqb_refl p : ptr_eqb p p = true.
Proof. apply ptr_eqb_spec. reflexivity. Qed.

Lemma ptr_eqb_neq p r : p <> r -> ptr_eqb p r = false.
Proof.
  intros H. destruct (ptr_eqb p r) eqn:E; [|reflexivity].
  apply ptr_eqb_spec in E. congruence.
Qed.

(** [same_off h h' L]: [h'] equals [h] outside [L] *)
Definition same_off (h h' : heap Z) (L : list nat) : Prop :=
  length h' = length h /\ forall i, ~ In i L -> nth_error h' i = nth_error h i.

Lemma same_off_refl h L : same_off h h L.
Proof. split; auto. Qed.

Lemma same_off_trans h1 h2 h3 L : same_off h1 h2 L -> same_off h2 h3 L -> same_off h1 h3 L.
Proof.
  intros [L1 H1] [L2 H2]; split; [congruence|].
  intros i Hi. rewrite H2, H1; auto.
Qed.

Lemma same_off_weaken h h' L L' : same_off h h' L -> incl L L' -> same_off h h' L'.
Proof. intros [H1 H2] HI; split; auto. Qed.

Lemma same_off_upd h x n L : In x L -> same_off h (upd h x n) L.
Proof.
  intros Hx; split; [apply upd_length|].
  intros i Hi. apply nth_error_upd_neq. congruence.
Qed.

Lemma same_off_on h h' L L' : same_off h h' L -> (forall i, In i L' -> ~ In i L) -> same_on h h' L'.
Proof. intros [_ H] HD i Hi. apply H; auto. Qed.

(** ** push_up *)
Lemma push_up_ok h x p v a m l r :
  nth_error h x = Some (mkNode p (root l) (root r) m v a) ->
  rep h (Some x) l -> rep h (Some x) r ->
  push_up h x = Ok (upd h x (mkNode p (root l) (root r) (pu l x v r) v a)).
Proof.
  intros Hx Hl Hr. unfold push_up. rewrite (ld_ok _ _ _ Hx). cbn [bind n_c0 n_c1 n_val].
  unfold pu.
  destruct l as [|ll lx lv la ml lr]; cbn [root] in *.
  - cbn [bind]. destruct r as [|rl rx rv ra mr rr]; cbn [root bind] in *.
    + rewrite (modi_ok _ _ _ _ Hx). reflexivity.
    + destruct Hr as (Hr & _). rewrite (ld_ok _ _ _ Hr). cbn [bind n_min].
      rewrite (modi_ok _ _ _ _ Hx). dz. reflexivity.
  - destruct Hl as (Hl & _). rewrite (ld_ok _ _ _ Hl). cbn [bind n_min].
    destruct r as [|rl rx rv ra mr rr]; cbn [root bind] in *.
    + rewrite (modi_ok _ _ _ _ Hx). dz. reflexivity.
    + destruct Hr as (Hr & _). rewrite (ld_ok _ _ _ Hr). cbn [bind n_min].
      rewrite (modi_ok _ _ _ _ Hx). dz. reflexivity.
Qed.

(** ** setc with a whole subtree *)
Lemma rep_new_father h h' p p' t c nc :
  NoDup (idx t) -> rep h p t -> root t = Some c -> nth_error h c = Some nc ->
  nth_error h' c = Some (set_fa_ p' nc) ->
  (forall i, In i (idx t) -> i <> c -> nth_error h' i = nth_error h i) ->
  rep h' p' t.
Proof.
  intros ND HR Hc Hnc Hnc' HS. destruct t as [|l x v a m r]; [exact I|].
  simpl in Hc. inversion Hc; subst c. destruct HR as (H1 & H2 & H3).
  rewrite H1 in Hnc. inversion Hnc; subst nc. simpl in ND.
  assert (Nx : ~ In x (idx l ++ idx r)) by (apply NoDup_remove_2 in ND; exact ND).
  repeat split.
  - exact Hnc'.
  - eapply rep_frame; [|exact H2]. intros i Hi. apply HS.
    + simpl. apply in_or_app; auto.
    + intros ->. apply Nx. apply in_or_app; auto.
  - eapply rep_frame; [|exact H3]. intros i Hi. apply HS.
    + simpl. apply in_or_app; simpl; auto.
    + intros ->. apply Nx. apply in_or_app; auto.
Qed.

Lemma setc_ok h x nx t p d :
  nth_error h x = Some nx -> rep h p t -> NoDup (idx t) -> ~ In x (idx t) ->
  exists h', setc h x (root t) d = Ok h' /\
    nth_error h' x = Some (set_ch_ d (root t) nx) /\
    rep h' (Some x) t /\ same_off h h' (x :: idx t).
Proof.
  intros Hx HR ND Nx. unfold setc. rewrite (modi_ok _ _ _ _ Hx). cbn [bind].
  assert (Lx : (x < length h)%nat) by (eapply nth_error_lt; eauto).
  destruct t as [|l c v a m r].
  - cbn [root]. eexists; split; [reflexivity|]. split; [|split].
    + apply nth_error_upd_eq; auto.
    + exact I.
    + apply same_off_upd. simpl; auto.
  - cbn [root]. assert (Hc := HR). destruct Hc as (Hc & _).
    assert (xc : x <> c) by (intros ->; apply Nx; simpl; apply in_or_app; simpl; auto).
    assert (Hc2 : nth_error (upd h x (set_ch_ d (Some c) nx)) c = Some (mkNode p (root l) (root r) m v a))
      by (rewrite nth_error_upd_neq; auto).
    rewrite (modi_ok _ _ _ _ Hc2). eexists; split; [reflexivity|].
    assert (Lc : (c < length (upd h x (set_ch_ d (Some c) nx)))%nat)
      by (eapply nth_error_lt; exact Hc2).
    split; [|split].
    + rewrite nth_error_upd_neq by auto. apply nth_error_upd_eq; auto.
    + eapply rep_new_father with (h := h) (p := p) (c := c); eauto.
      * apply nth_error_upd_eq; auto.
      * intros i Hi Hic. rewrite nth_error_upd_neq by auto. apply nth_error_upd_neq.
        intros ->. auto.
    + eapply same_off_trans.
      * apply same_off_upd with (x := x). simpl; auto.
      * apply same_off_upd. simpl. right. apply in_or_app; simpl; auto.
Qed.

(** ** External father: the auxiliary tree's root hangs below [p] by a path
    pointer only *)
Definition ext (h : heap Z) (p : option nat) (L : list nat) : Prop :=
  match p with
  | None => True
  | Some g => ~ In g L /\ exists ng, nth_error h g = Some ng /\
                forall i, In i L -> n_c0 ng <> Some i /\ n_c1 ng <> Some i
  end.

Lemma ext_perm h p L L' : Permutation L L' -> ext h p L -> ext h p L'.
Proof.
  intros HP. destruct p as [g|]; simpl; [|auto].
  intros (H1 & ng & H2 & H3). split.
  - intros Hi. apply H1. eapply Permutation_in; [symmetry; exact HP|exact Hi].
  - exists ng; split; auto. intros i Hi. apply H3.
    eapply Permutation_in; [symmetry; exact HP|exact Hi].
Qed.

Lemma ext_same h h' p L : same_off h h' L -> ext h p L -> ext h' p L.
Proof.
  destruct p as [g|]; simpl; [|auto].
  intros [_ HS] (H1 & ng & H2 & H3). split; auto.
  exists ng; split; auto. rewrite HS; auto.
Qed.

Lemma nodup_plug k t : NoDup (idx (plug k t)) -> NoDup (idxk k ++ idx t).
Proof. intros H. eapply Permutation_NoDup; [apply idx_plug|exact H]. Qed.

Lemma nodup_plug_inv k t : NoDup (idxk k ++ idx t) -> NoDup (idx (plug k t)).
Proof. intros H. eapply Permutation_NoDup; [symmetry; apply idx_plug|exact H]. Qed.

Lemma NoDup_app_l {A} (l1 l2 : list A) : NoDup (l1 ++ l2) -> NoDup l1.
Proof.
  induction l1 as [|x l1 IH]; simpl; intros H; constructor; inversion H as [|z zs Hn Hd]; subst; auto.
  intros Hi. apply Hn. apply in_or_app; auto.
Qed.

Lemma NoDup_app_r {A} (l1 l2 : list A) : NoDup (l1 ++ l2) -> NoDup l2.
Proof. induction l1 as [|x l1 IH]; simpl; intros H; auto. inversion H; auto. Qed.

Lemma NoDup_app_disj {A} (l1 l2 : list A) x : NoDup (l1 ++ l2) -> In x l1 -> In x l2 -> False.
Proof.
  induction l1 as [|y l1 IH]; simpl; [tauto|]. intros H [->|H1] H2; inversion H as [|z zs Hn Hd]; subst; auto.
  apply Hn. apply in_or_app; auto.
Qed.

Lemma NoDup_app_intro {A} (l1 l2 : list A) :
  NoDup l1 -> NoDup l2 -> (forall x, In x l1 -> In x l2 -> False) -> NoDup (l1 ++ l2).
Proof.
  induction l1 as [|y l1 IH]; simpl; intros H1 H2 H3; auto.
  inversion H1; subst. constructor.
  - intros Hi. apply in_app_or in Hi. destruct Hi; [auto|]. eapply H3; eauto.
  - apply IH; auto. intros z Hz1 Hz2. eapply H3; eauto.
Qed.

Definition is_FR (f : frame) : bool := match f with FL _ _ _ _ _ => false | FR _ _ _ _ _ => true end.

Lemma is_root_ok h p k l x v a m r :
  rep h p (plug k (Nd l x v a m r)) -> NoDup (idx (plug k (Nd l x v a m r))) ->
  ext h p (idx (plug k (Nd l x v a m r))) ->
  is_root h x = Ok (match k with [] => true | _ => false end).
Proof.
  intros HR ND HE. apply rep_plug in HR. destruct HR as [(Hx & _) HK].
  unfold is_root. rewrite (ld_ok _ _ _ Hx). cbn [bind n_fa].
  destruct k as [|f k]; cbn [kpar].
  - destruct p as [g|]; [|reflexivity].
    destruct HE as (_ & ng & Hg & HE). rewrite (ld_ok _ _ _ Hg). cbn [bind].
    destruct (HE x) as [E0 E1]; [simpl; apply in_or_app; simpl; auto|].
    rewrite (ptr_eqb_neq _ _ E0), (ptr_eqb_neq _ _ E1). reflexivity.
  - destruct HK as [H1 _]. destruct f; cbn [rep1 fx] in *; destruct H1 as [Hf _];
      rewrite (ld_ok _ _ _ Hf); cbn [bind n_c0 n_c1 root]; rewrite ptr_eqb_refl;
      simpl; rewrite ?andb_false_r; reflexivity.
Qed.

Lemma dir_ok h p f k l x v a m r :
  rep h p (plug (f :: k) (Nd l x v a m r)) -> NoDup (idx (plug (f :: k) (Nd l x v a m r))) ->
  dir h x = Ok (is_FR f).
Proof.
  intros HR ND. apply nodup_plug in ND. apply rep_plug in HR. destruct HR as [(Hx & _) HK].
  unfold dir. rewrite (ld_ok _ _ _ Hx). cbn [bind n_fa kpar].
  destruct HK as [H1 _]. destruct f; cbn [rep1 fx] in *; destruct H1 as [Hf _];
    rewrite (ld_ok _ _ _ Hf); cbn [bind n_c0 n_c1 root is_FR].
  - rewrite ptr_eqb_neq; [reflexivity|]. intros E.
    eapply NoDup_app_disj; [exact ND| |].
    + apply root_in_idx in E. simpl. right. apply in_or_app. left. exact E.
    + simpl. apply in_or_app; simpl; auto.
  - rewrite ptr_eqb_refl. reflexivity.
Qed.

(** ** push_down *)
Lemma update_add_ok h p t c w :
  rep h p t -> NoDup (idx t) -> root t = Some c ->
  exists h', update_add h c w = Ok h' /\ rep h' p (addt w t) /\ same_off h h' [c].
Proof.
  intros HR ND Hc. destruct t as [|l x v a m r]; simpl in Hc; [congruence|].
  inversion Hc; subst c. destruct HR as (H1 & H2 & H3).
  unfold update_add. rewrite (modi_ok _ _ _ _ H1). eexists; split; [reflexivity|].
  assert (Lx : (x < length h)%nat) by (eapply nth_error_lt; eauto).
  assert (Nx : ~ In x (idx l ++ idx r)) by (simpl in ND; apply NoDup_remove_2 in ND; exact ND).
  cbn [n_fa n_c0 n_c1 n_min n_val n_add]. dz. split.
  - simpl. repeat split.
    + apply nth_error_upd_eq; auto.
    + eapply rep_frame; [|exact H2]. intros i Hi. apply nth_error_upd_neq. intros ->.
      apply Nx, in_or_app; auto.
    + eapply rep_frame; [|exact H3]. intros i Hi. apply nth_error_upd_neq. intros ->.
      apply Nx, in_or_app; auto.
  - apply same_off_upd. simpl; auto.
Qed.

Lemma update_add_opt_ok h p t w :
  rep h p t -> NoDup (idx t) ->
  exists h', match root t with None => Ok h | Some c => update_add h c w end = Ok h' /\
    rep h' p (addt w t) /\ same_off h h' (idx t).
Proof.
  intros HR ND. destruct (root t) as [c|] eqn:E.
  - destruct (update_add_ok h p t c w HR ND E) as (h' & E1 & R1 & S1).
    exists h'; repeat split; auto; try apply S1.
    intros i Hi. apply S1. simpl. intros [->|[]]. apply Hi. apply root_in_idx; auto.
  - destruct t; [|discriminate]. exists h; repeat split; auto.
Qed.

Lemma push_down_ok h p l x v a m r :
  rep h p (Nd l x v a m r) -> NoDup (idx (Nd l x v a m r)) ->
  exists h', push_down h x = Ok h' /\ rep h' p (pd (Nd l x v a m r)) /\
    same_off h h' (idx (Nd l x v a m r)).
Proof.
  intros (H1 & H2 & H3) ND. unfold push_down. rewrite (ld_ok _ _ _ H1).
  cbn [bind n_add n_c0 n_c1]. dz.
  destruct (Z.eqb_spec a 0) as [->|Ha]; cbn [negb].
  - exists h. split; [reflexivity|]. cbn [pd]. rewrite !addt_0. split; [simpl; auto|apply same_off_refl].
  - assert (ND' := ND). simpl in ND'.
    assert (Nx : ~ In x (idx l ++ idx r)) by (apply NoDup_remove_2 in ND'; exact ND').
    assert (NDl : NoDup (idx l)) by (eapply NoDup_app_l; exact ND').
    assert (NDr : NoDup (idx r)) by (apply NoDup_app_r in ND'; inversion ND'; auto).
    assert (NDlr : NoDup (idx l ++ idx r)) by (apply NoDup_remove_1 in ND'; exact ND').
    destruct (update_add_opt_ok h _ l a H2 NDl) as (h1 & E1 & R1 & S1).
    rewrite E1. cbn [bind].
    assert (H3' : rep h1 (Some x) r).
    { eapply rep_frame; [|exact H3]. intros i Hi. apply S1. intros Hl.
      eapply NoDup_app_disj; [exact NDlr| |]; eauto. }
    destruct (update_add_opt_ok h1 _ r a H3' NDr) as (h2 & E2 & R2 & S2).
    rewrite E2. cbn [bind].
    assert (Hx2 : nth_error h2 x = Some (mkNode p (root l) (root r) m v a)).
    { rewrite (proj2 S2), (proj2 S1); auto; intros Hi; apply Nx, in_or_app; auto. }
    rewrite (modi_ok _ _ _ _ Hx2). eexists; split; [reflexivity|].
    assert (Lx : (x < length h2)%nat) by (eapply nth_error_lt; eauto).
    split.
    + cbn [pd rep]. rewrite !root_addt. repeat split.
      * apply nth_error_upd_eq; auto.
      * eapply rep_frame; [|exact R1]. rewrite idx_addt. intros i Hi.
        rewrite nth_error_upd_neq by (intros ->; apply Nx, in_or_app; auto).
        apply S2. intros Hr. eapply NoDup_app_disj; [exact NDlr| |]; eauto.
      * eapply rep_frame; [|exact R2]. rewrite idx_addt. intros i Hi.
        apply nth_error_upd_neq. intros ->; apply Nx, in_or_app; auto.
    + eapply same_off_trans; [eapply same_off_weaken; [exact S1|]|].
      * intros i Hi; simpl; apply in_or_app; auto.
      * eapply same_off_trans; [eapply same_off_weaken; [exact S2|]|].
        -- intros i Hi; simpl; apply in_or_app; simpl; auto.
        -- apply same_off_upd. simpl. apply in_or_app; simpl; auto.
Qed.

(** ** push_down_from_root *)
Fixpoint pdk (k : list frame) : list frame * Z :=
  match k with
  | [] => ([], 0)
  | f :: k =>
      let (k', w) := pdk k in
      match f with
      | FL x v a m r => (FL x (v + w) 0 (fst m + w, snd m) (addt (a + w) r) :: k', a + w)
      | FR l x v a m => (FR (addt (a + w) l) x (v + w) 0 (fst m + w, snd m) :: k', a + w)
      end
  end.

Lemma idxk_pdk k : idxk (fst (pdk k)) = idxk k.
Proof.
  induction k as [|f k IH]; simpl; [reflexivity|].
  destruct (pdk k) as [k' w]; simpl in *.
  destruct f; simpl; rewrite idx_addt, IH; reflexivity.
Qed.

Lemma length_pdk k : length (fst (pdk k)) = length k.
Proof.
  induction k as [|f k IH]; simpl; [reflexivity|].
  destruct (pdk k) as [k' w]; simpl in *. destruct f; simpl; congruence.
Qed.

Lemma push_down_at h p k l x v a m r :
  rep h p (plug k (Nd l x v a m r)) -> NoDup (idx (plug k (Nd l x v a m r))) ->
  exists h', push_down h x = Ok h' /\ rep h' p (plug k (pd (Nd l x v a m r))) /\
    same_off h h' (idx (Nd l x v a m r)).
Proof.
  intros HR ND. apply rep_plug in HR. destruct HR as [HT HK]. apply nodup_plug in ND.
  assert (NDt := NoDup_app_r _ _ ND).
  destruct (push_down_ok h _ l x v a m r HT NDt) as (h' & E & R & S).
  exists h'; split; auto. split; auto. apply rep_plug. split; auto.
  cbn [pd root]. eapply repk_frame; [|exact HK]. intros i Hi. apply S.
  intros Hi'. exact (NoDup_app_disj _ _ i ND Hi Hi').
Qed.

Lemma pdfr_ok fuel : forall k h p l x v a m r,
  (length k < fuel)%nat ->
  rep h p (plug k (Nd l x v a m r)) -> NoDup (idx (plug k (Nd l x v a m r))) ->
  ext h p (idx (plug k (Nd l x v a m r))) ->
  exists h', push_down_from_root fuel h x = Ok h' /\
    rep h' p (plug (fst (pdk k)) (pd (addt (snd (pdk k)) (Nd l x v a m r)))) /\
    same_off h h' (idx (plug k (Nd l x v a m r))).
Proof.
  induction fuel as [|fuel IH]; intros k h p l x v a m r Hf HR ND HE; [lia|].
  cbn [push_down_from_root]. rewrite (is_root_ok _ _ _ _ _ _ _ _ _ HR ND HE). cbn [bind].
  destruct k as [|f k].
  - cbn [bind pdk fst snd]. rewrite addt_0.
    destruct (push_down_at h p [] l x v a m r HR ND) as (h' & E & R & S).
    exists h'; auto.
  - assert (HR0 := HR). apply rep_plug in HR0. destruct HR0 as [(Hx & _) _].
    rewrite (ld_ok _ _ _ Hx). cbn [bind n_fa kpar].
    cbn [plug] in HR, ND, HE.
    assert (E1 : exists l1 v1 a1 m1 r1, plug1 f (Nd l x v a m r) = Nd l1 (fx f) v1 a1 m1 r1).
    { destruct f; simpl; eauto 8. }
    destruct E1 as (l1 & v1 & a1 & m1 & r1 & E1).
    assert (HR1 := HR). assert (ND1 := ND). assert (HE1 := HE).
    rewrite E1 in HR1, ND1, HE1.
    destruct (IH k h p l1 (fx f) v1 a1 m1 r1) as (h1 & E & R & S); auto; [simpl in Hf; lia|].
    rewrite E. cbn [bind]. rewrite <- E1 in R, S.
    assert (R' : rep h1 p (plug (fst (pdk (f :: k))) (addt (snd (pdk (f :: k))) (Nd l x v a m r)))).
    { cbn [pdk]. destruct (pdk k) as [k' w]. cbn [fst snd] in R.
      destruct f; cbn [plug1 addt pd fst snd plug] in *; exact R. }
    clear R.
    assert (ND' : NoDup (idx (plug (fst (pdk (f :: k))) (addt (snd (pdk (f :: k))) (Nd l x v a m r))))).
    { apply nodup_plug_inv. rewrite idxk_pdk, idx_addt. apply nodup_plug with (k := f :: k). exact ND. }
    destruct (pdk (f :: k)) as [k' w] eqn:EK. cbn [fst snd] in *.
    cbn [addt] in R', ND' |- *.
    destruct (push_down_at _ _ _ _ _ _ _ _ _ R' ND') as (h2 & E2 & R2 & S2).
    exists h2; split; auto. split; auto.
    eapply same_off_trans; [exact S|].
    eapply same_off_weaken; [exact S2|].
    intros i Hi. change (In i (idx (plug (f :: k) (Nd l x v a m r)))).
    eapply Permutation_in; [symmetry; apply idx_plug|]. apply in_or_app; right.
    simpl in Hi |- *. exact Hi.
Qed.

(** ** rot *)
Definition rotated (f : frame) (l : tree) (x : nat) (v a : Z) (m : Z * option nat) (r : tree) : tree :=
  match f with
  | FL y vy ay my s => Nd l x v a m (Nd r y vy ay (pu r y vy s) s)
  | FR s y vy ay my => Nd (Nd s y vy ay (pu s y vy l) l) x v a m r
  end.

Lemma idx_rotated f l x v a m r :
  Permutation (idx (rotated f l x v a m r)) (idx1 f ++ idx (Nd l x v a m r)).
Proof.
  destruct f as [y vy ay my s|s y vy ay my]; simpl.
  - transitivity ((idx l ++ x :: idx r) ++ y :: idx s).
    + rewrite <- app_assoc. reflexivity.
    + rewrite Permutation_app_comm. reflexivity.
  - rewrite <- app_assoc. simpl. rewrite <- Permutation_middle. reflexivity.
Qed.

Lemma root_rotated f l x v a m r : root (rotated f l x v a m r) = Some x.
Proof. destruct f; reflexivity. Qed.

Lemma rot_top h p k x y nx :
  nth_error h x = Some nx ->
  repk h p k (Some y) -> NoDup (idxk k) -> ~ In x (idxk k) ->
  ext h p [x; y] ->
  exists h', (match kpar k p with
           | None => modi h x (set_fa_ None)
           | Some g =>
               ng <- ld h g ;;
               if ptr_eqb (ch ng (match k with [] => false | f :: _ => is_FR f end)) (Some y)
               then setc h g (Some x) (match k with [] => false | f :: _ => is_FR f end)
               else modi h x (set_fa_ (kpar k p))
           end) = Ok h' /\
    nth_error h' x = Some (set_fa_ (kpar k p) nx) /\
    repk h' p k (Some x) /\ same_off h h' (x :: idxk k).
Proof.
  intros Hx HK ND Nx HE.
  assert (Lx : (x < length h)%nat) by (eapply nth_error_lt; eauto).
  destruct k as [|f k]; cbn [kpar].
  - destruct p as [g|].
    + destruct HE as (Hg & ng & Eg & HE). rewrite (ld_ok _ _ _ Eg). cbn [bind ch].
      destruct (HE y) as [E0 _]; [simpl; auto|]. rewrite (ptr_eqb_neq _ _ E0).
      rewrite (modi_ok _ _ _ _ Hx). eexists; split; [reflexivity|].
      split; [apply nth_error_upd_eq; auto|]. split; [exact I|].
      apply same_off_upd; simpl; auto.
    + rewrite (modi_ok _ _ _ _ Hx). eexists; split; [reflexivity|].
      split; [apply nth_error_upd_eq; auto|]. split; [exact I|].
      apply same_off_upd; simpl; auto.
  - destruct HK as [H1 HK].
    assert (Ng : fx f <> x).
    { intros E. apply Nx. simpl. apply in_or_app. left. destruct f; simpl in *; auto. }
    assert (Hg : exists ng, nth_error h (fx f) = Some ng /\ ch ng (is_FR f) = Some y).
    { destruct f; simpl in *; destruct H1 as [H1 _]; rewrite H1; eexists; split; reflexivity. }
    destruct Hg as (ng & Eg & Ech). rewrite (ld_ok _ _ _ Eg). cbn [bind].
    rewrite Ech, ptr_eqb_refl. unfold setc. rewrite (modi_ok _ _ _ _ Eg). cbn [bind].
    assert (Hx' : nth_error (upd h (fx f) (set_ch_ (is_FR f) (Some x) ng)) x = Some nx)
      by (rewrite nth_error_upd_neq; auto).
    rewrite (modi_ok _ _ _ _ Hx'). eexists; split; [reflexivity|].
    assert (Lg : (fx f < length h)%nat) by (eapply nth_error_lt; eauto).
    simpl in ND.
    split; [apply nth_error_upd_eq; rewrite upd_length; auto|]. split.
    + split.
      * assert (NDf := NoDup_app_l _ _ ND).
        destruct f as [z vz az mz s|s z vz az mz]; cbn [rep1 fx is_FR] in *;
          destruct H1 as [H1 H1s]; rewrite H1 in Eg; inversion Eg; subst ng; split.
        -- rewrite nth_error_upd_neq by auto. rewrite nth_error_upd_eq by auto. reflexivity.
        -- eapply rep_frame; [|exact H1s]. intros i Hi.
           rewrite nth_error_upd_neq
             by (intros ->; apply Nx; simpl; right; apply in_or_app; left; exact Hi).
           apply nth_error_upd_neq. intros ->. simpl in NDf. inversion NDf; auto.
        -- rewrite nth_error_upd_neq by auto. rewrite nth_error_upd_eq by auto. reflexivity.
        -- eapply rep_frame; [|exact H1s]. intros i Hi.
           rewrite nth_error_upd_neq
             by (intros ->; apply Nx; simpl; right; apply in_or_app; left; exact Hi).
           apply nth_error_upd_neq. intros ->. simpl in NDf. inversion NDf; auto.
      * eapply repk_frame; [|exact HK]. intros i Hi.
        rewrite nth_error_upd_neq
          by (intros ->; apply Nx; simpl; apply in_or_app; right; exact Hi).
        apply nth_error_upd_neq. intros E. eapply NoDup_app_disj; [exact ND| |exact Hi].
        subst i. destruct f; simpl; auto.
    + eapply same_off_trans; apply same_off_upd; simpl; auto.
      right. apply in_or_app. left. destruct f; simpl; auto.
Qed.

Lemma rot_ok h p f k l x v a m r :
  rep h p (plug (f :: k) (Nd l x v a m r)) -> NoDup (idx (plug (f :: k) (Nd l x v a m r))) ->
  ext h p (idx (plug (f :: k) (Nd l x v a m r))) ->
  exists h', rot h x = Ok h' /\ rep h' p (plug k (rotated f l x v a m r)) /\
    same_off h h' (idx (plug (f :: k) (Nd l x v a m r))).
Proof.
  intros HR ND HE. assert (HD := dir_ok _ _ _ _ _ _ _ _ _ _ HR ND).
  assert (HE' := ext_perm _ _ _ _ (idx_plug (f :: k) _) HE).
  apply nodup_plug in ND.
  assert (IN : incl (idxk (f :: k) ++ idx (Nd l x v a m r)) (idx (plug (f :: k) (Nd l x v a m r)))).
  { intros i Hi. eapply Permutation_in; [symmetry; apply idx_plug|exact Hi]. }
  assert (HD2 : match kpar k p with None => Ok false | Some _ => dir h (fx f) end
                = Ok (match k with [] => false | f2 :: _ => is_FR f2 end)).
  { cbn [plug] in HR. assert (exists l1 v1 a1 m1 r1, plug1 f (Nd l x v a m r) = Nd l1 (fx f) v1 a1 m1 r1) as (l1&v1&a1&m1&r1&E1).
    { destruct f; simpl; eauto 8. }
    destruct k as [|f2 k2].
    - cbn [kpar]. destruct p as [g|]; [|reflexivity].
      rewrite E1 in HR. cbn [plug] in HR. destruct HR as [Hf _].
      unfold dir. rewrite (ld_ok _ _ _ Hf). cbn [bind n_fa].
      destruct HE' as (_ & ng & Eg & HE2). rewrite (ld_ok _ _ _ Eg). cbn [bind].
      rewrite ptr_eqb_neq; [reflexivity|]. apply HE2. simpl. destruct f; simpl; auto.
    - cbn [kpar]. rewrite E1 in HR. eapply dir_ok; [exact HR|].
      rewrite <- E1. apply (nodup_plug_inv (f :: f2 :: k2)). exact ND. }
  apply rep_plug in HR. destruct HR as [(Hx & Hl & Hr) [H1 HK]].
  cbn [kpar] in Hx.
  unfold rot. rewrite (ld_ok _ _ _ Hx). cbn [bind n_fa].
  assert (Nxk : ~ In x (idxk k)).
  { intros Hi. eapply NoDup_app_disj with (x := x); [exact ND| |].
    - simpl. apply in_or_app; auto.
    - simpl. apply in_or_app; simpl; auto. }
  assert (NDk : NoDup (idxk k)).
  { apply NoDup_app_l in ND. simpl in ND. apply NoDup_app_r in ND. exact ND. }
  assert (NDt := NoDup_app_r _ _ ND). cbn [idx] in NDt.
  assert (NDl : NoDup (idx l)) by (eapply NoDup_app_l; exact NDt).
  assert (NDr : NoDup (idx r)) by (apply NoDup_app_r in NDt; inversion NDt; auto).
  assert (Nxlr : ~ In x (idx l ++ idx r)) by (apply NoDup_remove_2 in NDt; exact NDt).
  assert (Dlr : forall i, In i (idx l) -> In i (idx r) -> False).
  { intros i. apply NoDup_remove_1 in NDt. apply NoDup_app_disj. exact NDt. }
  assert (Hf : exists nf, nth_error h (fx f) = Some nf /\ n_fa nf = kpar k p).
  { destruct f; cbn [rep1 fx] in *; destruct H1 as [H1 _]; rewrite H1; eauto. }
  destruct Hf as (nf & Ef & Efa). rewrite (ld_ok _ _ _ Ef). cbn [bind]. rewrite Efa.
  rewrite HD. cbn [bind]. rewrite HD2. cbn [bind].
  assert (D1 : forall i, In i (idx1 f) -> In i (idxk k) -> False).
  { intros i. apply NoDup_app_l in ND. simpl in ND. apply NoDup_app_disj. exact ND. }
  assert (D2 : forall i, In i (idx1 f) -> In i (idx l ++ x :: idx r) -> False).
  { intros i H2 H3. eapply NoDup_app_disj with (x := i); [exact ND| |exact H3].
    simpl. apply in_or_app; auto. }
  assert (D3 : forall i, In i (idxk k) -> In i (idx l ++ x :: idx r) -> False).
  { intros i H2 H3. eapply NoDup_app_disj with (x := i); [exact ND| |exact H3].
    simpl. apply in_or_app; auto. }
  assert (ND1 : NoDup (idx1 f)).
  { apply NoDup_app_l in ND. simpl in ND. apply NoDup_app_l in ND. exact ND. }
  destruct f as [y vy ay my s|s y vy ay my]; cbn [fx is_FR negb ch n_c0 n_c1 rep1 rotated idx1] in *.
  - destruct H1 as [Hy Hs]. rewrite Hy in Ef. inversion Ef; subst nf. clear Ef Efa.
    assert (yx : y <> x).
    { intros ->. eapply D2; simpl; [left; reflexivity|]. apply in_or_app; simpl; auto. }
    assert (Nyr : ~ In y (idx r)).
    { intros Hi. eapply D2; simpl; [left; reflexivity|]. apply in_or_app; simpl; auto. }
    assert (Nyl : ~ In y (idx l)).
    { intros Hi. eapply D2; simpl; [left; reflexivity|]. apply in_or_app; simpl; auto. }
    assert (Nys : ~ In y (idx s)) by (inversion ND1; auto).
    assert (Nyk : ~ In y (idxk k)) by (intros Hi; eapply D1; [left; reflexivity|exact Hi]).
    (* f->setc(ch[1], 0) *)
    destruct (setc_ok h y _ r _ false Hy Hr NDr Nyr) as (h1 & E1 & Hy1 & Hr1 & S1).
    rewrite E1. cbn [bind].
    assert (Hx1 : nth_error h1 x = Some (mkNode (Some y) (root l) (root r) m v a)).
    { rewrite (proj2 S1); [exact Hx|]. simpl. intros [E|Hi]; [congruence|]. apply Nxlr, in_or_app; auto. }
    (* this->setc(f, 1) *)
    unfold setc at 1. rewrite (modi_ok _ _ _ _ Hx1). cbn [bind].
    set (h2 := upd h1 x _).
    assert (Hy2 : nth_error h2 y = Some (set_ch_ false (root r) (mkNode (kpar k p) (Some x) (root s) my vy ay))).
    { unfold h2. rewrite nth_error_upd_neq by auto. exact Hy1. }
    rewrite (modi_ok _ _ _ _ Hy2). cbn [bind].
    set (h3 := upd h2 y _).
    assert (L2 : length h2 = length h) by (unfold h2; rewrite upd_length; apply S1).
    assert (Lx : (x < length h)%nat) by (eapply nth_error_lt; eauto).
    assert (Ly : (y < length h)%nat) by (eapply nth_error_lt; eauto).
    assert (Hx3 : nth_error h3 x = Some (set_ch_ true (Some y) (mkNode (Some y) (root l) (root r) m v a))).
    { unfold h3. rewrite nth_error_upd_neq by auto. unfold h2. apply nth_error_upd_eq.
      eapply nth_error_lt; exact Hx1. }
    assert (Hy3 : nth_error h3 y = Some (mkNode (Some x) (root r) (root s) my vy ay)).
    { unfold h3. rewrite nth_error_upd_eq by lia. reflexivity. }
    assert (S3 : same_off h h3 (y :: x :: idx r)).
    { eapply same_off_trans; [eapply same_off_weaken; [exact S1|]|].
      - intros i [<-|Hi]; simpl; auto.
      - eapply same_off_trans; [apply (same_off_upd h1 x); simpl; auto|].
        apply same_off_upd; simpl; auto. }
    assert (HK3 : repk h3 p k (Some y)).
    { eapply repk_frame; [|exact HK]. intros i Hi. apply S3.
      simpl. intros [<-|[<-|Hi2]]; [auto|auto|]. eapply D3; [exact Hi|]. apply in_or_app; simpl; auto. }
    assert (HE3 : ext h3 p [x; y]).
    { assert (Hsub : forall i, In i [x; y] -> In i (idxk (FL y vy ay my s :: k) ++ idx (Nd l x v a m r))).
      { intros i [<-|[<-|[]]]; simpl.
        - right. apply in_or_app; right. apply in_or_app; simpl; auto.
        - left; reflexivity. }
      destruct p as [g|]; [|exact I]. destruct HE' as (Hg & ng & Eg & HE2). split.
      - intros Hi. apply Hg. apply Hsub; auto.
      - exists ng. split.
        + rewrite (proj2 S3); [exact Eg|]. intros Hi. apply Hg.
          destruct Hi as [<-|[<-|Hi]].
          * apply Hsub; simpl; auto.
          * apply Hsub; simpl; auto.
          * apply in_or_app; right. simpl. apply in_or_app; simpl; auto.
        + intros i Hi. apply HE2, Hsub, Hi. }
    destruct (rot_top h3 p k x y _ Hx3 HK3 NDk Nxk HE3) as (h4 & E4 & Hx4 & HK4 & S4).
    rewrite E4. cbn [bind].
    assert (Hy4 : nth_error h4 y = Some (mkNode (Some x) (root r) (root s) my vy ay)).
    { rewrite (proj2 S4); [exact Hy3|]. simpl. intros [E|Hi]; [congruence|auto]. }
    assert (Hr4 : rep h4 (Some y) r).
    { eapply rep_frame; [|exact Hr1]. intros i Hi.
      assert (i <> x) by (intros ->; apply Nxlr, in_or_app; auto).
      assert (i <> y) by (intros ->; auto).
      rewrite (proj2 S4).
      - unfold h3. rewrite nth_error_upd_neq by auto. unfold h2. apply nth_error_upd_neq; auto.
      - simpl. intros [E|Hi2]; [congruence|]. eapply D3; [exact Hi2|]. apply in_or_app; simpl; auto. }
    assert (Hs4 : rep h4 (Some y) s).
    { eapply rep_frame; [|exact Hs]. intros i Hi.
      rewrite (proj2 S4), (proj2 S3); auto.
      - simpl. intros [E|[E|Hi2]]; [subst; auto| |].
        + subst i. eapply D2; [right; exact Hi|]. apply in_or_app; simpl; auto.
        + eapply D2; [right; exact Hi|]. apply in_or_app; simpl; auto.
      - simpl. intros [E|Hi2].
        + subst i. eapply D2; [right; exact Hi|]. apply in_or_app; simpl; auto.
        + eapply D1; [right; exact Hi|exact Hi2]. }
    rewrite (push_up_ok _ _ _ _ _ _ _ _ Hy4 Hr4 Hs4).
    eexists; split; [reflexivity|].
    assert (L4 : length h4 = length h) by (rewrite (proj1 S4); apply S3).
    split.
    + apply rep_plug. split.
      * cbn [rep root]. repeat split.
        -- rewrite nth_error_upd_neq by auto. exact Hx4.
        -- eapply rep_frame; [|exact Hl]. intros i Hi.
           rewrite nth_error_upd_neq by (intros ->; auto).
           rewrite (proj2 S4), (proj2 S3); auto.
           ++ simpl. intros [E|[E|Hi2]]; [subst; auto| |eapply Dlr; eauto].
              subst i. apply Nxlr, in_or_app; auto.
           ++ simpl. intros [E|Hi2].
              ** subst i. apply Nxlr, in_or_app; auto.
              ** eapply D3; [exact Hi2|]. apply in_or_app; simpl; auto.
        -- apply nth_error_upd_eq. lia.
        -- eapply rep_frame; [|exact Hr4]. intros i Hi. apply nth_error_upd_neq. intros ->; auto.
        -- eapply rep_frame; [|exact Hs4]. intros i Hi. apply nth_error_upd_neq. intros ->; auto.
      * cbn [root]. eapply repk_frame; [|exact HK4]. intros i Hi. apply nth_error_upd_neq. intros ->; auto.
    + eapply same_off_weaken; [|exact IN].
      eapply same_off_trans; [eapply same_off_weaken; [exact S3|]|].
      * intros i [<-|[<-|Hi]]; simpl; auto; right; apply in_or_app; right; apply in_or_app; simpl; auto.
      * eapply same_off_trans; [eapply same_off_weaken; [exact S4|]|].
        -- intros i [<-|Hi]; simpl; right; apply in_or_app; [right; apply in_or_app; simpl; auto|left; apply in_or_app; auto].
        -- apply same_off_upd. simpl; auto.
  - destruct H1 as [Hy Hs]. rewrite Hy in Ef. inversion Ef; subst nf. clear Ef Efa.
    assert (yx : y <> x).
    { intros ->. eapply D2; simpl; [left; reflexivity|]. apply in_or_app; simpl; auto. }
    assert (Nyr : ~ In y (idx r)).
    { intros Hi. eapply D2; simpl; [left; reflexivity|]. apply in_or_app; simpl; auto. }
    assert (Nyl : ~ In y (idx l)).
    { intros Hi. eapply D2; simpl; [left; reflexivity|]. apply in_or_app; simpl; auto. }
    assert (Nys : ~ In y (idx s)) by (inversion ND1; auto).
    assert (Nyk : ~ In y (idxk k)) by (intros Hi; eapply D1; [left; reflexivity|exact Hi]).
    (* f->setc(ch[0], 1) *)
    destruct (setc_ok h y _ l _ true Hy Hl NDl Nyl) as (h1 & E1 & Hy1 & Hl1 & S1).
    rewrite E1. cbn [bind].
    assert (Hx1 : nth_error h1 x = Some (mkNode (Some y) (root l) (root r) m v a)).
    { rewrite (proj2 S1); [exact Hx|]. simpl. intros [E|Hi]; [congruence|]. apply Nxlr, in_or_app; auto. }
    (* this->setc(f, 0) *)
    unfold setc at 1. rewrite (modi_ok _ _ _ _ Hx1). cbn [bind].
    set (h2 := upd h1 x _).
    assert (Hy2 : nth_error h2 y = Some (set_ch_ true (root l) (mkNode (kpar k p) (root s) (Some x) my vy ay))).
    { unfold h2. rewrite nth_error_upd_neq by auto. exact Hy1. }
    rewrite (modi_ok _ _ _ _ Hy2). cbn [bind].
    set (h3 := upd h2 y _).
    assert (L2 : length h2 = length h) by (unfold h2; rewrite upd_length; apply S1).
    assert (Lx : (x < length h)%nat) by (eapply nth_error_lt; eauto).
    assert (Ly : (y < length h)%nat) by (eapply nth_error_lt; eauto).
    assert (Hx3 : nth_error h3 x = Some (set_ch_ false (Some y) (mkNode (Some y) (root l) (root r) m v a))).
    { unfold h3. rewrite nth_error_upd_neq by auto. unfold h2. apply nth_error_upd_eq.
      eapply nth_error_lt; exact Hx1. }
    assert (Hy3 : nth_error h3 y = Some (mkNode (Some x) (root s) (root l) my vy ay)).
    { unfold h3. rewrite nth_error_upd_eq by lia. reflexivity. }
    assert (S3 : same_off h h3 (y :: x :: idx l)).
    { eapply same_off_trans; [eapply same_off_weaken; [exact S1|]|].
      - intros i [<-|Hi]; simpl; auto.
      - eapply same_off_trans; [apply (same_off_upd h1 x); simpl; auto|].
        apply same_off_upd; simpl; auto. }
    assert (HK3 : repk h3 p k (Some y)).
    { eapply repk_frame; [|exact HK]. intros i Hi. apply S3.
      simpl. intros [<-|[<-|Hi2]]; [auto|auto|]. eapply D3; [exact Hi|]. apply in_or_app; simpl; auto. }
    assert (HE3 : ext h3 p [x; y]).
    { assert (Hsub : forall i, In i [x; y] -> In i (idxk (FR s y vy ay my :: k) ++ idx (Nd l x v a m r))).
      { intros i [<-|[<-|[]]]; simpl.
        - right. apply in_or_app; right. apply in_or_app; simpl; auto.
        - left; reflexivity. }
      destruct p as [g|]; [|exact I]. destruct HE' as (Hg & ng & Eg & HE2). split.
      - intros Hi. apply Hg. apply Hsub; auto.
      - exists ng. split.
        + rewrite (proj2 S3); [exact Eg|]. intros Hi. apply Hg.
          destruct Hi as [<-|[<-|Hi]].
          * apply Hsub; simpl; auto.
          * apply Hsub; simpl; auto.
          * apply in_or_app; right. simpl. apply in_or_app; simpl; auto.
        + intros i Hi. apply HE2, Hsub, Hi. }
    destruct (rot_top h3 p k x y _ Hx3 HK3 NDk Nxk HE3) as (h4 & E4 & Hx4 & HK4 & S4).
    rewrite E4. cbn [bind].
    assert (Hy4 : nth_error h4 y = Some (mkNode (Some x) (root s) (root l) my vy ay)).
    { rewrite (proj2 S4); [exact Hy3|]. simpl. intros [E|Hi]; [congruence|auto]. }
    assert (Hl4 : rep h4 (Some y) l).
    { eapply rep_frame; [|exact Hl1]. intros i Hi.
      assert (i <> x) by (intros ->; apply Nxlr, in_or_app; auto).
      assert (i <> y) by (intros ->; auto).
      rewrite (proj2 S4).
      - unfold h3. rewrite nth_error_upd_neq by auto. unfold h2. apply nth_error_upd_neq; auto.
      - simpl. intros [E|Hi2]; [congruence|]. eapply D3; [exact Hi2|]. apply in_or_app; simpl; auto. }
    assert (Hs4 : rep h4 (Some y) s).
    { eapply rep_frame; [|exact Hs]. intros i Hi.
      rewrite (proj2 S4), (proj2 S3); auto.
      - simpl. intros [E|[E|Hi2]]; [subst; auto| |].
        + subst i. eapply D2; [right; exact Hi|]. apply in_or_app; simpl; auto.
        + eapply D2; [right; exact Hi|]. apply in_or_app; simpl; auto.
      - simpl. intros [E|Hi2].
        + subst i. eapply D2; [right; exact Hi|]. apply in_or_app; simpl; auto.
        + eapply D1; [right; exact Hi|exact Hi2]. }
    rewrite (push_up_ok _ _ _ _ _ _ _ _ Hy4 Hs4 Hl4).
    eexists; split; [reflexivity|].
    assert (L4 : length h4 = length h) by (rewrite (proj1 S4); apply S3).
    split.
    + apply rep_plug. split.
      * cbn [rep root]. repeat split.
        -- rewrite nth_error_upd_neq by auto. exact Hx4.
        -- apply nth_error_upd_eq. lia.
        -- eapply rep_frame; [|exact Hs4]. intros i Hi. apply nth_error_upd_neq. intros ->; auto.
        -- eapply rep_frame; [|exact Hl4]. intros i Hi. apply nth_error_upd_neq. intros ->; auto.
        -- eapply rep_frame; [|exact Hr]. intros i Hi.
           rewrite nth_error_upd_neq by (intros ->; auto).
           rewrite (proj2 S4), (proj2 S3); auto.
           ++ simpl. intros [E|[E|Hi2]]; [subst; auto| |eapply Dlr; eauto].
              subst i. apply Nxlr, in_or_app; auto.
           ++ simpl. intros [E|Hi2].
              ** subst i. apply Nxlr, in_or_app; auto.
              ** eapply D3; [exact Hi2|]. apply in_or_app; simpl; auto.
      * cbn [root]. eapply repk_frame; [|exact HK4]. intros i Hi. apply nth_error_upd_neq. intros ->; auto.
    + eapply same_off_weaken; [|exact IN].
      eapply same_off_trans; [eapply same_off_weaken; [exact S3|]|].
      * intros i [<-|[<-|Hi]]; simpl; auto; right; apply in_or_app; right; apply in_or_app; simpl; auto.
      * eapply same_off_trans; [eapply same_off_weaken; [exact S4|]|].
        -- intros i [<-|Hi]; simpl; right; apply in_or_app; [right; apply in_or_app; simpl; auto|left; apply in_or_app; auto].
        -- apply same_off_upd. simpl; auto.
Qed.

End Heap.
