(** * Every public operation of the link-cut tree does what the plain forest does *)
From Coq Require Import Permutation.
From Verif Require Import Base BaseLemmas Data LCT LCTTree LCTHeap LCTSplay LCTSpec LCTChecked LCTBound LCTForest.
Local Open Scope Z_scope.

Section Ops.
Variable one : Z.
#[local] Hint Extern 0 (DataOps Z) => exact (exact_ops one) : typeclass_instances.

(** [C] bounds the values of the forest and the numbers stored in the heap;
    [okd] accepts every number up to [2 * C]. *)
Variable okd : Z -> bool.
Variable C : Z.
Hypothesis Hokd : forall z, Z.abs z <= 2 * C -> okd z = true.

Lemma rep_intro h par val ts : trees_ok h par val ts -> wf (length h) par -> Rep h par val.
Proof. intros; split; eauto. Qed.

Lemma access_rep fuel h par val x :
  Rep h par val -> (x < length h)%nat -> (length h < fuel)%nat -> sbh C h -> vb C val (length h) ->
  exists h' l v m ts', access_chk okd fuel h x = Ok h' /\ sbh C h' /\ length h' = length h /\
    trees_ok h' par val ((None, Nd l x v 0 m Lf) :: ts') /\ allmins (Nd l x v 0 m Lf) /\
    path par x (x :: rev (idx l)) /\ val x = v /\ wf (length h') par /\
    rep h' None (Nd l x v 0 m Lf).
Proof.
  intros [[ts HT] HW] Hx Hf HSB HVB.
  destruct (access_chk_ok one okd C Hokd fuel h par val ts x HT HW Hx Hf HSB HVB) as (h' & l & v & m & ts' & E & SB & L & T & A).
  exists h', l, v, m, ts'. destruct (accessed_path _ _ _ _ _ _ _ _ T) as [P1 P2].
  pose proof (t_ok _ _ _ _ T) as HF. inversion HF as [|a b H1 H2]; subst. destruct H1 as (HR & _ & _).
  split; auto. split; auto. repeat split; auto; try apply T; try apply A; try apply HR; try (rewrite L; apply HW).
Qed.

(** ** find_root *)
Lemma leftmost_ok fuel h p t x d :
  rep h p t -> root t = Some x -> (length (idx t) < fuel)%nat ->
  leftmost fuel h x = Ok (hd d (idx t)).
Proof.
  revert p t x; induction fuel as [|fuel IH]; intros p t x HR Hx Hf; [lia|].
  destruct t as [|l y v a m r]; [discriminate|]. inversion Hx; subst y.
  destruct HR as (H1 & H2 & H3). cbn [leftmost]. rewrite (ld_ok _ _ _ H1). cbn [bind n_c0].
  destruct l as [|ll lx lv la lm lr] eqn:El; [reflexivity|].
  cbn [root]. rewrite (IH (Some x) _ lx H2 eq_refl).
  - rewrite <- El in *. cbn [idx]. destruct (idx l) eqn:E; [|reflexivity].
    rewrite El in E. cbn [idx] in E. destruct (idx ll); discriminate.
  - rewrite <- El in *. cbn [idx] in Hf. rewrite app_length in Hf. simpl in Hf. lia.
Qed.

Theorem find_root_chk_ok fuel h par val x l r :
  Rep h par val -> (x < length h)%nat -> (length h < fuel)%nat -> sbh C h -> vb C val (length h) -> path par x (l ++ [r]) ->
  exists h', find_root_chk okd fuel h x = Ok (h', r) /\ sbh C h' /\ length h' = length h /\ Rep h' par val.
Proof.
  intros HRep Hx Hf HSB HVB HP.
  destruct (access_rep fuel h par val x HRep Hx Hf HSB HVB) as (h' & tl_ & v & m & ts' & E & SB & L & T & A & P & V & W & HR).
  unfold find_root_chk. rewrite E. cbn [bind].
  assert (HE := path_det _ _ _ _ HP P).
  rewrite (leftmost_ok fuel h' None _ x r HR eq_refl).
  - cbn [bind]. exists h'. split; [|split; [exact SB|split; [exact L|eapply rep_intro; eauto]]].
    assert (HR2 : hd r (idx (Nd tl_ x v 0 m Lf)) = r).
    { assert (Hrev : idx (Nd tl_ x v 0 m Lf) = rev (x :: rev (idx tl_))).
      { cbn [idx rev]. rewrite rev_involutive. reflexivity. }
      rewrite Hrev, <- HE, rev_app_distr. reflexivity. }
    rewrite HR2. reflexivity.
  - assert (H := trees_len _ _ _ _ None (Nd tl_ x v 0 m Lf) T (or_introl eq_refl)). lia.
Qed.

(** ** get_val, set_val *)
Lemma root_case fuel h par val x :
  Rep h par val -> (x < length h)%nat -> (length h < fuel)%nat -> sbh C h -> vb C val (length h) ->
  exists h' p l v a m r ts',
    (b <- is_root h x ;; (if (b : bool) then Ok h else access_chk okd fuel h x)) = Ok h' /\ sbh C h' /\
    length h' = length h /\
    trees_ok h' par val ((p, Nd l x v a m r) :: ts') /\ wf (length h') par.
Proof.
  intros HRep Hx Hf HSB HVB. pose proof HRep as [[ts HT] HW].
  destruct (find_tree _ _ _ _ _ HT Hx) as (p & t & ts' & HPm & Hi).
  assert (HT1 := trees_perm _ _ _ _ _ HPm HT).
  destruct (focus t x Hi) as (k & l & v & a & m & r & ->).
  pose proof (t_ok _ _ _ _ HT1) as HF. inversion HF as [|q1 q2 H1 H2]; subst. destruct H1 as (HR & _ & _).
  cbn [fst snd] in HR.
  rewrite (is_root_ok h p k l x v a m r HR (trees_tail_nodup _ _ _ _ _ _ HT1) (ext_of _ _ _ _ _ _ _ HT1 HW Hi)).
  cbn [bind]. destruct k as [|f k].
  - exists h, p, l, v, a, m, r, ts'. split; auto.
  - destruct (access_rep fuel h par val x HRep Hx Hf HSB HVB) as (h' & tl_ & v' & m' & ts2 & E & SB & L & T & A & P & V & W & HR').
    exists h', None, tl_, v', 0, m', Lf, ts2. rewrite E. auto.
Qed.

Lemma bind_assoc {A B E} (m : res A) (f : A -> res B) (g : B -> res E) :
  bind (bind m f) g = bind m (fun x => bind (f x) g).
Proof. destruct m; reflexivity. Qed.

Theorem get_val_chk_ok fuel h par val x :
  Rep h par val -> (x < length h)%nat -> (length h < fuel)%nat -> sbh C h -> vb C val (length h) ->
  exists h', get_val_chk okd fuel h x = Ok (h', val x) /\ sbh C h' /\ length h' = length h /\ Rep h' par val.
Proof.
  intros HRep Hx Hf HSB HVB.
  destruct (root_case fuel h par val x HRep Hx Hf HSB HVB) as (h' & p & l & v & a & m & r & ts' & E & SB & L & T & W).
  pose proof (t_ok _ _ _ _ T) as HF. inversion HF as [|q1 q2 H1 H2]; subst. destruct H1 as (HR & _ & HC).
  cbn [fst snd] in *. destruct HR as (Hn & _ & _).
  exists h'. unfold get_val_chk. rewrite <- bind_assoc, E. cbn [bind]. rewrite (ld_ok _ _ _ Hn). cbn [bind n_val].
  split; [|split; [exact SB|split; [exact L|eapply rep_intro; eauto]]].
  repeat f_equal. symmetry. eapply chain_vals; [exact HC|]. cbn [vals]. rewrite Z.add_0_r. apply in_or_app; simpl; auto.
Qed.

Lemma set_value_neq val x v y : y <> x -> set_value val x v y = val y.
Proof. intros H. unfold set_value. destruct (Nat.eqb_spec y x); congruence. Qed.
Lemma set_value_eq val x v : set_value val x v x = v.
Proof. unfold set_value. rewrite Nat.eqb_refl. reflexivity. Qed.
Lemma set_parent_neq par x p y : y <> x -> set_parent par x p y = par y.
Proof. intros H. unfold set_parent. destruct (Nat.eqb_spec y x); congruence. Qed.
Lemma set_parent_eq par x p : set_parent par x p x = p.
Proof. unfold set_parent. rewrite Nat.eqb_refl. reflexivity. Qed.

Lemma chain_set_mid par val p A x v v' B :
  NoDup (map fst (A ++ (x, v) :: B)) ->
  chain par val p (A ++ (x, v) :: B) ->
  chain par (set_value val x v') p (A ++ (x, v') :: B).
Proof.
  revert p; induction A as [|[y w] A IH]; intros p ND.
  - simpl in *. inversion ND as [|z zs Hn Hd]; subst. intros (H1 & H2 & H3). split; auto. split.
    + apply set_value_eq.
    + eapply chain_ext; [|exact H3]. intros z Hz. split; auto. apply set_value_neq. intros ->; auto.
  - simpl in *. inversion ND as [|z zs Hn Hd]; subst. intros (H1 & H2 & H3). split; auto. split; [|apply IH; auto].
    rewrite set_value_neq; auto. intros ->. apply Hn. rewrite map_app. apply in_or_app; simpl; auto.
Qed.

Lemma other_not h par val p t ts p2 t2 x y :
  trees_ok h par val ((p, t) :: ts) -> In x (idx t) -> In (p2, t2) ts -> In y (map fst (vals 0 t2)) -> y <> x.
Proof.
  intros HT Hx H2 Hy ->. rewrite map_fst_vals in Hy. pose proof (t_nd _ _ _ _ HT) as ND.
  rewrite aidx_cons in ND. exact (NoDup_app_disj _ _ x ND Hx (in_aidx _ _ _ _ H2 Hy)).
Qed.

Theorem set_val_chk_ok fuel h par val x v' :
  Rep h par val -> (x < length h)%nat -> (length h < fuel)%nat -> sbh C h -> vb C val (length h) -> Z.abs v' <= C ->
  exists h', set_val_chk okd fuel h x v' = Ok h' /\ sbx C x h' /\ is_root h' x = Ok true /\ length h' = length h /\ Rep h' par (set_value val x v').
Proof.
  intros HRep Hx Hf HSB HVB Hv'.
  destruct (root_case fuel h par val x HRep Hx Hf HSB HVB) as (h1 & p & l & v & a & m & r & ts' & E & SB & L & T & W).
  pose proof (t_ok _ _ _ _ T) as HF. inversion HF as [|q1 q2 H1 H2]; subst. destruct H1 as (HR & HM & HC).
  cbn [fst snd] in *. destruct HR as (Hn & Hl & Hr).
  assert (NDt := trees_tail_nodup _ _ _ _ _ _ T).
  assert (Nx : ~ In x (idx l ++ idx r)) by (cbn [idx] in NDt; apply NoDup_remove_2 in NDt; exact NDt).
  unfold set_val_chk. rewrite <- bind_assoc, E. cbn [bind]. rewrite (modi_ok _ _ _ _ Hn). cbn [bind].
  unfold set_val_; cbn [n_fa n_c0 n_c1 n_min n_add].
  assert (Lx : (x < length h1)%nat) by lia.
  set (h2 := upd h1 x _).
  assert (Hn2 : nth_error h2 x = Some (mkNode p (root l) (root r) m v' a)) by (apply nth_error_upd_eq; auto).
  assert (S2 : forall i, i <> x -> nth_error h2 i = nth_error h1 i) by (intros; apply nth_error_upd_neq; auto).
  assert (Hl2 : rep h2 (Some x) l).
  { eapply rep_frame; [|exact Hl]. intros i Hi. apply S2. intros ->. apply Nx, in_or_app; auto. }
  assert (Hr2 : rep h2 (Some x) r).
  { eapply rep_frame; [|exact Hr]. intros i Hi. apply S2. intros ->. apply Nx, in_or_app; auto. }
  assert (E3 := push_up_ok one _ _ _ _ _ _ _ _ Hn2 Hl2 Hr2).
  set (m' := pu l x v' r) in *. set (h3 := upd h2 x _) in *.
  assert (SB2 : sbx C x h2).
  { intros i n En. destruct (Nat.eq_dec i x) as [->|Hi].
    - rewrite Hn2 in En. inversion En; subst n. cbn [n_val n_min].
      destruct (SB _ _ Hn) as (B1 & B2 & B3). cbn [n_val n_min] in *. repeat split; auto. congruence.
    - rewrite (S2 i Hi) in En. destruct (SB _ _ En) as (B1 & B2 & B3). repeat split; auto. }
  assert (SB3 : sbx C x h3).
  { assert (Bm : Z.abs (fst m') <= C).
    { unfold m', pu. assert (Bl : match l with Lf => True | Nd _ _ _ _ ml _ => Z.abs (fst ml) <= C end).
      { destruct l as [|ll lx lv la lm lr]; auto. destruct Hl2 as (Hl3 & _). exact (proj1 (proj2 (SB2 _ _ Hl3))). }
      assert (Br : match r with Lf => True | Nd _ _ _ _ mr _ => Z.abs (fst mr) <= C end).
      { destruct r as [|rl rx rv ra rm rr]; auto. destruct Hr2 as (Hr3 & _). exact (proj1 (proj2 (SB2 _ _ Hr3))). }
      destruct l, r; repeat match goal with |- context [if ?b then _ else _] => destruct b end; auto. }
    intros i n En. destruct (Nat.eq_dec i x) as [->|Hi].
    - unfold h3 in En. rewrite nth_error_upd_eq in En by (unfold h2; rewrite upd_length; auto).
      inversion En; subst n. cbn [n_val n_min]. repeat split; auto. congruence.
    - unfold h3 in En. rewrite nth_error_upd_neq in En by auto. apply (SB2 _ _ En). }
  rewrite E3.
  assert (L3 : length h3 = length h1) by (unfold h3, h2; rewrite !upd_length; reflexivity).
  exists h3. split; [reflexivity|]. split; [exact SB3|].
  assert (T3 : trees_ok h3 par (set_value val x v') ([(p, Nd l x v' a m' r)] ++ ts')); cycle 1.
  { split; [|split; [congruence|]].
    - pose proof (t_ok _ _ _ _ T3) as HF3. inversion HF3 as [|q1 q2 G1 G2]; subst. destruct G1 as (HR3 & _ & _).
      cbn [fst snd] in HR3.
      refine (is_root_ok h3 p [] l x v' a m' r HR3 (trees_tail_nodup _ _ _ _ _ _ T3) _).
      eapply ext_of; [exact T3|rewrite L3; exact W|]. cbn [plug idx]. apply in_or_app; simpl; auto.
    - eapply rep_intro; [exact T3|rewrite L3; exact W]. }
  apply (trees_upd h1 h3 par val par _ [(p, Nd l x v a m r)] _ ts' T).
  - split; auto. intros i Hi. unfold h3. rewrite nth_error_upd_neq, S2; auto.
    all: intros ->; apply Hi; unfold aidx; cbn [flat_map snd idx]; apply in_or_app; left; apply in_or_app; simpl; auto.
  - unfold aidx; cbn [flat_map snd idx]. reflexivity.
  - constructor; [|constructor]. split; [|split]; cbn [fst snd].
    + cbn [rep]. split; [|split].
      * apply nth_error_upd_eq. unfold h2. rewrite upd_length. auto.
      * eapply rep_frame; [|exact Hl2]. intros i Hi. apply nth_error_upd_neq. intros ->. apply Nx, in_or_app; auto.
      * eapply rep_frame; [|exact Hr2]. intros i Hi. apply nth_error_upd_neq. intros ->. apply Nx, in_or_app; auto.
    + exact HM.
    + cbn [vals] in *. rewrite !Z.add_0_r in *. eapply chain_set_mid; [|exact HC].
      rewrite map_app. cbn [map fst]. rewrite !map_fst_vals. exact NDt.
  - intros p2 t2 Hi2 HC2. eapply chain_ext; [|exact HC2]. intros y Hy. split; auto.
    apply set_value_neq. eapply other_not; [exact T| |exact Hi2|exact Hy].
    cbn [idx]. apply in_or_app; simpl; auto.
Qed.

(** ** add_val_way_to_root *)
Lemma existsb_eqb_true l x : In x l -> existsb (Nat.eqb x) l = true.
Proof. intros H. apply existsb_exists. exists x. split; auto. apply Nat.eqb_refl. Qed.
Lemma existsb_eqb_false l x : ~ In x l -> existsb (Nat.eqb x) l = false.
Proof.
  intros H. destruct (existsb (Nat.eqb x) l) eqn:E; auto. exfalso. apply H.
  apply existsb_exists in E. destruct E as (y & Hy & E). apply Nat.eqb_eq in E. congruence.
Qed.

Lemma chain_addw par val val' p L d :
  (forall x, In x (map fst L) -> val' x = val x + d) ->
  chain par val p L -> chain par val' p (addw d L).
Proof.
  revert p; induction L as [|[y w] L IH]; intros p HE; simpl; auto.
  intros (H1 & H2 & H3). split; auto. split; [rewrite HE; simpl; [congruence|auto]|].
  apply IH; auto. intros; apply HE; simpl; auto.
Qed.

Theorem add_path_chk_ok fuel h par val x lx d :
  Rep h par val -> (x < length h)%nat -> (length h < fuel)%nat -> path par x lx ->
  sbh C h -> vb C val (length h) -> vb C (add_values val lx d) (length h) ->
  exists h', add_val_way_to_root_chk okd fuel h x d = Ok h' /\ sbh C h' /\ length h' = length h /\
    Rep h' par (add_values val lx d).
Proof.
  intros HRep Hx Hf HP HSB HVB HVB'.
  destruct (access_rep fuel h par val x HRep Hx Hf HSB HVB) as (h1 & l & v & m & ts' & E & SB & L & T & A & P & V & W & HR).
  unfold add_val_way_to_root_chk. rewrite E. cbn [bind].
  assert (NDt := trees_tail_nodup _ _ _ _ _ _ T).
  destruct (update_add_ok one h1 None (Nd l x v 0 m Lf) x d HR NDt eq_refl) as (h2 & E2 & R2 & S2).
  assert (HE := path_det _ _ _ _ HP P). subst lx.
  assert (HI : forall y, In y (x :: rev (idx l)) <-> In y (idx (Nd l x v 0 m Lf))).
  { intros y. cbn [idx]. rewrite in_app_iff. simpl. rewrite <- in_rev. tauto. }
  assert (HB : bv C d (Nd l x v 0 m Lf)).
  { intros y u Hy. pose proof (t_ok _ _ _ _ T) as HF. inversion HF as [|q1 q2 H1 H2]; subst.
    destruct H1 as (_ & _ & HC). cbn [fst snd] in HC.
    rewrite vals_0 in Hy. apply in_map_iff in Hy. destruct Hy as ([y' u'] & Ey & Hy). cbn [fst snd] in Ey.
    inversion Ey; subst y u. rewrite <- (chain_vals _ _ _ _ _ _ HC Hy).
    assert (Hy' : In y' (idx (Nd l x (val x) 0 m Lf))).
    { rewrite <- (map_fst_vals 0). apply in_map_iff. exists (y', u'). auto. }
    assert (Ly : (y' < length h)%nat) by (rewrite <- L; eapply rep_lt; eauto).
    specialize (HVB' y' Ly). unfold add_values in HVB'. rewrite existsb_eqb_true in HVB'; auto. apply HI; auto. }
  destruct (child_bound _ _ _ _ _ _ _ _ A HB) as [B1 B2].
  destruct (update_add_chk_ok one okd C Hokd h1 x _ d (proj1 HR) (SB _ _ (proj1 HR)) B1 B2) as (n' & Ec & Ep & Nb).
  rewrite Ec. rewrite E2 in Ep. inversion Ep as [Eh]. rewrite <- Eh in *. clear Ep.
  exists h2. destruct S2 as [S2L S2]. split; auto. split; [rewrite Eh; apply sbh_upd; auto|]. split; [congruence|].
  apply rep_intro with (ts := [(None, addt d (Nd l x v 0 m Lf))] ++ ts'); [|rewrite S2L; exact W].
  apply (trees_upd h1 h2 par val par _ [(None, Nd l x v 0 m Lf)] _ ts' T).
  - split; auto. intros i Hi. apply S2. intros [->|[]]. apply Hi. rewrite aidx_cons. cbn [idx].
    apply in_or_app. left. apply in_or_app; simpl; auto.
  - rewrite !aidx_cons. rewrite idx_addt. reflexivity.
  - constructor; [|constructor]. split; [|split]; cbn [fst snd]; auto.
    + apply allmins_submins, allmins_addt; auto.
    + rewrite vals_addt, vals_addw. pose proof (t_ok _ _ _ _ T) as HF. inversion HF as [|q1 q2 H1 H2]; subst.
      destruct H1 as (_ & _ & HC). cbn [fst snd] in HC.
      eapply chain_addw; [|exact HC]. intros y Hy. rewrite map_fst_vals in Hy.
      unfold add_values. rewrite existsb_eqb_true; auto. apply HI; auto.
  - intros p2 t2 Hi2 HC2. eapply chain_ext; [|exact HC2]. intros y Hy. split; auto.
    unfold add_values. rewrite existsb_eqb_false; auto. intros Hy2. apply HI in Hy2.
    eapply (other_not _ _ _ _ _ _ _ _ y y T); eauto.
Qed.

(** ** cut *)
Lemma wf_cut N par x : wf N par -> wf N (set_parent par x None).
Proof.
  intros HW. constructor.
  - intros z Hz. destruct (wf_path _ _ HW z Hz) as [lz HP]. clear Hz.
    induction HP as [z E|z y l E HP IH].
    + exists [z]. constructor. unfold set_parent. destruct (Nat.eqb z x); auto.
    + destruct (Nat.eq_dec z x) as [->|Hn].
      * exists [x]. constructor. apply set_parent_eq.
      * destruct IH as [l' Hl']. exists (z :: l'). econstructor; [rewrite set_parent_neq; eauto|auto].
  - intros z y Hz. unfold set_parent. destruct (Nat.eqb z x); [congruence|]. apply (wf_lt _ _ HW); auto.
Qed.

Theorem cut_chk_ok fuel h par val x y :
  Rep h par val -> (x < length h)%nat -> (length h < fuel)%nat -> par x = Some y ->
  sbh C h -> vb C val (length h) ->
  exists h', cut_chk okd fuel h x = Ok h' /\ sbh C h' /\ length h' = length h /\ Rep h' (set_parent par x None) val.
Proof.
  intros HRep Hx Hf Hpar HSB HVB.
  destruct (access_rep fuel h par val x HRep Hx Hf HSB HVB) as (h1 & l & v & m & ts' & E & SB & L & T & A & P & V & W & HR).
  unfold cut_chk. rewrite E. cbn [bind]. pose proof HR as (Hn & Hl & _). rewrite (ld_ok _ _ _ Hn). cbn [bind n_c0].
  assert (NDt := trees_tail_nodup _ _ _ _ _ _ T).
  assert (Nx : ~ In x (idx l)).
  { cbn [idx] in NDt; apply NoDup_remove_2 in NDt. intros Hi; apply NDt, in_or_app; auto. }
  assert (NDl : NoDup (idx l)) by (cbn [idx] in NDt; eapply NoDup_app_l; eauto).
  destruct l as [|ll c lv la lm lr] eqn:El.
  { exfalso. inversion P as [z Ez|z y' l' Ez Hz]; subst; [congruence|]. simpl in Hz. inversion Hz. }
  rewrite <- El in *. assert (Erl : root l = Some c) by (subst l; reflexivity).
  rewrite Erl. cbn [ptr_eqb negb assert_ bind].
  assert (Hcl : In c (idx l)) by (apply root_in_idx; auto).
  assert (Ncx : c <> x) by (intros ->; auto).
  assert (Hc : exists nc, nth_error h1 c = Some nc).
  { destruct (nth_error h1 c) eqn:Ec; eauto. apply nth_error_None in Ec.
    assert (c < length h1)%nat by (eapply rep_lt; eauto). lia. }
  destruct Hc as [nc Hc]. rewrite (modi_ok _ _ _ _ Hc). cbn [bind].
  assert (Lc : (c < length h1)%nat) by (eapply nth_error_lt; eauto).
  assert (Lx : (x < length h1)%nat) by lia.
  set (h2 := upd h1 c _).
  assert (Hn2 : nth_error h2 x = Some (mkNode None (Some c) None m v 0)).
  { unfold h2. rewrite nth_error_upd_neq by auto. rewrite Hn, Erl. reflexivity. }
  rewrite (modi_ok _ _ _ _ Hn2). cbn [bind]. unfold set_ch_; cbn [n_fa n_c1 n_min n_val n_add].
  set (h3 := upd h2 x _).
  assert (Hn3 : nth_error h3 x = Some (mkNode None (root Lf) (root Lf) m v 0)).
  { apply nth_error_upd_eq. unfold h2. rewrite upd_length; auto. }
  assert (E4 := push_up_ok one h3 x _ _ _ _ Lf Lf Hn3 I I). rewrite E4.
  set (h4 := upd h3 x _) in *. exists h4.
  assert (L4 : length h4 = length h1) by (unfold h4, h3, h2; rewrite !upd_length; reflexivity).
  split; [reflexivity|]. split; [|split; [congruence|]].
  { eapply push_up_sb; [|exact E4]. unfold h3. apply sbh_upd.
    - unfold h2. apply sbh_upd; auto. apply nb_fa, (SB _ _ Hc).
    - exact (SB _ _ Hn). }
  assert (S4 : forall i, i <> c -> i <> x -> nth_error h4 i = nth_error h1 i).
  { intros i H1 H2. unfold h4, h3, h2. rewrite !nth_error_upd_neq; auto. }
  assert (R4 : rep h4 None l).
  { eapply (rep_new_father h1 h4 (Some x) None l c nc); eauto.
    - unfold h4, h3. rewrite !nth_error_upd_neq by auto. apply nth_error_upd_eq; auto.
    - intros i Hi Hic. apply S4; auto. intros ->; auto. }
  pose proof (t_ok _ _ _ _ T) as HF. inversion HF as [|q1 q2 H1 H2]; subst q1 q2.
  destruct H1 as (_ & HM & HC). cbn [fst snd vals] in HC. rewrite !Z.add_0_r in HC.
  set (mx := pu Lf x v Lf).
  apply rep_intro with (ts := [(None, l); (None, Nd Lf x v 0 mx Lf)] ++ ts'); [|rewrite L4; apply wf_cut; exact W].
  apply (trees_upd h1 h4 par val _ val [(None, Nd l x v 0 m Lf)] _ ts' T).
  - split; auto. intros i Hi. rewrite aidx_cons in Hi. cbn [idx] in Hi. apply S4; intros ->; apply Hi;
      apply in_or_app; left; apply in_or_app; simpl; auto.
  - rewrite !aidx_cons. cbn [idx]. rewrite <- app_assoc. reflexivity.
  - constructor; [|constructor; [|constructor]]; (split; [|split]); cbn [fst snd].
    + exact R4.
    + destruct A as (A1 & _). apply allmins_submins; exact A1.
    + assert (HC' : chain par val None (vals 0 l)).
      { clear -HC. revert HC. generalize (None : option nat). induction (vals 0 l) as [|[y w] L IH]; intros p; simpl; auto.
        intros (H1 & H2 & H3); repeat split; auto. }
      eapply chain_ext; [|exact HC']. intros z Hz. split; auto. apply set_parent_neq.
      rewrite map_fst_vals in Hz. intros ->; auto.
    + cbn [rep root]. split; auto. apply nth_error_upd_eq. unfold h3, h2. rewrite !upd_length; auto.
    + simpl. auto.
    + cbn [vals app chain]. rewrite set_parent_eq. rewrite Z.add_0_r. auto.
  - intros p2 t2 Hi2 HC2. eapply chain_ext; [|exact HC2]. intros z Hz. split; auto.
    apply set_parent_neq. eapply other_not; [exact T| |exact Hi2|exact Hz].
    cbn [idx]. apply in_or_app; simpl; auto.
Qed.

(** ** set_fa *)
Lemma path_other par x p y ly : path par y ly -> ~ In x ly -> path (set_parent par x p) y ly.
Proof.
  intros HP; induction HP as [z E|z y l E HP IH]; intros Hn.
  - constructor. rewrite set_parent_neq; auto. intros ->; apply Hn; simpl; auto.
  - econstructor; [rewrite set_parent_neq; [exact E|]|].
    + intros ->; apply Hn; simpl; auto.
    + apply IH. intros Hi; apply Hn; simpl; auto.
Qed.

Lemma wf_link N par x y ly :
  wf N par -> (y < N)%nat -> par x = None -> path par y ly -> ~ In x ly ->
  wf N (set_parent par x (Some y)).
Proof.
  intros HW Hy Hx HP Hn. constructor.
  - intros z Hz. destruct (wf_path _ _ HW z Hz) as [lz Hlz]. clear Hz.
    induction Hlz as [z E|z w l E Hlz IH].
    + destruct (Nat.eq_dec z x) as [->|Hzx].
      * exists (x :: ly). econstructor; [apply set_parent_eq|apply path_other; auto].
      * exists [z]. constructor. rewrite set_parent_neq; auto.
    + destruct IH as [l' Hl']. exists (z :: l'). econstructor; [|exact Hl'].
      rewrite set_parent_neq; auto. congruence.
  - intros z w Hz. destruct (Nat.eq_dec z x) as [->|Hzx].
    + rewrite set_parent_eq. congruence.
    + rewrite set_parent_neq by auto. apply (wf_lt _ _ HW); auto.
Qed.

Lemma chain_none_first par val p L x :
  chain par val p L -> In x (map fst L) -> par x = None ->
  p = None /\ exists v L', L = (x, v) :: L'.
Proof.
  destruct L as [|[y w] L]; simpl; [tauto|]. intros (H1 & H2 & H3) [<-|Hi] Hx.
  - split; [congruence|eauto].
  - exfalso. clear -H3 Hi Hx. revert y H3; induction L as [|[z u] L IH]; simpl in *; [tauto|].
    intros y (H1 & H2 & H3). destruct Hi as [->|Hi]; [congruence|eauto].
Qed.

Theorem set_fa_chk_ok fuel h par val x y ly :
  Rep h par val -> (x < length h)%nat -> (y < length h)%nat -> (length h < fuel)%nat ->
  par x = None -> path par y ly -> ~ In x ly ->
  (sbh C h \/ sbx C x h /\ is_root h x = Ok true) -> vb C val (length h) ->
  exists h', set_fa_chk okd fuel h x (Some y) = Ok h' /\ sbh C h' /\ length h' = length h /\
    Rep h' (set_parent par x (Some y)) val.
Proof.
  intros [[ts HT] HW] Hx Hy Hf Hpx HPy Hnot HSB HVB.
  destruct (find_tree _ _ _ _ _ HT Hx) as (p & t & ts' & HPm & Hi).
  assert (HT1 := trees_perm _ _ _ _ _ HPm HT).
  assert (HSB' : sbh C h \/ root t = Some x /\ sbx C x h).
  { destruct HSB as [HSB|[HSB Hr]]; auto. right. split; auto.
    destruct (focus t x Hi) as (k & l & v & a & m & r & ->).
    pose proof (t_ok _ _ _ _ HT1) as HF. inversion HF as [|q1 q2 H1 H2]; subst. destruct H1 as (HR & _ & _).
    cbn [fst snd] in HR.
    rewrite (is_root_ok h p k l x v a m r HR (trees_tail_nodup _ _ _ _ _ _ HT1) (ext_of _ _ _ _ _ _ _ HT1 HW Hi)) in Hr.
    destruct k; [reflexivity|discriminate]. }
  destruct (splay_forest one okd C Hokd fuel h par val p t ts' x HT1 HW Hi Hf HSB' HVB) as (h1 & l & v & m & r & E & SB & L & T & V & A).
  unfold set_fa_chk. rewrite E. cbn [bind].
  pose proof (t_ok _ _ _ _ T) as HF. inversion HF as [|q1 q2 H1 H2]; subst q1 q2.
  destruct H1 as (HR & HM & HC). cbn [fst snd] in *. pose proof HR as (Hn & Hl & Hr).
  rewrite (ld_ok _ _ _ Hn). cbn [bind n_fa].
  assert (Hxi : In x (map fst (vals 0 (Nd l x v 0 m r)))).
  { rewrite map_fst_vals. cbn [idx]. apply in_or_app; simpl; auto. }
  destruct (chain_none_first _ _ _ _ _ HC Hxi Hpx) as [-> (v0 & L' & HL)].
  cbn [ptr_eqb assert_ bind]. rewrite (modi_ok _ _ _ _ Hn). unfold set_fa_; cbn [n_c0 n_c1 n_min n_val n_add].
  set (h2 := upd h1 x _). exists h2.
  assert (L2 : length h2 = length h1) by (unfold h2; apply upd_length).
  split; [reflexivity|]. split; [unfold h2; apply sbh_upd; auto; exact (SB _ _ Hn)|]. split; [congruence|].
  assert (NDt := trees_tail_nodup _ _ _ _ _ _ T).
  apply rep_intro with (ts := [(Some y, Nd l x v 0 m r)] ++ ts').
  - apply (trees_upd h1 h2 par val _ val [(None, Nd l x v 0 m r)] _ ts' T).
    + split; auto. intros i Hi2. apply nth_error_upd_neq. intros ->. apply Hi2. rewrite aidx_cons. cbn [idx].
      apply in_or_app; left; apply in_or_app; simpl; auto.
    + reflexivity.
    + constructor; [|constructor]. split; [|split]; cbn [fst snd].
      * eapply (rep_new_father h1 h2 None (Some y) (Nd l x v 0 m r) x _ NDt HR eq_refl Hn).
        -- apply nth_error_upd_eq. lia.
        -- intros i Hi2 Hix. apply nth_error_upd_neq; auto.
      * exact HM.
      * assert (HI : map fst (vals 0 (Nd l x v 0 m r)) = idx (Nd l x v 0 m r)) by apply map_fst_vals.
        rewrite <- HI, HL in NDt. cbn [map fst] in NDt. inversion NDt as [|z zs Hz Hd]; subst z zs.
        rewrite HL in HC |- *. cbn [chain] in HC |- *. destruct HC as (C1 & C2 & C3). split; [apply set_parent_eq|]. split; auto.
        eapply chain_ext; [|exact C3]. intros z Hzi. split; auto. apply set_parent_neq. intros ->; auto.
    + intros p2 t2 Hi2 HC2. eapply chain_ext; [|exact HC2]. intros z Hz. split; auto.
      apply set_parent_neq. eapply other_not; [exact T| |exact Hi2|exact Hz].
      cbn [idx]. apply in_or_app; simpl; auto.
  - rewrite L2, L. eapply wf_link; eauto.
Qed.

(** ** get_min_wtrbnr *)
Lemma tl_app_ne {A} (l1 l2 : list A) : l1 <> [] -> tl (l1 ++ l2) = tl l1 ++ l2.
Proof. destruct l1; [congruence|reflexivity]. Qed.

Lemma vals_ne w l x v a m r : vals w (Nd l x v a m r) <> [].
Proof. cbn [vals]. destruct (vals (w + a) l); discriminate. Qed.

Lemma allmins_min t : allmins t ->
  lmin (vals 0 t) = match t with Lf => None | Nd _ _ _ _ m _ => Some m end.
Proof. destruct t; [reflexivity|]. intros (_ & _ & H). exact H. Qed.

Lemma get_min_loop_chk_ok fuel : forall h p t x ret,
  rep h p t -> NoDup (idx t) -> allmins t -> root t = Some x -> (length (idx t) < fuel)%nat ->
  sbh C h -> bv C 0 t ->
  exists h' t' out, get_min_loop_chk okd fuel h x ret = Ok (h', out) /\ sbh C h' /\
    rep h' p t' /\ root t' = root t /\ vals 0 t' = vals 0 t /\ allmins t' /\ same_off h h' (idx t) /\
    Some out = lmo (lmin (tl (vals 0 t))) (Some ret).
Proof.
  induction fuel as [|fuel IH]; intros h p t x ret HR ND HA Hx Hf HSB HB; [lia|].
  destruct t as [|l y v a m r]; [discriminate|]. inversion Hx; subst y. clear Hx.
  cbn [get_min_loop_chk].
  destruct (push_down_ok one h p l x v a m r HR ND) as (h1 & E1p & R1 & S1).
  destruct (push_down_chk_ok one okd C Hokd h p l x v a m r h1 HR ND (sbh_sbx _ _ _ HSB) (proj1 HA) (proj1 (proj2 HA)) HB E1p) as [E1 SB1].
  rewrite E1. cbn [bind].
  assert (HA1 := allmins_pd _ HA). assert (V1 := vals_pd 0 (Nd l x v a m r)).
  assert (I1 := idx_pd (Nd l x v a m r)).
  assert (Hlen : (length (idx l) < fuel)%nat).
  { cbn [idx] in Hf. rewrite app_length in Hf. simpl in Hf. lia. }
  cbn [pd] in *. set (l1 := addt a l) in *. set (r1 := addt a r) in *.
  assert (Hlen1 : (length (idx l1) < fuel)%nat) by (unfold l1; rewrite idx_addt; exact Hlen).
  pose proof R1 as (N1 & Rl1 & Rr1). rewrite (ld_ok _ _ _ N1). cbn [bind n_c1 n_c0 n_val].
  pose proof HA1 as (Al1 & Ar1 & Am1).
  assert (HV : vals 0 (Nd l x v a m r) = vals 0 l1 ++ (x, v) :: vals 0 r1).
  { rewrite <- V1. cbn [vals]. rewrite !Z.add_0_r. reflexivity. }
  rewrite <- I1 in ND, S1 |- *. rewrite HV.
  (* right child *)
  assert (HRet : exists ret1,
     match root r1 with
     | None => Ok ret
     | Some c => nc <- ld h1 c ;; Ok (if dle (fst (n_min nc)) (fst ret) then n_min nc else ret)
     end = Ok ret1 /\ Some ret1 = lmo (lmin (vals 0 r1)) (Some ret)).
  { rewrite (allmins_min r1 Ar1). destruct r1 as [|rl rx rv ra rm rr]; cbn [root].
    - exists ret; auto.
    - destruct Rr1 as (Nr & _). rewrite (ld_ok _ _ _ Nr). cbn [bind n_min].
      eexists; split; [reflexivity|]. reflexivity. }
  destruct HRet as (ret1 & ER & HRet). rewrite ER. cbn [bind].
  destruct l1 as [|ll lx lv la lm lr] eqn:El1.
  - (* no left child: x is the topmost node *)
    cbn [root]. exists h1, (Nd Lf x v 0 m r1), ret1.
    split; [reflexivity|]. split; [exact SB1|]. split; [exact R1|]. split; [reflexivity|]. split; [rewrite V1, HV; reflexivity|].
    split; [exact HA1|]. split; [exact S1|]. cbn [vals app tl]. exact HRet.
  - rewrite <- El1 in *. assert (Erl : root l1 = Some lx) by (rewrite El1; reflexivity).
    rewrite Erl.
    cbn [idx] in ND.
    assert (NDl : NoDup (idx l1)) by (eapply NoDup_app_l; eauto).
    set (ret2 := if dle v (fst ret1) then (v, Some x) else ret1).
    assert (Bl1 : bv C 0 l1).
    { intros y u Hy. apply (HB y). rewrite HV. apply in_or_app; auto. }
    destruct (IH h1 (Some x) l1 lx ret2 Rl1 NDl Al1 Erl Hlen1 SB1 Bl1) as (h2 & l2 & out & E2 & SB2 & R2 & RT & V2 & A2 & S2 & O2).
    fold ret2. rewrite E2.
    assert (Nx : ~ In x (idx l1 ++ idx r1)) by (apply NoDup_remove_2 in ND; exact ND).
    assert (Dlr : forall i, In i (idx l1) -> In i (idx r1) -> False).
    { intros i Hi Hj. apply (NoDup_app_disj _ _ i ND Hi). simpl; auto. }
    exists h2, (Nd l2 x v 0 m r1), out.
    assert (V2' : vals 0 (Nd l2 x v 0 m r1) = vals 0 l1 ++ (x, v) :: vals 0 r1).
    { cbn [vals]. rewrite !Z.add_0_r. rewrite V2. reflexivity. }
    split; [reflexivity|]. split; [exact SB2|]. split; [|split; [|split; [|split; [|split]]]].
    + cbn [rep]. split; [|split].
      * destruct S2 as [_ S2]. rewrite S2 by (intros Hi; apply Nx, in_or_app; auto). rewrite N1, RT. reflexivity.
      * exact R2.
      * eapply rep_frame; [|exact Rr1]. intros i Hi. apply S2. intros Hj. eapply Dlr; eauto.
    + reflexivity.
    + exact V2'.
    + cbn [allmins]. split; [exact A2|]. split; [exact Ar1|]. rewrite V2'.
      rewrite V1, HV in Am1. exact Am1.
    + eapply same_off_trans; [exact S1|]. destruct S2 as [S2a S2b]. split; auto. intros i Hi. apply S2b.
      intros Hj. apply Hi. cbn [idx]. apply in_or_app; auto.
    + rewrite O2. rewrite tl_app_ne by (rewrite El1; apply vals_ne).
      rewrite lmin_app. cbn [lmin]. rewrite <- lmo_assoc. f_equal.
      rewrite <- lmo_assoc, <- HRet. reflexivity.
Qed.

Lemma lmin_bound v L :
  (forall z w, In (z, w) L -> v < w) -> match lmin L with None => True | Some m => v < fst m end.
Proof.
  induction L as [|[x u] L IH]; intros H; [exact I|].
  assert (IH' := IH (fun z w Hi => H z w (or_intror Hi))).
  assert (Hu : v < u) by (apply (H x); simpl; auto).
  cbn [lmin]. destruct (lmin L) as [m|]; cbn [lmo]; [|exact Hu].
  unfold lm2. destruct (fst (u, Some x) <=? fst m); simpl; auto.
Qed.

Lemma lmin_intro A y v B :
  (forall z w, In (z, w) A -> v < w) -> (forall z w, In (z, w) B -> v <= w) ->
  lmin (A ++ (y, v) :: B) = Some (v, Some y).
Proof.
  intros HA HB. rewrite lmin_app.
  assert (H1 : lmin ((y, v) :: B) = Some (v, Some y)).
  { cbn [lmin]. assert (H := lmin_bound (v - 1) B (fun z w Hi => ltac:(specialize (HB z w Hi); lia))).
    destruct (lmin B) as [m|]; cbn [lmo]; auto. unfold lm2; cbn [fst].
    destruct (Z.leb_spec v (fst m)); auto. lia. }
  rewrite H1. assert (H := lmin_bound v A HA). destruct (lmin A) as [m|]; cbn [lmo]; auto.
  unfold lm2; cbn [fst]. destruct (Z.leb_spec (fst m) v); auto. lia.
Qed.

Lemma chain_map par val p L : chain par val p L -> L = map (fun x => (x, val x)) (map fst L).
Proof.
  revert p; induction L as [|[y w] L IH]; intros p; simpl; auto.
  intros (H1 & H2 & H3). f_equal; [congruence|eauto].
Qed.

Lemma lmo_idem_r A x v : lmo (lmin (A ++ [(x, v)])) (Some (v, Some x)) = lmin (A ++ [(x, v)]).
Proof.
  rewrite lmin_app. cbn [lmin]. rewrite lmo_None_r, <- lmo_assoc. f_equal.
  cbn [lmo]. unfold lm2. rewrite Z.leb_refl. reflexivity.
Qed.

Theorem get_min_chk_ok fuel h par val x r below y above :
  Rep h par val -> (x < length h)%nat -> (length h < fuel)%nat ->
  path par x ((below ++ y :: above) ++ [r]) ->
  (forall z, In z below -> val y <= val z) ->
  (forall z, In z above -> val y < val z) ->
  sbh C h -> vb C val (length h) ->
  exists h', get_min_wtrbnr_chk okd fuel h x = Ok (h', (val y, Some y)) /\ sbh C h' /\ length h' = length h /\ Rep h' par val.
Proof.
  intros HRep Hx Hf HP Hb Ha HSB HVB.
  destruct (access_rep fuel h par val x HRep Hx Hf HSB HVB) as (h1 & l & v & m & ts' & E & SB & L & T & A & P & V & W & HR).
  unfold get_min_wtrbnr_chk. rewrite E. cbn [bind].
  pose proof HR as (Hn & _ & _). rewrite (ld_ok _ _ _ Hn). cbn [bind n_val].
  assert (NDt := trees_tail_nodup _ _ _ _ _ _ T).
  assert (Hlen : (length (idx (Nd l x v 0 m Lf)) < fuel)%nat).
  { assert (H := trees_len _ _ _ _ None (Nd l x v 0 m Lf) T (or_introl eq_refl)). lia. }
  pose proof (t_ok _ _ _ _ T) as HF. inversion HF as [|q1 q2 H1 H2]; subst q1 q2.
  destruct H1 as (_ & HM & HC). cbn [fst snd] in HC.
  assert (HB : bv C 0 (Nd l x v 0 m Lf)).
  { intros z u Hz. rewrite <- (chain_vals _ _ _ _ _ _ HC Hz). apply HVB. rewrite <- L. eapply rep_lt; [exact HR|].
    rewrite <- (map_fst_vals 0). apply in_map_iff. exists (z, u). auto. }
  destruct (get_min_loop_chk_ok fuel h1 None (Nd l x v 0 m Lf) x (v, Some x) HR NDt A eq_refl Hlen SB HB)
    as (h2 & t2 & out & E2 & SB2 & R2 & RT & V2 & A2 & S2 & O2).
  rewrite E2. exists h2.
  assert (L2 : length h2 = length h1) by apply S2.
  assert (HE := path_det _ _ _ _ HP P).
  assert (Hrev : map fst (vals 0 (Nd l x v 0 m Lf)) = r :: rev above ++ y :: rev below).
  { rewrite map_fst_vals. cbn [idx].
    replace (idx l ++ [x]) with (rev (x :: rev (idx l))) by (simpl; rewrite rev_involutive; reflexivity).
    rewrite <- HE. rewrite !rev_app_distr. cbn [rev app].
    rewrite <- app_assoc. reflexivity. }
  assert (HL := chain_map _ _ _ _ HC). rewrite Hrev in HL. cbn [map] in HL. rewrite map_app in HL. cbn [map] in HL.
  assert (Hout : out = (val y, Some y)).
  { assert (G : Some out = Some (val y, Some y)); [|congruence].
    rewrite O2.
    assert (Hx2 : exists B, tl (vals 0 (Nd l x v 0 m Lf)) = B ++ [(x, v)]).
    { cbn [vals]. rewrite !Z.add_0_r. destruct (vals 0 l) as [|b B] eqn:EB.
      - exfalso. cbn [vals] in HL. rewrite !Z.add_0_r, EB in HL. cbn [app] in HL.
        inversion HL as [[Q1 Q2 Q3]]. destruct (map (fun x0 => (x0, val x0)) (rev above)); discriminate.
      - exists B. reflexivity. }
    destruct Hx2 as [B HB2]. rewrite HB2, lmo_idem_r, <- HB2. rewrite HL. cbn [tl].
    apply lmin_intro.
    - intros z w Hi. apply in_map_iff in Hi. destruct Hi as (z' & Ez & Hi). inversion Ez; subst.
      apply Ha. apply in_rev. exact Hi.
    - intros z w Hi. apply in_map_iff in Hi. destruct Hi as (z' & Ez & Hi). inversion Ez; subst.
      apply Hb. apply in_rev. exact Hi. }
  rewrite Hout. split; [reflexivity|]. split; [exact SB2|]. split; [congruence|].
  apply rep_intro with (ts := [(None, t2)] ++ ts'); [|rewrite L2; exact W].
  apply (trees_upd h1 h2 par val par val [(None, Nd l x v 0 m Lf)] _ ts' T); auto.
  - destruct S2 as [S2a S2b]. split; auto. intros i Hi. apply S2b. intros Hj. apply Hi. rewrite aidx_cons.
    apply in_or_app; auto.
  - rewrite !aidx_cons. rewrite <- (map_fst_vals 0 t2), V2, map_fst_vals. reflexivity.
  - constructor; [|constructor]. split; [|split]; cbn [fst snd]; auto.
    + apply allmins_submins; auto.
    + rewrite V2; auto.
Qed.

(** ** The freshly constructed vector of nodes *)
Lemma rep_init N : Rep (repeat (node0 (D:=Z)) N) (fun _ => None) (fun _ => 0).
Proof.
  split; cycle 1.
  { constructor; [|congruence]. intros x _. exists [x]. constructor; auto. }
  exists (map (fun i => (None, Nd Lf i 0 0 (0, None) Lf)) (seq 0 N)).
  assert (HA : aidx (map (fun i => (None, Nd Lf i 0 0 (0, None) Lf)) (seq 0 N)) = seq 0 N).
  { unfold aidx. generalize (seq 0 N) as L. induction L as [|x L IH]; simpl; auto. f_equal; exact IH. }
  constructor.
  - apply Forall_forall. intros pt Hi. apply in_map_iff in Hi. destruct Hi as (i & <- & Hi).
    apply in_seq in Hi. split; [|split]; cbn [fst snd].
    + cbn [rep root]. split; auto. rewrite nth_error_repeat by lia. reflexivity.
    + simpl; auto.
    + simpl. auto.
  - rewrite HA. apply seq_NoDup.
  - intros i. rewrite HA, repeat_length, in_seq. lia.
Qed.

End Ops.

(** ** The same without any bound *)
Section Plain.
Variable one : Z.
#[local] Hint Extern 0 (DataOps Z) => exact (exact_ops one) : typeclass_instances.

Lemma any_bound (h : heap Z) (val : nat -> Z) (z : Z) :
  exists C, sbh C h /\ vb C val (length h) /\ Z.abs z <= C.
Proof.
  destruct (sbh_exists h) as (C1 & P1 & H1). destruct (bound_exists val (length h)) as (C2 & P2 & H2).
  exists (C1 + C2 + Z.abs z). split; [eapply sbh_le; [|exact H1]; lia|]. split; [|lia].
  intros i Hi. specialize (H2 i Hi). lia.
Qed.

Let yes : Z -> bool := fun _ => true.
Let yes_ok C : forall z, Z.abs z <= 2 * C -> yes z = true.
Proof. reflexivity. Qed.

Theorem find_root_ok fuel h par val x l r :
  Rep h par val -> (x < length h)%nat -> (length h < fuel)%nat -> path par x (l ++ [r]) ->
  exists h', find_root fuel h x = Ok (h', r) /\ length h' = length h /\ Rep h' par val.
Proof.
  intros HR Hx Hf HP. destruct (any_bound h val 0) as (C & B1 & B2 & _).
  destruct (find_root_chk_ok one yes C (yes_ok C) fuel h par val x l r HR Hx Hf B1 B2 HP) as (h' & E & _ & H).
  exists h'. split; [eapply find_root_chk_sim; exact E|exact H].
Qed.

Theorem get_val_ok fuel h par val x :
  Rep h par val -> (x < length h)%nat -> (length h < fuel)%nat ->
  exists h', get_val fuel h x = Ok (h', val x) /\ length h' = length h /\ Rep h' par val.
Proof.
  intros HR Hx Hf. destruct (any_bound h val 0) as (C & B1 & B2 & _).
  destruct (get_val_chk_ok one yes C (yes_ok C) fuel h par val x HR Hx Hf B1 B2) as (h' & E & _ & H).
  exists h'. split; [eapply get_val_chk_sim; exact E|exact H].
Qed.

Theorem set_val_ok fuel h par val x v' :
  Rep h par val -> (x < length h)%nat -> (length h < fuel)%nat ->
  exists h', set_val fuel h x v' = Ok h' /\ length h' = length h /\ Rep h' par (set_value val x v').
Proof.
  intros HR Hx Hf. destruct (any_bound h val v') as (C & B1 & B2 & B3).
  destruct (set_val_chk_ok one yes C (yes_ok C) fuel h par val x v' HR Hx Hf B1 B2 B3) as (h' & E & _ & _ & H).
  exists h'. split; [eapply set_val_chk_sim; exact E|exact H].
Qed.

Theorem add_path_ok fuel h par val x lx d :
  Rep h par val -> (x < length h)%nat -> (length h < fuel)%nat -> path par x lx ->
  exists h', add_val_way_to_root fuel h x d = Ok h' /\ length h' = length h /\
    Rep h' par (add_values val lx d).
Proof.
  intros HR Hx Hf HP. destruct (any_bound h val d) as (C & B1 & B2 & B3).
  assert (B1' : sbh (C + C) h) by (eapply sbh_le; [|exact B1]; lia).
  assert (B2' : vb (C + C) val (length h)) by (intros i Hi; specialize (B2 i Hi); lia).
  assert (B4 : vb (C + C) (add_values val lx d) (length h)).
  { intros i Hi. specialize (B2 i Hi). unfold add_values. destruct (existsb _ _); lia. }
  destruct (add_path_chk_ok one yes _ (yes_ok (C + C)) fuel h par val x lx d HR Hx Hf HP B1' B2' B4) as (h' & E & _ & H).
  exists h'. split; [eapply add_path_chk_sim; exact E|exact H].
Qed.

Theorem cut_ok fuel h par val x y :
  Rep h par val -> (x < length h)%nat -> (length h < fuel)%nat -> par x = Some y ->
  exists h', cut fuel h x = Ok h' /\ length h' = length h /\ Rep h' (set_parent par x None) val.
Proof.
  intros HR Hx Hf HP. destruct (any_bound h val 0) as (C & B1 & B2 & _).
  destruct (cut_chk_ok one yes C (yes_ok C) fuel h par val x y HR Hx Hf HP B1 B2) as (h' & E & _ & H).
  exists h'. split; [eapply cut_chk_sim; exact E|exact H].
Qed.

Theorem set_fa_ok fuel h par val x y ly :
  Rep h par val -> (x < length h)%nat -> (y < length h)%nat -> (length h < fuel)%nat ->
  par x = None -> path par y ly -> ~ In x ly ->
  exists h', set_fa fuel h x (Some y) = Ok h' /\ length h' = length h /\
    Rep h' (set_parent par x (Some y)) val.
Proof.
  intros HR Hx Hy Hf Hp HP Hn. destruct (any_bound h val 0) as (C & B1 & B2 & _).
  destruct (set_fa_chk_ok one yes C (yes_ok C) fuel h par val x y ly HR Hx Hy Hf Hp HP Hn (or_introl B1) B2) as (h' & E & _ & H).
  exists h'. split; [eapply set_fa_chk_sim; exact E|exact H].
Qed.

Theorem get_min_ok fuel h par val x r below y above :
  Rep h par val -> (x < length h)%nat -> (length h < fuel)%nat ->
  path par x ((below ++ y :: above) ++ [r]) ->
  (forall z, In z below -> val y <= val z) ->
  (forall z, In z above -> val y < val z) ->
  exists h', get_min_wtrbnr fuel h x = Ok (h', (val y, Some y)) /\ length h' = length h /\ Rep h' par val.
Proof.
  intros HR Hx Hf HP Hb Ha. destruct (any_bound h val 0) as (C & B1 & B2 & _).
  destruct (get_min_chk_ok one yes C (yes_ok C) fuel h par val x r below y above HR Hx Hf HP Hb Ha B1 B2) as (h' & E & _ & H).
  exists h'. split; [eapply get_min_chk_sim; exact E|exact H].
Qed.

End Plain.
