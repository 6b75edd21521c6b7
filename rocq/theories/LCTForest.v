(** * The heap of auxiliary trees represents a forest *)
From Coq Require Import Permutation.
From Verif Require Import Base BaseLemmas Data LCT LCTTree LCTHeap LCTSplay LCTSpec LCTChecked LCTBound.
Local Open Scope Z_scope.

Section Forest.
Variable one : Z.
#[local] Hint Extern 0 (DataOps Z) => exact (exact_ops one) : typeclass_instances.

Fixpoint chain (par : nat -> option nat) (val : nat -> Z) (p : option nat) (L : list (nat * Z)) : Prop :=
  match L with
  | [] => True
  | (x, v) :: L => par x = p /\ val x = v /\ chain par val (Some x) L
  end.

Definition aidx (ts : list (option nat * tree)) : list nat := flat_map (fun pt => idx (snd pt)) ts.

Definition tree_ok h par val (pt : option nat * tree) : Prop :=
  rep h (fst pt) (snd pt) /\ submins (snd pt) /\ chain par val (fst pt) (vals 0 (snd pt)).

Record trees_ok (h : heap Z) par val (ts : list (option nat * tree)) : Prop := {
  t_ok : Forall (tree_ok h par val) ts;
  t_nd : NoDup (aidx ts);
  t_all : forall i, In i (aidx ts) <-> (i < length h)%nat
}.

Record wf (N : nat) (par : nat -> option nat) : Prop := {
  wf_path : forall x, (x < N)%nat -> exists l, path par x l;
  wf_lt : forall x y, (x < N)%nat -> par x = Some y -> (y < N)%nat
}.

Definition Rep (h : heap Z) (par : nat -> option nat) (val : nat -> Z) : Prop :=
  (exists ts, trees_ok h par val ts) /\ wf (length h) par.

(** ** Paths *)
Lemma path_det par x l l' : path par x l -> path par x l' -> l = l'.
Proof.
  intros H; revert l'; induction H as [x Hx|x y l Hx Hp IH]; intros l' H'; inversion H'; subst; try congruence.
  f_equal. apply IH. congruence.
Qed.

Lemma path_hd par x l : path par x l -> exists l', l = x :: l'.
Proof. intros H; inversion H; subst; eauto. Qed.

Lemma path_in_suffix par x l y : path par x l -> In y l ->
  exists l1 l2, l = l1 ++ l2 /\ path par y l2.
Proof.
  intros H; induction H as [x Hx|x z l Hx Hp IH]; intros Hi.
  - destruct Hi as [<-|[]]. exists [], [x]. split; auto. constructor; auto.
  - destruct Hi as [<-|Hi].
    + exists [], (x :: l). split; auto. econstructor; eauto.
    + destruct (IH Hi) as (l1 & l2 & -> & H2). exists (x :: l1), l2. auto.
Qed.

Lemma path_nodup par x l : path par x l -> NoDup l.
Proof.
  intros H; induction H as [x Hx|x y l Hx Hp IH].
  - constructor; [simpl; auto|constructor].
  - constructor; auto. intros Hi. destruct (path_in_suffix _ _ _ _ Hp Hi) as (l1 & l2 & -> & H2).
    assert (H3 : path par x (x :: l1 ++ l2)) by (econstructor; eauto).
    assert (E := path_det _ _ _ _ H2 H3).
    assert (E2 := f_equal (@length nat) E). simpl in E2. rewrite app_length in E2. lia.
Qed.

Lemma path_lt N par x l : wf N par -> (x < N)%nat -> path par x l -> forall y, In y l -> (y < N)%nat.
Proof.
  intros HW Hx HP; induction HP as [x E|x z l E HP IH]; intros y Hi.
  - destruct Hi as [<-|[]]; auto.
  - destruct Hi as [<-|Hi]; auto. apply IH; auto. eapply wf_lt; eauto.
Qed.

Lemma path_length N par x l : wf N par -> (x < N)%nat -> path par x l -> (length l <= N)%nat.
Proof.
  intros HW Hx HP.
  assert (H : (length l <= length (seq 0 N))%nat).
  { apply NoDup_incl_length; [eapply path_nodup; eauto|].
    intros y Hy. apply in_seq. assert (H := path_lt _ _ _ _ HW Hx HP y Hy). lia. }
  rewrite seq_length in H. exact H.
Qed.

(** ** Chains *)
Lemma chain_app par val p A g v B :
  chain par val p (A ++ (g, v) :: B) <-> chain par val p (A ++ [(g, v)]) /\ chain par val (Some g) B.
Proof.
  revert p; induction A as [|[x w] A IH]; intros p; simpl; [tauto|].
  rewrite IH. tauto.
Qed.

Lemma chain_shorter par val g L y ly :
  chain par val (Some g) L -> In y (map fst L) -> path par y ly ->
  exists lg, path par g lg /\ (length lg < length ly)%nat.
Proof.
  revert g; induction L as [|[x v] L IH]; intros g; simpl; [tauto|].
  intros (Hx & Hv & HC) Hi HP. destruct Hi as [<-|Hi].
  - inversion HP; subst; [congruence|]. assert (y = g) by congruence. subst. eexists; split; eauto.
  - destruct (IH x HC Hi HP) as (lx & Hlx & Hlen).
    inversion Hlx; subst; [congruence|]. assert (y0 = g) by congruence. subst.
    eexists; split; eauto. simpl in Hlen. lia.
Qed.

Lemma chain_path_none par val A x v :
  chain par val None (A ++ [(x, v)]) -> path par x (x :: rev (map fst A)) /\ val x = v.
Proof.
  assert (G : forall A p lp, chain par val p (A ++ [(x, v)]) ->
     (forall g, p = Some g -> path par g lp) -> (p = None -> lp = []) ->
     path par x (x :: rev (map fst A) ++ lp) /\ val x = v).
  { induction A0 as [|[y w] A0 IH]; intros p lp; simpl.
    - intros (Hx & Hv & _) H1 H2. split; auto. destruct p as [g|].
      + econstructor; eauto.
      + rewrite H2; auto. constructor; auto.
    - intros (Hy & Hw & HC) H1 H2.
      destruct (IH (Some y) (y :: lp) HC) as [G1 G2].
      + intros g Eg. inversion Eg; subst. destruct (par g) as [g'|] eqn:E.
        * econstructor; eauto.
        * rewrite H2; auto. constructor; auto.
      + congruence.
      + split; auto. rewrite <- app_assoc. exact G1. }
  intros HC. destruct (G A None [] HC) as [G1 G2]; auto; [congruence|].
  rewrite app_nil_r in G1. auto.
Qed.

Lemma chain_vals par val p L x v : chain par val p L -> In (x, v) L -> val x = v.
Proof.
  revert p; induction L as [|[y w] L IH]; intros p; simpl; [tauto|].
  intros (H1 & H2 & H3) [E|Hi]; [inversion E; subst; auto|eauto].
Qed.

Lemma chain_ext par val par' val' p L :
  (forall x, In x (map fst L) -> par' x = par x /\ val' x = val x) ->
  chain par val p L -> chain par' val' p L.
Proof.
  revert p; induction L as [|[y w] L IH]; intros p HE; simpl; [auto|].
  intros (H1 & H2 & H3). destruct (HE y) as [E1 E2]; [simpl; auto|].
  repeat split; try congruence. apply IH; auto. intros x Hx; apply HE; simpl; auto.
Qed.

(** ** trees_ok *)
Lemma aidx_cons p t ts : aidx ((p, t) :: ts) = idx t ++ aidx ts.
Proof. reflexivity. Qed.

Lemma trees_perm h par val ts ts' : Permutation ts ts' -> trees_ok h par val ts -> trees_ok h par val ts'.
Proof.
  intros HP [H1 H2 H3].
  assert (HA : Permutation (aidx ts) (aidx ts')) by (apply Permutation_flat_map; exact HP).
  constructor.
  - eapply Permutation_Forall; eauto.
  - eapply Permutation_NoDup; eauto.
  - intros i. rewrite <- H3. split; apply Permutation_in; [symmetry|]; exact HA.
Qed.

Lemma find_tree h par val ts x :
  trees_ok h par val ts -> (x < length h)%nat ->
  exists p t ts', Permutation ts ((p, t) :: ts') /\ In x (idx t).
Proof.
  intros HT Hx. apply (t_all _ _ _ _ HT) in Hx. apply in_flat_map in Hx.
  destruct Hx as ([p t] & Hi & Hx). apply in_split in Hi. destruct Hi as (ts1 & ts2 & ->).
  exists p, t, (ts1 ++ ts2). split; [symmetry; apply Permutation_middle|exact Hx].
Qed.

Lemma rep_child h p t g ng c :
  rep h p t -> In g (idx t) -> nth_error h g = Some ng ->
  n_c0 ng = Some c \/ n_c1 ng = Some c -> In c (idx t).
Proof.
  revert p; induction t as [|l IHl x v a m r IHr]; intros p; simpl; [tauto|].
  intros (H1 & H2 & H3) Hi Hn Hc. apply in_app_or in Hi. apply in_or_app.
  destruct Hi as [Hi|[->|Hi]].
  - left. eapply IHl; eauto.
  - rewrite H1 in Hn. inversion Hn; subst ng. simpl in Hc. destruct Hc as [Hc|Hc].
    + left. apply root_in_idx; auto.
    + right. simpl. right. apply root_in_idx; auto.
  - right. simpl. right. eapply IHr; eauto.
Qed.


Lemma aidx_app ts ts' : aidx (ts ++ ts') = aidx ts ++ aidx ts'.
Proof. apply flat_map_app. Qed.

Lemma in_aidx p t ts i : In (p, t) ts -> In i (idx t) -> In i (aidx ts).
Proof. intros H1 H2. apply in_flat_map. exists (p, t). auto. Qed.

Lemma ext_of h par val p t ts x :
  trees_ok h par val ((p, t) :: ts) -> wf (length h) par -> In x (idx t) -> ext h p (idx t).
Proof.
  intros HT HW Hx. pose proof HT as [H1 H2 H3].
  inversion H1 as [|pt0 ts0 HT0 HTS]; subst. destruct HT0 as (HR & HM & HC).
  cbn [fst snd] in *. rewrite aidx_cons in H2.
  destruct p as [g|]; simpl; [|auto].
  assert (Hfst : map fst (vals 0 t) = idx t) by apply map_fst_vals.
  assert (Hg : ~ In g (idx t)).
  { intros Hg. destruct (wf_path _ _ HW g) as [lg Hlg]; [apply H3; rewrite aidx_cons; apply in_or_app; auto|].
    rewrite <- Hfst in Hg. destruct (chain_shorter _ _ _ _ _ _ HC Hg Hlg) as (lg' & Hlg' & Hlen).
    rewrite (path_det _ _ _ _ Hlg Hlg') in Hlen. lia. }
  assert (Lg : (g < length h)%nat).
  { destruct (vals 0 t) as [|[y w] L] eqn:EV; [simpl in Hfst; rewrite <- Hfst in Hx; destruct Hx|].
    destruct HC as (Hy & _). eapply (wf_lt _ _ HW y); [|exact Hy].
    apply H3. rewrite aidx_cons. apply in_or_app. left. rewrite <- Hfst. simpl; auto. }
  split; [exact Hg|].
  destruct (nth_error h g) as [ng|] eqn:Eg; [|apply nth_error_None in Eg; lia].
  exists ng; split; auto.
  apply H3 in Lg. rewrite aidx_cons in Lg. apply in_app_or in Lg. destruct Lg as [Lg|Lg]; [tauto|].
  apply in_flat_map in Lg. destruct Lg as ([p2 t2] & Hi2 & Hg2).
  assert (HT2 : tree_ok h par val (p2, t2)) by (rewrite Forall_forall in HTS; apply HTS; exact Hi2).
  destruct HT2 as (HR2 & _). cbn [fst snd] in *.
  intros i Hi. split; intros Hc.
  - assert (Hi' : In i (idx t2)) by (eapply rep_child; eauto).
    exact (NoDup_app_disj _ _ i H2 Hi (in_aidx _ _ _ _ Hi2 Hi')).
  - assert (Hi' : In i (idx t2)) by (eapply rep_child; eauto).
    exact (NoDup_app_disj _ _ i H2 Hi (in_aidx _ _ _ _ Hi2 Hi')).
Qed.

Lemma trees_upd h h' par val par' val' ts0 ts1 ts :
  trees_ok h par val (ts0 ++ ts) ->
  same_off h h' (aidx ts0) ->
  Permutation (aidx ts0) (aidx ts1) ->
  Forall (tree_ok h' par' val') ts1 ->
  (forall p t, In (p, t) ts -> chain par val p (vals 0 t) -> chain par' val' p (vals 0 t)) ->
  trees_ok h' par' val' (ts1 ++ ts).
Proof.
  intros [H1 H2 H3] [HL HS] HP HF HC. rewrite aidx_app in H2. setoid_rewrite aidx_app in H3.
  apply Forall_app in H1. destruct H1 as [H1a H1b].
  constructor.
  - apply Forall_app; split; auto. rewrite Forall_forall in *. intros [p t] Hi.
    destruct (H1b _ Hi) as (HR & HM & HCh). cbn [fst snd] in *.
    split; [|split]; cbn [fst snd]; auto.
    eapply rep_frame; [|exact HR]. intros i Hii. apply HS. intros Hi0.
    exact (NoDup_app_disj _ _ i H2 Hi0 (in_aidx _ _ _ _ Hi Hii)).
  - rewrite aidx_app. eapply Permutation_NoDup; [|exact H2]. apply Permutation_app_tail; exact HP.
  - intros i. rewrite aidx_app, HL, <- H3. split; intros Hi; apply in_app_or in Hi; apply in_or_app;
      destruct Hi as [Hi|Hi]; auto; left; eapply Permutation_in; try exact Hi; [symmetry|]; exact HP.
Qed.

Lemma trees_len h par val ts p t : trees_ok h par val ts -> In (p, t) ts -> (length (idx t) <= length h)%nat.
Proof.
  intros [H1 H2 H3] Hi. apply in_split in Hi. destruct Hi as (a & b & ->).
  assert (H : (length (aidx (a ++ (p, t) :: b)) <= length (seq 0 (length h)))%nat).
  { apply NoDup_incl_length; auto. intros i Hi. apply in_seq. apply H3 in Hi. lia. }
  rewrite seq_length, aidx_app, aidx_cons, !app_length in H. lia.
Qed.

Lemma trees_tail_nodup h par val p t ts : trees_ok h par val ((p, t) :: ts) -> NoDup (idx t).
Proof. intros [_ H _]. rewrite aidx_cons in H. eapply NoDup_app_l; eauto. Qed.

(** ** Checked runs

    From here on [C] bounds the values of the forest and the numbers stored in
    the heap, and [okd] accepts every number up to [2 * C]. *)
Variable okd : Z -> bool.
Variable C : Z.
Hypothesis Hokd : forall z, Z.abs z <= 2 * C -> okd z = true.

Definition vb (val : nat -> Z) (N : nat) : Prop := forall i, (i < N)%nat -> Z.abs (val i) <= C.

(** splaying inside one tree of the forest *)
Lemma splay_forest fuel h par val p t ts x :
  trees_ok h par val ((p, t) :: ts) -> wf (length h) par -> In x (idx t) -> (length h < fuel)%nat ->
  (sbh C h \/ root t = Some x /\ sbx C x h) -> vb val (length h) ->
  exists h' l v m r, splay_chk okd fuel h x = Ok h' /\ sbh C h' /\ length h' = length h /\
    trees_ok h' par val ((p, Nd l x v 0 m r) :: ts) /\
    vals 0 (Nd l x v 0 m r) = vals 0 t /\
    allmins (Nd l x v 0 m r).
Proof.
  intros HT HW Hx Hf HS HB. pose proof (t_ok _ _ _ _ HT) as HF.
  inversion HF as [|pt0 ts0 HT0 HTS]; subst. destruct HT0 as (HR & HM & HC). cbn [fst snd] in *.
  destruct (splay_chk_ok one okd C Hokd fuel h p t x) as (h' & l & v & m & r & E & SB & R & V & A & S); auto.
  { eapply trees_tail_nodup; eauto. }
  { eapply ext_of; eauto. }
  { assert (length (idx t) <= length h)%nat by (eapply trees_len; [exact HT|left; reflexivity]). lia. }
  { intros y u Hy. rewrite <- (chain_vals _ _ _ _ _ _ HC Hy). apply HB. eapply rep_lt; [exact HR|].
    rewrite <- (map_fst_vals 0). apply in_map_iff. exists (y, u). auto. }
  exists h', l, v, m, r. split; auto. split; auto. split; [apply S|]. split; [|split; auto].
  assert (I : idx (Nd l x v 0 m r) = idx t) by (rewrite <- (map_fst_vals 0 t), <- V, map_fst_vals; reflexivity).
  apply (trees_upd h h' par val par val [(p, t)] [(p, Nd l x v 0 m r)] ts); auto.
  - simpl. rewrite app_nil_r. exact S.
  - unfold aidx. cbn [flat_map snd]. rewrite I. reflexivity.
  - constructor; [|constructor]. split; [|split]; cbn [fst snd]; auto.
    + apply allmins_submins; auto.
    + rewrite V; auto.
Qed.

Lemma access_loop_chk_ok fuel0 par val : forall fuel h p tq ts,
  trees_ok h par val ((p, tq) :: ts) -> wf (length h) par -> (length h < fuel0)%nat ->
  allmins tq -> sbh C h -> vb val (length h) ->
  (forall g, p = Some g -> (g < length h)%nat /\ (exists lp, path par g lp /\ (length lp <= fuel)%nat) /\ ~ In g (idx tq)) ->
  exists h' t' ts', access_loop_chk okd fuel0 fuel h p (root tq) = Ok h' /\ sbh C h' /\ length h' = length h /\
    trees_ok h' par val ((None, t') :: ts') /\ allmins t' /\
    (forall g, p = Some g -> exists L v, vals 0 t' = L ++ (g, v) :: vals 0 tq) /\
    (p = None -> t' = tq).
Proof.
  intros fuel. induction fuel as [|fuel IH]; intros h p tq ts HT HW Hf0 HA HSB HVB HP.
  - destruct p as [g|].
    + destruct (HP g eq_refl) as (_ & (lp & H2 & H3) & _). destruct (path_hd _ _ _ H2) as [l' ->]. simpl in H3; lia.
    + cbn [access_loop_chk]. exists h, tq, ts. split; auto. split; auto. repeat split; auto. all: try apply HT. congruence.
  - destruct p as [g|]; cycle 1.
    { cbn [access_loop_chk]. exists h, tq, ts. split; auto. split; auto. repeat split; auto. all: try apply HT. congruence. }
    destruct (HP g eq_refl) as (Hg & (lp & Hlp & Hlen) & Hgq). cbn [access_loop_chk].
    (* find g's tree *)
    assert (HG : exists pg tg ts', Permutation ts ((pg, tg) :: ts') /\ In g (idx tg)).
    { apply (t_all _ _ _ _ HT) in Hg. rewrite aidx_cons in Hg. apply in_app_or in Hg.
      destruct Hg as [Hg|Hg]; [tauto|]. apply in_flat_map in Hg.
      destruct Hg as ([pg tg] & Hi & Hg). apply in_split in Hi. destruct Hi as (ts1 & ts2 & ->).
      exists pg, tg, (ts1 ++ ts2). split; [symmetry; apply Permutation_middle|exact Hg]. }
    destruct HG as (pg & tg & ts' & HPerm & Hgt).
    assert (HT1 : trees_ok h par val ((pg, tg) :: (Some g, tq) :: ts')).
    { eapply trees_perm; [|exact HT]. rewrite HPerm. apply perm_swap. }
    destruct (splay_forest fuel0 h par val pg tg ((Some g, tq) :: ts') g HT1 HW Hgt Hf0 (or_introl HSB) HVB)
      as (h1 & l & v & m & r & E1 & SB1 & L1 & T1 & V1 & A1).
    rewrite E1. cbn [bind].
    pose proof (t_ok _ _ _ _ T1) as F1. inversion F1 as [|a1 b1 Hg1 F2]; subst a1 b1.
    inversion F2 as [|a2 b2 Hq1 F3]; subst a2 b2.
    destruct Hg1 as (Rg & Mg & Cg). destruct Hq1 as (Rq & Mq & Cq). cbn [fst snd] in *.
    pose proof Rg as (Ng & Rl & Rr).
    pose proof (t_nd _ _ _ _ T1) as ND1. rewrite !aidx_cons in ND1.
    assert (NDg : NoDup (idx (Nd l g v 0 m r))) by (eapply NoDup_app_l; eauto).
    assert (NDq : NoDup (idx tq)) by (eapply NoDup_app_l, NoDup_app_r; eauto).
    assert (Dgq : forall i, In i (idx (Nd l g v 0 m r)) -> In i (idx tq) -> False).
    { intros i Hi Hj. apply (NoDup_app_disj _ _ i ND1 Hi). apply in_or_app; auto. }
    destruct (setc_ok h1 g _ tq (Some g) true Ng Rq NDq) as (h2 & E2 & N2 & R2 & S2).
    { intros Hi. apply (Dgq g); auto. simpl. apply in_or_app; simpl; auto. }
    rewrite E2. cbn [bind]. cbn [set_ch_ n_fa n_c0 n_min n_val n_add] in N2.
    assert (Nlr : ~ In g (idx l ++ idx r)) by (cbn [idx] in NDg; apply NoDup_remove_2 in NDg; exact NDg).
    assert (R2l : rep h2 (Some g) l).
    { eapply rep_frame; [|exact Rl]. intros i Hi. apply S2. intros [->|Hi2].
      - apply Nlr, in_or_app; auto.
      - apply (Dgq i); auto. simpl. apply in_or_app; auto. }
    assert (SB2 := setc_sb C h1 g (root tq) true h2 SB1 E2).
    assert (E3 := push_up_ok one h2 g _ _ _ _ _ _ N2 R2l R2).
    assert (SB3 := push_up_sb one C h2 g _ SB2 E3).
    rewrite E3. cbn [bind].
    assert (Lg2 : (g < length h2)%nat) by (eapply nth_error_lt; eauto).
    rewrite (ld_ok _ _ _ (nth_error_upd_eq h2 g _ Lg2)). cbn [bind n_fa].
    set (m3 := pu l g v tq) in *.
    set (h3 := upd h2 g _) in *.
    set (tg3 := Nd l g v 0 m3 tq).
    assert (A1' := A1). destruct A1' as (A1l & A1r & _).
    assert (A3 : allmins tg3) by (apply allmins_pu; auto).
    assert (V1' : vals 0 tg = vals 0 l ++ (g, v) :: vals 0 r).
    { rewrite <- V1. cbn [vals]. rewrite !Z.add_0_r. reflexivity. }
    assert (V3 : vals 0 tg3 = vals 0 l ++ (g, v) :: vals 0 tq).
    { unfold tg3. cbn [vals]. rewrite !Z.add_0_r. reflexivity. }
    assert (S13 : same_off h1 h3 (g :: idx tq)).
    { eapply same_off_trans; [exact S2|]. apply same_off_upd. simpl; auto. }
    assert (R3 : rep h3 pg tg3).
    { unfold tg3. cbn [rep]. split; [|split].
      - apply nth_error_upd_eq; auto.
      - eapply rep_frame; [|exact R2l]. intros i Hi. apply nth_error_upd_neq. intros ->. apply Nlr, in_or_app; auto.
      - eapply rep_frame; [|exact R2]. intros i Hi. apply nth_error_upd_neq. intros ->.
        apply (Dgq i); auto. simpl. apply in_or_app; simpl; auto. }
    assert (R3r : rep h3 (Some g) r).
    { eapply rep_frame; [|exact Rr]. intros i Hi. apply S13. intros [->|Hi2].
      - apply Nlr, in_or_app; auto.
      - apply (Dgq i); auto. simpl. apply in_or_app; simpl; auto. }
    assert (CC : chain par val pg (vals 0 l ++ [(g, v)]) /\ chain par val (Some g) (vals 0 r)).
    { rewrite V1, V1' in Cg. apply chain_app in Cg. exact Cg. }
    assert (T3 : trees_ok h3 par val ((pg, tg3) :: (Some g, r) :: ts')).
    { apply (trees_upd h1 h3 par val par val [(pg, Nd l g v 0 m r); (Some g, tq)] [(pg, tg3); (Some g, r)] ts'); auto.
      - split; [apply S13|]. intros i Hi. apply S13. intros Hi2. apply Hi.
        rewrite aidx_cons. apply in_or_app. destruct Hi2 as [<-|Hi2].
        + left. simpl. apply in_or_app; simpl; auto.
        + right. rewrite aidx_cons. apply in_or_app; auto.
      - rewrite !aidx_cons. simpl. rewrite !app_nil_r.
        rewrite <- !app_assoc. apply Permutation_app_head. simpl. constructor. apply Permutation_app_comm.
      - constructor; [|constructor; [|constructor]]; (split; [|split]); cbn [fst snd]; auto.
        + apply allmins_submins; auto.
        + rewrite V3. apply chain_app. split; [apply CC|auto].
        + apply allmins_submins; auto.
        + apply CC. }
    assert (L3 : length h3 = length h) by (destruct S13 as [S13 _]; congruence).
    destruct (IH h3 pg tg3 ((Some g, r) :: ts')) as (h' & t' & ts'' & E' & SB' & L' & T' & A' & C' & D'); auto.
    { rewrite L3; auto. }
    { lia. }
    { rewrite L3; auto. }
    { intros g' ->. destruct CC as [CC _].
      assert (Hx : exists lg, path par g' lg /\ (length lg < length lp)%nat).
      { eapply chain_shorter; [exact CC| |exact Hlp]. rewrite map_app. apply in_or_app. right. simpl; auto. }
      destruct Hx as (lg & Hlg & Hlen').
      assert (Htl : exists c, In c (idx tg) /\ par c = Some g').
      { destruct (vals 0 l) as [|[y w] L] eqn:EV; simpl in CC.
        - exists g. split; auto. apply CC.
        - exists y. split; [|apply CC]. rewrite <- (map_fst_vals 0 tg), V1'. simpl. auto. }
      destruct Htl as (c & Hc & Hpc).
      assert (Lg' : (g' < length h3)%nat).
      { rewrite L3. eapply (wf_lt _ _ HW c); [|exact Hpc]. apply (t_all _ _ _ _ HT1).
        rewrite aidx_cons. apply in_or_app; auto. }
      split; auto. split; [exists lg; split; auto; lia|].
      intros Hi. rewrite <- (map_fst_vals 0 tg3) in Hi.
      assert (C3 : chain par val (Some g') (vals 0 tg3)) by (rewrite V3; apply chain_app; auto).
      destruct (chain_shorter _ _ _ _ _ _ C3 Hi Hlg) as (lg2 & Hlg2 & Hlen2).
      rewrite (path_det _ _ _ _ Hlg Hlg2) in Hlen2. lia. }
    exists h', t', ts''. split; [exact E'|]. split; [exact SB'|]. split; [congruence|]. split; [exact T'|]. split; [exact A'|].
    split; [|congruence].
    intros g0 Eg0. inversion Eg0; subst g0.
    destruct pg as [g'|].
    + destruct (C' g' eq_refl) as (L & v' & HL). exists (L ++ (g', v') :: vals 0 l), v.
      rewrite HL, V3. rewrite <- app_assoc. reflexivity.
    + rewrite (D' eq_refl). exists (vals 0 l), v. exact V3.
Qed.

Lemma last_split (A B L : list (nat * Z)) x v v' :
  A ++ (x, v) :: B = L ++ [(x, v')] -> NoDup (map fst (A ++ (x, v) :: B)) -> B = [].
Proof.
  revert L; induction A as [|a A IH]; intros L E ND.
  - destruct B as [|b B]; auto. exfalso.
    assert (Hx : In x (map fst (b :: B))).
    { destruct L as [|c L]; [discriminate|]. simpl in E. inversion E as [[E1 E2]].
      rewrite E2, map_app. apply in_or_app. right. simpl; auto. }
    simpl in ND. inversion ND as [|z zs Hn Hd]; subst. apply Hn. exact Hx.
  - destruct L as [|c L].
    + destruct A; discriminate.
    + simpl in E. inversion E; subst. apply (IH L); auto. simpl in ND. inversion ND; auto.
Qed.

Lemma vals_nil t : vals 0 t = [] -> t = Lf.
Proof. destruct t as [|l x v a m r]; auto. intros H; apply (f_equal (@length _)) in H. cbn [vals] in H. rewrite app_length in H. simpl in H. lia. Qed.

Theorem access_chk_ok fuel h par val ts x :
  trees_ok h par val ts -> wf (length h) par -> (x < length h)%nat -> (length h < fuel)%nat ->
  sbh C h -> vb val (length h) ->
  exists h' l v m ts', access_chk okd fuel h x = Ok h' /\ sbh C h' /\ length h' = length h /\
    trees_ok h' par val ((None, Nd l x v 0 m Lf) :: ts') /\ allmins (Nd l x v 0 m Lf).
Proof.
  intros HT HW Hx Hf HSB HVB.
  assert (HT0 : trees_ok h par val ((Some x, Lf) :: ts)).
  { destruct HT as [H1 H2 H3]. constructor; auto. constructor; auto. split; [|split]; simpl; auto. }
  destruct (wf_path _ _ HW x Hx) as [lp Hlp].
  destruct (access_loop_chk_ok fuel par val fuel h (Some x) Lf ts HT0 HW Hf I HSB HVB) as (h1 & t1 & ts1 & E1 & SB1 & L1 & T1 & A1 & C1 & _).
  { intros g Eg. inversion Eg; subst g. split; auto. split; [|simpl; auto].
    exists lp. split; auto. assert (H := path_length _ _ _ _ HW Hx Hlp). lia. }
  destruct (C1 x eq_refl) as (L & v0 & V0). cbn [vals] in V0.
  unfold access_chk. cbn [root] in E1. rewrite E1. cbn [bind].
  assert (Hx1 : In x (idx t1)).
  { rewrite <- (map_fst_vals 0), V0, map_app. apply in_or_app. right; simpl; auto. }
  destruct (splay_forest fuel h1 par val None t1 ts1 x) as (h2 & l & v & m & r & E2 & SB2 & L2 & T2 & V2 & A2); auto.
  { rewrite L1; auto. }
  { lia. }
  { rewrite L1; auto. }
  assert (Er : r = Lf).
  { apply vals_nil. cbn [vals] in V2. rewrite !Z.add_0_r in V2.
    eapply (last_split (vals 0 l) (vals 0 r) L x v v0); [congruence|].
    rewrite map_app. cbn [map fst]. rewrite !map_fst_vals.
    apply (trees_tail_nodup _ _ _ _ _ _ T2). }
  subst r. exists h2, l, v, m, ts1. rewrite E2. split; auto. split; auto. repeat split; auto; try congruence; try apply T2; try apply A2.
Qed.

(** what an accessed tree says about the forest *)
Lemma accessed_path h par val l x v m ts :
  trees_ok h par val ((None, Nd l x v 0 m Lf) :: ts) ->
  path par x (x :: rev (idx l)) /\ val x = v.
Proof.
  intros HT. pose proof (t_ok _ _ _ _ HT) as HF. inversion HF as [|a b H1 H2]; subst.
  destruct H1 as (_ & _ & HC). cbn [fst snd vals] in HC. rewrite !Z.add_0_r in HC.
  apply chain_path_none in HC. rewrite map_fst_vals in HC. exact HC.
Qed.

End Forest.
