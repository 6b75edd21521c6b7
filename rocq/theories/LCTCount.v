(** * Every call of the link-cut tree makes a linear number of loop turns *)
From Coq Require Import Permutation.
From Verif Require Import Base BaseLemmas Data LCT LCTTree LCTHeap LCTSplay LCTSpec LCTChecked LCTBound LCTForest LCTOps LCTRun LCTTime FuelMono.
Local Open Scope Z_scope.

(** the bound, for a vector of [N] nodes *)
Definition call_turns (N : nat) : nat := (8 * N + 3)%nat.

(** [lct_call] and [lct_calls] with the turns counted *)
Definition lct_call_t (one : Z) (fuel : nat) (h : heap Z) (op : lct_op) : counted (heap Z * lct_out) :=
  let ops := exact_ops one in
  match op with
  | FindRoot x => p <~ find_root_t fuel h x ;; let ' (h, r) := p in free (Ok (h, ONode r))
  | SetFa x y => h <~ set_fa_t fuel h x (Some y) ;; free (Ok (h, ONone))
  | Cut x => h <~ cut_t fuel h x ;; free (Ok (h, ONone))
  | GetVal x => p <~ get_val_t fuel h x ;; let ' (h, v) := p in free (Ok (h, OVal v))
  | GetMin x => p <~ get_min_wtrbnr_t fuel h x ;; let ' (h, m) := p in
                match snd m with
                | Some y => free (Ok (h, OMin (fst m) y))
                | None => Err NullDeref
                end
  | SetVal x v => h <~ set_val_t fuel h x v ;; free (Ok (h, ONone))
  | AddPath x d => h <~ add_val_way_to_root_t fuel h x d ;; free (Ok (h, ONone))
  end.

Fixpoint lct_calls_t (one : Z) (fuel : nat) (h : heap Z) (os : list lct_op) : counted (heap Z * list lct_out) :=
  match os with
  | [] => free (Ok (h, []))
  | op :: os =>
      p <~ lct_call_t one fuel h op ;; let ' (h, o) := p in
      p <~ lct_calls_t one fuel h os ;; let ' (h, r) := p in
      free (Ok (h, o :: r))
  end.

Section Count.
Variable one : Z.
#[local] Hint Extern 0 (DataOps Z) => exact (exact_ops one) : typeclass_instances.

Lemma later_ok {A} (m1 m2 : res A) a : later m1 m2 -> m1 = Ok a -> m2 = Ok a.
Proof. intros [-> | ->] E; [discriminate|exact E]. Qed.

Lemma splay_count k fuel (h : heap Z) x h1 h2 c : (k <= fuel)%nat -> splay k h x = Ok h1 -> splay_t fuel h x = Ok (h2, c) ->
  h2 = h1 /\ (c <= 2 * k)%nat.
Proof.
  intros Hk H HT. assert (E : splay fuel h x = Ok h2) by (rewrite <- splay_erase, HT; reflexivity).
  assert (E' := later_ok _ _ _ (splay_later Hk h x) H). split; [congruence|]. clear E E'.
  unfold splay in H. apply bind_inv in H. destruct H as (ha & Ha & H). apply bind_inv in H. destruct H as (hb & Hb & H).
  unfold splay_t in HT. apply cbind_inv in HT. destruct HT as (ha' & i1 & j1 & Ta & HT & ->).
  apply cbind_inv in HT. destruct HT as (hb' & i2 & j2 & Tb & HT & ->). apply free_inv in HT. destruct HT as [_ ->].
  assert (L1 := push_down_from_root_count _ _ _ _ _ _ _ Ha Ta).
  assert (E : push_down_from_root fuel h x = Ok ha') by (rewrite <- push_down_from_root_erase, Ta; reflexivity).
  assert (E' := later_ok _ _ _ (push_down_from_root_later k fuel Hk h x) Ha).
  assert (ha' = ha) by congruence. subst ha'.
  assert (L2 := splay_loop_count _ _ _ _ _ _ _ Hb Tb). lia.
Qed.

Let yes (z : Z) := true.
Lemma yes_fine C z : Z.abs z <= 2 * C -> yes z = true. Proof. reflexivity. Qed.

(** one round of the loop of access *)
Lemma access_step k h par val g tq pg tg ts' :
  trees_ok h par val ((pg, tg) :: (Some g, tq) :: ts') -> wf (length h) par -> In g (idx tg) ->
  (length (idx tg) < k)%nat -> allmins tq ->
  exists h1 h2 h3 nx tg3 r, splay k h g = Ok h1 /\ setc h1 g (root tq) true = Ok h2 /\ push_up h2 g = Ok h3 /\
    ld h3 g = Ok nx /\ n_fa nx = pg /\ root tg3 = Some g /\ length h3 = length h /\
    trees_ok h3 par val ((pg, tg3) :: (Some g, r) :: ts') /\ allmins tg3 /\
    same_off h h1 (idx tg) /\ (exists l v m, tg3 = Nd l g v 0 m tq /\ idx l ++ g :: idx r = idx tg).
Proof.
  intros HT1 HW Hgt Hk HA.
  pose proof (t_ok _ _ _ _ HT1) as F0. inversion F0 as [|a0 b0 Hg0 F0']; subst a0 b0. destruct Hg0 as (HR0 & HM0 & HC0). cbn [fst snd] in *.
  destruct (splay_ok one k h pg tg g HR0 (trees_tail_nodup _ _ _ _ _ _ HT1) (ext_of _ _ _ _ _ _ _ HT1 HW Hgt) HM0 Hgt Hk)
    as (h1 & l & v & m & r & E1 & R1 & V1 & A1 & S1).
  assert (I : idx (Nd l g v 0 m r) = idx tg) by (rewrite <- (map_fst_vals 0 tg), <- V1, map_fst_vals; reflexivity).
  assert (T1 : trees_ok h1 par val ((pg, Nd l g v 0 m r) :: (Some g, tq) :: ts')).
  { apply (trees_upd h h1 par val par val [(pg, tg)] [(pg, Nd l g v 0 m r)] ((Some g, tq) :: ts')); auto.
    - simpl. rewrite app_nil_r. exact S1.
    - unfold aidx. cbn [flat_map snd]. rewrite I. reflexivity.
    - constructor; [|constructor]. split; [|split]; cbn [fst snd]; auto.
      + apply allmins_submins; auto.
      + rewrite V1; auto. }
  pose proof (t_ok _ _ _ _ T1) as F1. inversion F1 as [|a1 b1 Hg1 F2]; subst a1 b1.
  inversion F2 as [|a2 b2 Hq1 F3]; subst a2 b2.
  destruct Hg1 as (Rg & Mg & Cg). destruct Hq1 as (Rq & Mq & Cq). cbn [fst snd] in *.
  pose proof Rg as (Ng & Rl & Rr).
  pose proof (t_nd _ _ _ _ T1) as ND1. rewrite !aidx_cons in ND1.
  assert (NDg : NoDup (idx (Nd l g v 0 m r))) by (eapply NoDup_app_l; eauto).
  assert (NDq : NoDup (idx tq)) by (eapply NoDup_app_l, NoDup_app_r; eauto).
  assert (Dgq : forall i, In i (idx (Nd l g v 0 m r)) -> In i (idx tq) -> False).
  { intros i Hi Hj. apply (NoDup_app_disj _ _ i ND1 Hi). apply in_or_app; auto. }
  destruct (setc_ok h1 g _ tq (Some g) true Ng Rq NDq) as (h2 & E2 & N2 & R2 & S2).
  { intros Hi. apply (Dgq g); auto. simpl. apply in_or_app; simpl; auto. }
  cbn [set_ch_ n_fa n_c0 n_min n_val n_add] in N2.
  assert (Nlr : ~ In g (idx l ++ idx r)) by (cbn [idx] in NDg; apply NoDup_remove_2 in NDg; exact NDg).
  assert (R2l : rep h2 (Some g) l).
  { eapply rep_frame; [|exact Rl]. intros i Hi. apply S2. intros [->|Hi2].
    - apply Nlr, in_or_app; auto.
    - apply (Dgq i); auto. simpl. apply in_or_app; auto. }
  assert (E3 := push_up_ok one h2 g _ _ _ _ _ _ N2 R2l R2).
  assert (Lg2 : (g < length h2)%nat) by (eapply nth_error_lt; eauto).
  set (m3 := pu l g v tq) in *.
  exists h1, h2, (upd h2 g (mkNode pg (root l) (root tq) m3 v 0)), (mkNode pg (root l) (root tq) m3 v 0), (Nd l g v 0 m3 tq), r.
  split; [exact E1|]. split; [exact E2|]. split; [exact E3|].
  split; [exact (ld_ok _ _ _ (nth_error_upd_eq h2 g _ Lg2))|].
  set (h3 := upd h2 g _) in *. set (tg3 := Nd l g v 0 m3 tq).
  assert (A1' := A1). destruct A1' as (A1l & A1r & _).
  assert (A3 : allmins tg3) by (apply allmins_pu; auto).
  assert (V1' : vals 0 tg = vals 0 l ++ (g, v) :: vals 0 r).
  { rewrite <- V1. cbn [vals]. rewrite !Z.add_0_r. reflexivity. }
  assert (V3 : vals 0 tg3 = vals 0 l ++ (g, v) :: vals 0 tq).
  { unfold tg3. cbn [vals]. rewrite !Z.add_0_r. reflexivity. }
  assert (S13 : same_off h1 h3 (g :: idx tq)).
  { eapply same_off_trans; [exact S2|]. apply same_off_upd. simpl; auto. }
  assert (R3 : rep h3 pg tg3).
  { unfold tg3. cbn [rep]. split; [|split].
    - apply nth_error_upd_eq; auto.
    - eapply rep_frame; [|exact R2l]. intros i Hi. apply nth_error_upd_neq. intros ->. apply Nlr, in_or_app; auto.
    - eapply rep_frame; [|exact R2]. intros i Hi. apply nth_error_upd_neq. intros ->.
      apply (Dgq i); auto. simpl. apply in_or_app; simpl; auto. }
  assert (R3r : rep h3 (Some g) r).
  { eapply rep_frame; [|exact Rr]. intros i Hi. apply S13. intros [->|Hi2].
    - apply Nlr, in_or_app; auto.
    - apply (Dgq i); auto. simpl. apply in_or_app; simpl; auto. }
  assert (CC : chain par val pg (vals 0 l ++ [(g, v)]) /\ chain par val (Some g) (vals 0 r)).
  { rewrite V1, V1' in Cg. apply chain_app in Cg. exact Cg. }
  split; [reflexivity|]. split; [reflexivity|].
  split; [destruct S13 as [S13 _]; destruct S1 as [S1 _]; congruence|].
  split; [|split; [exact A3|split; [exact S1|exists l, v, m3; split; [reflexivity|exact I]]]].
  apply (trees_upd h1 h3 par val par val [(pg, Nd l g v 0 m r); (Some g, tq)] [(pg, tg3); (Some g, r)] ts'); auto.
  - split; [apply S13|]. intros i Hi. apply S13. intros Hi2. apply Hi.
    rewrite aidx_cons. apply in_or_app. destruct Hi2 as [<-|Hi2].
    + left. simpl. apply in_or_app; simpl; auto.
    + right. rewrite aidx_cons. apply in_or_app; auto.
  - rewrite !aidx_cons. simpl. rewrite !app_nil_r.
    rewrite <- !app_assoc. apply Permutation_app_head. simpl. constructor. apply Permutation_app_comm.
  - constructor; [|constructor; [|constructor]]; (split; [|split]); cbn [fst snd]; auto.
    + apply allmins_submins; auto.
    + rewrite V3. apply chain_app. split; [apply CC|auto].
    + apply allmins_submins; auto.
    + apply CC.
Qed.

(** The trees that the loop still has to visit are among [ts1], and no tree is
    visited twice. *)
Lemma access_loop_count par val : forall fuel fuel0 h p tq ts1 ts2 h' c,
  trees_ok h par val ((p, tq) :: ts1 ++ ts2) -> wf (length h) par -> (length h < fuel0)%nat -> allmins tq ->
  (forall g, p = Some g -> exists lp, path par g lp /\ forall i, In i lp -> In i (aidx ts1)) ->
  access_loop_t fuel0 fuel h p (root tq) = Ok (h', c) -> (c <= 5 * length (aidx ts1))%nat.
Proof.
  induction fuel as [|fuel IH]; intros fuel0 h p tq ts1 ts2 h' c HT HW Hf0 HA HP HL.
  { destruct p; cbn [access_loop_t] in HL; [discriminate|]. apply free_inv in HL. lia. }
  destruct p as [g|]; cbn [access_loop_t] in HL; [|apply free_inv in HL; lia].
  destruct (HP g eq_refl) as (lp & Hlp & Hin).
  assert (Hg : In g (aidx ts1)) by (apply Hin; destruct (path_hd _ _ _ Hlp) as [l' ->]; simpl; auto).
  apply in_flat_map in Hg. destruct Hg as ([pg tg] & Hi & Hgt). apply in_split in Hi. destruct Hi as (ta & tb & ->). cbn [snd] in Hgt.
  assert (HT1 : trees_ok h par val ((pg, tg) :: (Some g, tq) :: (ta ++ tb) ++ ts2)).
  { eapply trees_perm; [|exact HT]. rewrite perm_swap. apply perm_skip. rewrite <- !app_assoc. cbn [app]. symmetry. apply Permutation_middle. }
  assert (Ltg : (length (idx tg) <= length h)%nat) by (eapply trees_len; [exact HT1|left; reflexivity]).
  destruct (access_step (S (length (idx tg))) h par val g tq pg tg _ HT1 HW Hgt) as
    (h1 & h2 & h3 & nx & tg3 & r & E1 & E2 & E3 & E4 & E5 & E6 & L3 & T3 & A3 & _); [lia|exact HA|].
  apply turn_inv in HL. destruct HL as (i & HL & ->).
  apply cbind_inv in HL. destruct HL as (h1' & i1 & j1 & F1 & HL & ->).
  destruct (splay_count (S (length (idx tg))) fuel0 h g h1 h1' i1 ltac:(lia) E1 F1) as [-> C1].
  apply cbind_inv in HL. destruct HL as (h2' & i2 & j2 & F2 & HL & ->). apply free_inv in F2. destruct F2 as [F2 ->].
  assert (h2' = h2) by congruence. subst h2'.
  apply cbind_inv in HL. destruct HL as (h3' & i3 & j3 & F3 & HL & ->). apply free_inv in F3. destruct F3 as [F3 ->].
  assert (h3' = h3) by congruence. subst h3'.
  apply cbind_inv in HL. destruct HL as (nx' & i4 & j4 & F4 & HL & ->). apply free_inv in F4. destruct F4 as [F4 ->].
  assert (nx' = nx) by congruence. subst nx'. rewrite E5, <- E6 in HL.
  assert (C2 : (j4 <= 5 * length (aidx (ta ++ tb)))%nat).
  { eapply (IH fuel0 h3 pg tg3 (ta ++ tb) ((Some g, r) :: ts2)); [| |lia|exact A3| |exact HL].
    - eapply trees_perm; [|exact T3]. apply perm_skip. apply (Permutation_middle (ta ++ tb) ts2 (Some g, r)).
    - rewrite L3. exact HW.
    - intros g' ->.
      pose proof (t_ok _ _ _ _ HT1) as F0. inversion F0 as [|a0 b0 Hg0 F0']; subst a0 b0. destruct Hg0 as (_ & _ & HC0). cbn [fst snd] in *.
      assert (Hgv : In g (map fst (vals 0 tg))) by (rewrite map_fst_vals; exact Hgt).
      destruct (chain_shorter _ _ _ _ _ _ HC0 Hgv Hlp) as (lg & Hlg & Hlen).
      exists lg. split; [exact Hlg|]. intros y Hy.
      destruct (path_in_suffix _ _ _ _ Hlg Hy) as (l1 & l2 & El & Hl2).
      assert (Hny : ~ In y (idx tg)).
      { intros Hy2. rewrite <- (map_fst_vals 0 tg) in Hy2. destruct (chain_shorter _ _ _ _ _ _ HC0 Hy2 Hl2) as (lg' & Hlg' & Hlen').
        rewrite <- (path_det _ _ _ _ Hlg Hlg') in Hlen'. rewrite El, app_length in Hlen'. lia. }
      assert (Hyl : In y lp).
      { assert (Hsub : forall L p0 z lz, chain par val (Some p0) L -> In z (map fst L) -> path par z lz -> forall u lp0, path par p0 lp0 -> In u lp0 -> In u lz).
        { clear. induction L as [|[x w] L IHL]; intros p0 z lz HC Hz HP u lp0 Hp0 Hu; [destruct Hz|]. destruct HC as (H1 & H2 & H3).
          assert (Hx : path par x (x :: lp0)) by (econstructor; eauto).
          destruct Hz as [<-|Hz].
          - cbn [fst] in HP. rewrite (path_det _ _ _ _ HP Hx). right. exact Hu.
          - eapply (IHL x z lz H3 Hz HP); [exact Hx|right; exact Hu]. }
        eapply Hsub; eauto. }
      apply Hin in Hyl. rewrite aidx_app, aidx_cons in Hyl. rewrite aidx_app.
      apply in_app_or in Hyl. apply in_or_app. destruct Hyl as [Hyl|Hyl]; [auto|]. apply in_app_or in Hyl. tauto. }
  assert (C3 : (1 <= length (idx tg))%nat) by (destruct (idx tg); [destruct Hgt|simpl; lia]).
  rewrite aidx_app, app_length in C2. rewrite aidx_app, aidx_cons, !app_length. lia.
Qed.

Lemma aidx_length h par val ts : trees_ok h par val ts -> length (aidx ts) = length h.
Proof.
  intros [_ H2 H3]. apply Nat.le_antisymm.
  - rewrite <- (seq_length (length h) 0). apply NoDup_incl_length; [exact H2|]. intros i Hi. apply in_seq. apply H3 in Hi. lia.
  - rewrite <- (seq_length (length h) 0) at 1. apply NoDup_incl_length; [apply seq_NoDup|]. intros i Hi. apply in_seq in Hi. apply H3. lia.
Qed.

Lemma access_count fuel h par val x h' c :
  Rep h par val -> (x < length h)%nat -> (length h < fuel)%nat -> access_t fuel h x = Ok (h', c) ->
  (c <= 7 * length h + 2)%nat /\
  exists l v m ts, trees_ok h' par val ((None, Nd l x v 0 m Lf) :: ts) /\ allmins (Nd l x v 0 m Lf) /\ length h' = length h.
Proof.
  intros HRep Hx Hf HT. pose proof HRep as [[ts HTs] HW].
  destruct (any_bound h val 0) as (C & B1 & B2 & _).
  destruct (access_rep one yes C (yes_fine C) fuel h par val x HRep Hx Hf B1 B2) as (h2 & l & v & m & ts' & E & _ & L & T & A & _).
  apply access_chk_sim in E.
  assert (E' : access fuel h x = Ok h') by (rewrite <- access_erase, HT; reflexivity).
  assert (h2 = h') by congruence. subst h2.
  split; [|exists l, v, m, ts'; split; [exact T|]; split; [exact A|exact L]].
  unfold access_t in HT. apply cbind_inv in HT. destruct HT as (h1 & i & j & F1 & F2 & ->).
  assert (HT0 : trees_ok h par val ((Some x, Lf) :: ts ++ [])).
  { rewrite app_nil_r. destruct HTs as [H1 H2 H3]. constructor; auto. constructor; auto. split; [|split]; simpl; auto. }
  assert (Ci : (i <= 5 * length (aidx ts))%nat).
  { eapply (access_loop_count par val fuel fuel h (Some x) Lf ts []); [exact HT0|exact HW|exact Hf|exact I| |exact F1].
    intros g Eg. inversion Eg; subst g. destruct (wf_path _ _ HW x Hx) as [lp Hlp]. exists lp. split; [exact Hlp|].
    intros y Hy. apply (t_all _ _ _ _ HTs). eapply path_lt; eauto. }
  rewrite (aidx_length _ _ _ _ HTs) in Ci.
  assert (E1 : access_loop fuel fuel h (Some x) None = Ok h1) by (rewrite <- access_loop_erase, F1; reflexivity).
  rewrite app_nil_r in HT0.
  destruct (wf_path _ _ HW x Hx) as [lp Hlp].
  destruct (access_loop_chk_ok one yes C (yes_fine C) fuel par val fuel h (Some x) Lf ts HT0 HW Hf I B1 B2) as (h1' & t1 & ts1 & G1 & _ & L1 & T1 & A1 & C1 & _).
  { intros g Eg. inversion Eg; subst g. split; auto. split; [|simpl; auto].
    exists lp. split; auto. assert (H := path_length _ _ _ _ HW Hx Hlp). lia. }
  apply access_loop_chk_sim in G1. cbn [root] in G1. assert (h1' = h1) by congruence. subst h1'.
  destruct (C1 x eq_refl) as (LL & v0 & V0). cbn [vals] in V0.
  assert (Hx1 : In x (idx t1)).
  { rewrite <- (map_fst_vals 0), V0, map_app. apply in_or_app. right; simpl; auto. }
  assert (Lt1 : (length (idx t1) <= length h1)%nat) by (eapply trees_len; [exact T1|left; reflexivity]).
  pose proof (t_ok _ _ _ _ T1) as F0. inversion F0 as [|a0 b0 Hg0 F0']; subst a0 b0. destruct Hg0 as (HR0 & HM0 & HC0). cbn [fst snd] in *.
  assert (HW1 : wf (length h1) par) by (rewrite L1; exact HW).
  destruct (splay_ok one (S (length h)) h1 None t1 x HR0 (trees_tail_nodup _ _ _ _ _ _ T1) (ext_of _ _ _ _ _ _ _ T1 HW1 Hx1) HM0 Hx1) as (h3 & _ & _ & _ & _ & E3 & _); [lia|].
  destruct (splay_count (S (length h)) fuel h1 x h3 h' j ltac:(lia) E3 F2) as [_ Cj]. lia.
Qed.

Lemma find_root_count fuel h par val x r c :
  Rep h par val -> (x < length h)%nat -> (length h < fuel)%nat -> find_root_t fuel h x = Ok (r, c) -> (c <= call_turns (length h))%nat.
Proof.
  intros HRep Hx Hf HT. unfold find_root_t in HT. apply cbind_inv in HT. destruct HT as (h1 & i & j & F1 & HT & ->).
  destruct (access_count _ _ _ _ _ _ _ HRep Hx Hf F1) as (Ci & l & v & m & ts & T & A & L).
  apply cbind_inv in HT. destruct HT as (y & i2 & j2 & F2 & HT & ->). apply free_inv in HT. destruct HT as [_ ->].
  pose proof (t_ok _ _ _ _ T) as F0. inversion F0 as [|a0 b0 Hg0 F0']; subst a0 b0. destruct Hg0 as (HR0 & _). cbn [fst snd] in *.
  assert (Lt1 := trees_len _ _ _ _ None (Nd l x v 0 m Lf) T (or_introl eq_refl)).
  assert (E := leftmost_ok (S (length h)) h1 None (Nd l x v 0 m Lf) x O HR0 eq_refl ltac:(lia)).
  assert (C2 := leftmost_count _ _ _ _ _ _ _ E F2). unfold call_turns. lia.
Qed.

Lemma get_min_count fuel h par val x r c :
  Rep h par val -> (x < length h)%nat -> (length h < fuel)%nat -> get_min_wtrbnr_t fuel h x = Ok (r, c) -> (c <= call_turns (length h))%nat.
Proof.
  intros HRep Hx Hf HT. unfold get_min_wtrbnr_t in HT. apply cbind_inv in HT. destruct HT as (h1 & i & j & F1 & HT & ->).
  destruct (access_count _ _ _ _ _ _ _ HRep Hx Hf F1) as (Ci & l & v & m & ts & T & A & L).
  pose proof (t_ok _ _ _ _ T) as F0. inversion F0 as [|a0 b0 Hg0 F0']; subst a0 b0. destruct Hg0 as (HR0 & _ & HC). cbn [fst snd] in *.
  apply cbind_inv in HT. destruct HT as (nx & i2 & j2 & F2 & HT & ->). apply free_inv in F2. destruct F2 as [F2 ->].
  pose proof HR0 as (Hn & _ & _). rewrite (ld_ok _ _ _ Hn) in F2. inversion F2; subst nx. clear F2. cbn [n_val] in HT.
  assert (Lt1 := trees_len _ _ _ _ None (Nd l x v 0 m Lf) T (or_introl eq_refl)).
  destruct (any_bound h1 val 0) as (C & B1 & B2 & _).
  assert (HB : bv C 0 (Nd l x v 0 m Lf)).
  { intros z u Hz. rewrite <- (chain_vals _ _ _ _ _ _ HC Hz). apply B2. eapply rep_lt; [exact HR0|].
    rewrite <- (map_fst_vals 0). apply in_map_iff. exists (z, u). auto. }
  destruct (get_min_loop_chk_ok one yes C (yes_fine C) (S (length h)) h1 None (Nd l x v 0 m Lf) x (v, Some x) HR0 (trees_tail_nodup _ _ _ _ _ _ T) A eq_refl ltac:(lia) B1 HB)
    as (h2 & t2 & out & E2 & _).
  apply get_min_loop_chk_sim in E2.
  assert (C2 := get_min_loop_count _ _ _ _ _ _ _ _ E2 HT). unfold call_turns. lia.
Qed.

Lemma set_fa_count fuel h par val x p r c :
  Rep h par val -> (x < length h)%nat -> (length h < fuel)%nat -> set_fa_t fuel h x p = Ok (r, c) -> (c <= call_turns (length h))%nat.
Proof.
  intros HRep Hx Hf HT. destruct HRep as [[ts HTs] HW].
  unfold set_fa_t in HT. apply cbind_inv in HT. destruct HT as (h1 & i & j & F1 & HT & ->).
  apply cbind_inv in HT. destruct HT as (nx & i2 & j2 & F2 & HT & ->). apply free_inv in F2. destruct F2 as [F2 ->].
  apply cbind_inv in HT. destruct HT as (u & i3 & j3 & F3 & HT & ->). apply free_inv in F3. destruct F3 as [F3 ->].
  apply free_inv in HT. destruct HT as [_ ->].
  destruct (find_tree _ _ _ _ _ HTs Hx) as (q & t & ts' & HPm & Hxt).
  assert (HT1 := trees_perm _ _ _ _ _ HPm HTs).
  pose proof (t_ok _ _ _ _ HT1) as F0. inversion F0 as [|a0 b0 Hg0 F0']; subst a0 b0. destruct Hg0 as (HR0 & HM0 & HC0). cbn [fst snd] in *.
  assert (Lt1 := trees_len _ _ _ _ q t HT1 (or_introl eq_refl)).
  destruct (splay_ok one (S (length h)) h q t x HR0 (trees_tail_nodup _ _ _ _ _ _ HT1) (ext_of _ _ _ _ _ _ _ HT1 HW Hxt) HM0 Hxt) as (h3 & _ & _ & _ & _ & E3 & _); [lia|].
  destruct (splay_count (S (length h)) fuel h x h3 h1 i ltac:(lia) E3 F1) as [_ Cj]. unfold call_turns. lia.
Qed.

Lemma cut_count fuel h par val x r c :
  Rep h par val -> (x < length h)%nat -> (length h < fuel)%nat -> cut_t fuel h x = Ok (r, c) -> (c <= call_turns (length h))%nat.
Proof.
  intros HRep Hx Hf HT. unfold cut_t in HT. apply cbind_inv in HT. destruct HT as (h1 & i & j & F1 & HT & ->).
  destruct (access_count _ _ _ _ _ _ _ HRep Hx Hf F1) as (Ci & _).
  apply cbind_inv in HT. destruct HT as (nx & i2 & j2 & F2 & HT & ->). apply free_inv in F2. destruct F2 as [F2 ->].
  apply cbind_inv in HT. destruct HT as (u & i3 & j3 & F3 & HT & ->). apply free_inv in F3. destruct F3 as [F3 ->].
  destruct (n_c0 nx); [|discriminate].
  apply cbind_inv in HT. destruct HT as (h2 & i4 & j4 & F4 & HT & ->). apply free_inv in F4. destruct F4 as [F4 ->].
  apply cbind_inv in HT. destruct HT as (h3 & i5 & j5 & F5 & HT & ->). apply free_inv in F5. destruct F5 as [F5 ->].
  apply free_inv in HT. destruct HT as [_ ->]. unfold call_turns. lia.
Qed.

Lemma opt_access_count fuel h par val x (r : bool) h1 i :
  Rep h par val -> (x < length h)%nat -> (length h < fuel)%nat ->
  (if r then free (Ok h) else access_t fuel h x) = Ok (h1, i) -> (i <= call_turns (length h))%nat.
Proof.
  intros HRep Hx Hf HT. destruct r; [apply free_inv in HT; lia|].
  destruct (access_count _ _ _ _ _ _ _ HRep Hx Hf HT) as (Ci & _). unfold call_turns. lia.
Qed.

Lemma get_val_count fuel h par val x r c :
  Rep h par val -> (x < length h)%nat -> (length h < fuel)%nat -> get_val_t fuel h x = Ok (r, c) -> (c <= call_turns (length h))%nat.
Proof.
  intros HRep Hx Hf HT. unfold get_val_t in HT.
  apply cbind_inv in HT. destruct HT as (b & i2 & j2 & F2 & HT & ->). apply free_inv in F2. destruct F2 as [F2 ->].
  apply cbind_inv in HT. destruct HT as (h1 & i & j & F1 & HT & ->). assert (Ci := opt_access_count _ _ _ _ _ _ _ _ HRep Hx Hf F1).
  apply cbind_inv in HT. destruct HT as (nx & i3 & j3 & F3 & HT & ->). apply free_inv in F3. destruct F3 as [F3 ->].
  apply free_inv in HT. destruct HT as [_ ->]. lia.
Qed.

Lemma set_val_count fuel h par val x v r c :
  Rep h par val -> (x < length h)%nat -> (length h < fuel)%nat -> set_val_t fuel h x v = Ok (r, c) -> (c <= call_turns (length h))%nat.
Proof.
  intros HRep Hx Hf HT. unfold set_val_t in HT.
  apply cbind_inv in HT. destruct HT as (b & i2 & j2 & F2 & HT & ->). apply free_inv in F2. destruct F2 as [F2 ->].
  apply cbind_inv in HT. destruct HT as (h1 & i & j & F1 & HT & ->). assert (Ci := opt_access_count _ _ _ _ _ _ _ _ HRep Hx Hf F1).
  apply cbind_inv in HT. destruct HT as (nx & i3 & j3 & F3 & HT & ->). apply free_inv in F3. destruct F3 as [F3 ->].
  apply free_inv in HT. destruct HT as [_ ->]. lia.
Qed.

Lemma add_path_count fuel h par val x d r c :
  Rep h par val -> (x < length h)%nat -> (length h < fuel)%nat -> add_val_way_to_root_t fuel h x d = Ok (r, c) -> (c <= call_turns (length h))%nat.
Proof.
  intros HRep Hx Hf HT. unfold add_val_way_to_root_t in HT. apply cbind_inv in HT. destruct HT as (h1 & i & j & F1 & HT & ->).
  destruct (access_count _ _ _ _ _ _ _ HRep Hx Hf F1) as (Ci & _). apply free_inv in HT. destruct HT as [_ ->]. unfold call_turns. lia.
Qed.

(** ** Sequences of calls *)
Lemma lct_call_erase fuel h op : erase (lct_call_t one fuel h op) = lct_call one fuel h op.
Proof.
  destruct op as [x|x y|x|x|x|x v|x d]; cbn [lct_call_t lct_call]; rewrite erase_cbind.
  - rewrite find_root_erase. apply bind_ext. intros [h1 r]. reflexivity.
  - rewrite set_fa_erase. apply bind_ext. reflexivity.
  - rewrite cut_erase. apply bind_ext. reflexivity.
  - rewrite get_val_erase. apply bind_ext. intros [h1 r]. reflexivity.
  - rewrite get_min_erase. apply bind_ext. intros [h1 m]. destruct (snd m); reflexivity.
  - rewrite set_val_erase. apply bind_ext. reflexivity.
  - rewrite add_path_erase. apply bind_ext. reflexivity.
Qed.

Lemma lct_calls_erase fuel : forall os h, erase (lct_calls_t one fuel h os) = lct_calls one fuel h os.
Proof.
  induction os as [|op os IH]; intros h; [reflexivity|]. cbn [lct_calls_t lct_calls]. rewrite erase_cbind, lct_call_erase. apply bind_ext.
  intros [h1 o]. rewrite erase_cbind, IH. apply bind_ext. intros [h2 r]. reflexivity.
Qed.

Lemma lct_call_count fuel h f op f' o r c :
  (length h < fuel)%nat -> Rep h (parent f) (value f) -> lct_step (length h) f op f' o ->
  lct_call_t one fuel h op = Ok (r, c) -> (c <= call_turns (length h))%nat.
Proof.
  intros Hf HR HS HT.
  destruct HS as [f x l r0 Hx HP|f x y ly Hx Hy Hr HP Hn|f x y Hx Hp|f x Hx|f x r0 below y above Hx HP H1 H2|f x v Hx|f x l d Hx HP];
    cbn [lct_call_t] in HT; apply cbind_inv in HT; destruct HT as (a & i & j & F1 & HT & ->).
  - destruct a. apply free_inv in HT. destruct HT as [_ ->]. assert (C := find_root_count _ _ _ _ _ _ _ HR Hx Hf F1). lia.
  - apply free_inv in HT. destruct HT as [_ ->]. assert (C := set_fa_count _ _ _ _ _ _ _ _ HR Hx Hf F1). lia.
  - apply free_inv in HT. destruct HT as [_ ->]. assert (C := cut_count _ _ _ _ _ _ _ HR Hx Hf F1). lia.
  - destruct a. apply free_inv in HT. destruct HT as [_ ->]. assert (C := get_val_count _ _ _ _ _ _ _ HR Hx Hf F1). lia.
  - destruct a as [h1 m]. destruct (snd m); [|discriminate]. apply free_inv in HT. destruct HT as [_ ->].
    assert (C := get_min_count _ _ _ _ _ _ _ HR Hx Hf F1). lia.
  - apply free_inv in HT. destruct HT as [_ ->]. assert (C := set_val_count _ _ _ _ _ _ _ _ HR Hx Hf F1). lia.
  - apply free_inv in HT. destruct HT as [_ ->]. assert (C := add_path_count _ _ _ _ _ _ _ _ HR Hx Hf F1). lia.
Qed.

Lemma lct_calls_count fuel : forall os h f f' outs r c,
  (length h < fuel)%nat -> Rep h (parent f) (value f) -> lct_run (length h) f os f' outs ->
  lct_calls_t one fuel h os = Ok (r, c) -> (c <= length os * call_turns (length h))%nat.
Proof.
  induction os as [|op os IH]; intros h f f' outs r c Hf HR HS HT; cbn [lct_calls_t] in HT.
  - apply free_inv in HT. destruct HT as [_ ->]. lia.
  - inversion HS as [|f0 op0 f1 o os0 f2 outs0 H1 H2]; subst.
    apply cbind_inv in HT. destruct HT as ([h1 o1] & i & j & F1 & HT & ->).
    apply cbind_inv in HT. destruct HT as ([h2 r2] & i2 & j2 & F2 & HT & ->). apply free_inv in HT. destruct HT as [_ ->].
    assert (C1 := lct_call_count _ _ _ _ _ _ _ _ Hf HR H1 F1).
    destruct (lct_call_ok one _ _ _ _ _ _ _ Hf eq_refl HR H1) as (h1' & E1 & L1 & R1).
    assert (E : lct_call one fuel h op = Ok (h1, o1)) by (rewrite <- lct_call_erase, F1; reflexivity).
    assert (h1' = h1) by congruence. subst h1'.
    assert (C2 := IH h1 f1 f' outs0 (h2, r2) i2). rewrite L1 in C2. specialize (C2 Hf R1 H2 F2). cbn [length]. lia.
Qed.

Theorem lct_program_time N fuel os f outs :
  (N < fuel)%nat -> lct_run N forest0 os f outs ->
  exists h c, lct_calls_t one fuel (repeat node0 N) os = Ok (h, outs, c) /\
    lct_calls one fuel (repeat node0 N) os = Ok (h, outs) /\ (c <= length os * call_turns N)%nat.
Proof.
  intros Hf HS. destruct (lct_program_ok one N fuel os f outs Hf HS) as (h & E & _).
  assert (E' := E). rewrite <- lct_calls_erase in E'. apply erase_inv in E'. destruct E' as [c E'].
  exists h, c. split; [exact E'|]. split; [exact E|].
  assert (L : length (repeat (@node0 Z (exact_ops one)) N) = N) by apply repeat_length.
  rewrite <- L at 1. eapply (lct_calls_count fuel os _ forest0 f outs); [rewrite L; exact Hf|apply rep_init|rewrite L; exact HS|exact E'].
Qed.

Theorem lct_next_call_time N fuel os f outs h op f' o :
  (N < fuel)%nat -> lct_run N forest0 os f outs ->
  lct_calls one fuel (repeat node0 N) os = Ok (h, outs) -> lct_step N f op f' o ->
  exists h' c, lct_call_t one fuel h op = Ok (h', o, c) /\ lct_call one fuel h op = Ok (h', o) /\ (c <= call_turns N)%nat.
Proof.
  intros Hf HS E HO. destruct (lct_calls_ok one N fuel (repeat node0 N) forest0 os f outs Hf) as (h1 & E1 & L1 & R1); auto.
  { apply repeat_length. } { apply (rep_init one N). }
  assert (h1 = h) by congruence. subst h1.
  destruct (lct_call_ok one N fuel h f op f' o Hf L1 R1 HO) as (h' & E2 & _).
  assert (E3 := E2). rewrite <- lct_call_erase in E3. apply erase_inv in E3. destruct E3 as [c E3].
  exists h', c. split; [exact E3|]. split; [exact E2|]. rewrite <- L1. rewrite <- L1 in Hf, HO. eapply lct_call_count; eauto.
Qed.
End Count.
