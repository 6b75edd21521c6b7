(** * The network built by ProblemSolver has the same meaning as the problem *)
From Coq Require Import Sorting.Sorted Sorting.Permutation.
From Verif Require Import Base BaseLemmas Data ProblemDefine Flow ProblemSolver.
From Verif Require Import Sums Spec Convex FlowNet PDProof.
Local Open Scope Z_scope.

Definition diff (nu : nat -> Z) (o : OmegaLimit Z) : Z := nu (o_i o) - nu (o_j o).
Definition sat1 (nu : nat -> Z) (o : OmegaLimit Z) : Prop := o_l o <= diff nu o <= o_u o.
Definition sat (L : list (OmegaLimit Z)) (nu : nat -> Z) : Prop := forall o, In o L -> sat1 nu o.
Definition cost1 (nu : nat -> Z) (o : OmegaLimit Z) : Z := cost (o_fn o) (diff nu o).
Definition lcost (L : list (OmegaLimit Z)) (nu : nat -> Z) : Z := zsum L (cost1 nu).

Lemma zsum_perm {A} (L L' : list A) f : Permutation L L' -> zsum L f = zsum L' f.
Proof. induction 1; simpl; lia. Qed.

Record lgood (n : nat) (K R : Z) (o : OmegaLimit Z) : Prop := {
  lg_lu : o_l o <= o_u o;
  lg_def : defined_on (o_fn o) (o_l o) (o_u o);
  lg_conv : convex_on (cost (o_fn o)) (o_l o) (o_u o);
  lg_i : (o_i o <= n)%nat;
  lg_j : (o_j o <= n)%nat;
  lg_l : - K <= o_l o;
  lg_u : o_u o <= K;
  lg_r : o_u o - o_l o <= R
}.

(** same constraint, same cost *)
Definition leq (o o' : OmegaLimit Z) : Prop :=
  forall nu, (sat1 nu o <-> sat1 nu o') /\ (sat1 nu o -> cost1 nu o' = cost1 nu o).

Lemma rev_edge_leq o o' : rev_edge o o' -> leq o o'.
Proof.
  intros (E1 & E2 & E3 & E4 & E5) nu. unfold sat1, cost1, diff. rewrite E1, E2, E3, E4.
  split; [lia|]. intros H. rewrite <- E5 by lia. f_equal. lia.
Qed.

Lemma rev_edge_good n K R o o' : rev_edge o o' -> (forall x, o_l o <= x <= o_u o -> o_fn o' (- x) = o_fn o x) ->
  lgood n K R o -> lgood n K R o'.
Proof.
  intros (E1 & E2 & E3 & E4 & E5) HF [A B C D E F G H]. constructor; rewrite ?E1, ?E2, ?E3, ?E4; auto; try lia.
  - intros x Hx. replace x with (- - x) by lia. rewrite HF by lia. apply B. lia.
  - eapply convex_ext; [apply convex_opp; exact C|]. intros x Hx. cbv beta.
    replace x with (- - x) at 1 by lia. apply E5. lia.
Qed.

(** ** The map *)
Definition klt (a b : nat * nat) : Prop := key_ltb a b = true.

Lemma key_eqb_spec a b : key_eqb a b = true <-> a = b.
Proof.
  unfold key_eqb. rewrite andb_true_iff, !Nat.eqb_eq. destruct a, b; simpl. split; [intros [-> ->]; auto|intros H; inversion H; auto].
Qed.

Lemma klt_irr a : ~ klt a a.
Proof. unfold klt, key_ltb. rewrite !Nat.ltb_irrefl, andb_false_r. simpl. discriminate. Qed.

Lemma klt_iff a b : klt a b <-> (fst a < fst b)%nat \/ (fst a = fst b /\ (snd a < snd b)%nat).
Proof. unfold klt, key_ltb. rewrite orb_true_iff, andb_true_iff, !Nat.ltb_lt, Nat.eqb_eq. reflexivity. Qed.

Lemma klt_trans a b c : klt a b -> klt b c -> klt a c.
Proof. rewrite !klt_iff. lia. Qed.

Lemma klt_tri a b : a <> b -> ~ klt a b -> klt b a.
Proof. rewrite !klt_iff. intros Hn H. destruct a as [a1 a2], b as [b1 b2]; simpl in *. destruct (Nat.eq_dec a1 b1); [subst|lia].
  destruct (Nat.eq_dec a2 b2); [subst; congruence|lia]. Qed.

Definition ksorted (mp : lmap (D:=Z)) : Prop := StronglySorted klt (map fst mp).

Lemma find_some_in (mp : lmap (D:=Z)) k o : map_find mp k = Some o -> In (k, o) mp.
Proof.
  induction mp as [|[k' v] mp IH]; simpl; [discriminate|].
  destruct (key_eqb k' k) eqn:E; [|auto]. apply key_eqb_spec in E. subst. intros H. inversion H. auto.
Qed.

(** [mp[k] = v] for a present key replaces its value *)
Lemma map_set_present mp k o v : ksorted mp -> map_find mp k = Some o ->
  exists l1 l2, mp = l1 ++ (k, o) :: l2 /\ map_set mp k v = l1 ++ (k, v) :: l2.
Proof.
  induction mp as [|[k' v'] mp IH]; intros HS HF; cbn [map_find map_set] in *; [discriminate|].
  destruct (key_eqb k' k) eqn:E.
  - apply key_eqb_spec in E. subst. inversion HF; subst. exists [], mp. auto.
  - destruct (key_ltb k k') eqn:El.
    + exfalso. apply find_some_in in HF. inversion HS as [|? ? HS' HFa]; subst.
      rewrite Forall_forall in HFa. assert (X := HFa k (in_map fst _ _ HF)).
      apply (klt_irr k). eapply klt_trans; [exact El|exact X].
    + inversion HS as [|? ? HS' HFa]; subst. destruct (IH HS' HF) as (l1 & l2 & E1 & E2).
      exists ((k', v') :: l1), l2. rewrite E2. subst mp. auto.
Qed.

Lemma map_set_absent (mp : lmap (D:=Z)) k v : map_find mp k = None ->
  exists l1 l2, mp = l1 ++ l2 /\ map_set mp k v = l1 ++ (k, v) :: l2.
Proof.
  induction mp as [|[k' v'] mp IH]; intros HF; cbn [map_find map_set] in *; [exists [], []; auto|].
  destruct (key_eqb k' k) eqn:E; [discriminate|].
  destruct (key_ltb k k') eqn:El.
  - exists [], ((k', v') :: mp). auto.
  - destruct (IH HF) as (l1 & l2 & E1 & E2). exists ((k', v') :: l1), l2. rewrite E2, E1. auto.
Qed.

Lemma map_set_keys (mp : lmap (D:=Z)) k v x : In x (map fst (map_set mp k v)) -> x = k \/ In x (map fst mp).
Proof.
  induction mp as [|[k' v'] mp IH]; cbn [map_set map fst In]; [intros [<-|[]]; auto|].
  destruct (key_eqb k' k) eqn:E; [|destruct (key_ltb k k')]; cbn [map fst In].
  - intros [<-|H]; auto.
  - intros [<-|[<-|H]]; auto.
  - intros [<-|H]; auto. destruct (IH H); auto.
Qed.

Lemma map_set_sorted (mp : lmap (D:=Z)) k v : ksorted mp -> ksorted (map_set mp k v).
Proof.
  unfold ksorted. induction mp as [|[k' v'] mp IH]; intros HS; cbn [map_set map fst].
  - constructor; constructor.
  - inversion HS as [|? ? HS' HFa]; subst.
    destruct (key_eqb k' k) eqn:E; [|destruct (key_ltb k k') eqn:El]; cbn [map fst].
    + apply key_eqb_spec in E. subst. constructor; auto.
    + constructor; [constructor; auto|]. rewrite Forall_forall in *. intros x [<-|Hx]; [exact El|].
      eapply klt_trans; [exact El|]. apply HFa; auto.
    + constructor; [apply IH; auto|]. rewrite Forall_forall in *. intros x Hx.
      apply map_set_keys in Hx. destruct Hx as [->|Hx]; [|auto].
      apply klt_tri; [|unfold klt; congruence]. intros ->. rewrite (proj2 (key_eqb_spec _ _) eq_refl) in E. discriminate.
Qed.

Definition keyed (mp : lmap (D:=Z)) : Prop := forall k o, In (k, o) mp -> k = (o_i o, o_j o).

Section Net.
Variable one : Z.
#[local] Hint Extern 0 (DataOps Z) => exact (exact_ops one) : typeclass_instances.
Variables (n : nat) (K R : Z).
Hypothesis HK : K <= INT_MAX.

Lemma merge_good o o2 : o_i o = o_i o2 -> o_j o = o_j o2 -> lgood n K R o -> lgood n K R o2 ->
  exists o' flag, merge o o2 = Ok (o', flag) /\ o_i o' = o_i o /\ o_j o' = o_j o /\
    (forall nu, sat1 nu o' <-> sat1 nu o /\ sat1 nu o2) /\
    (flag = true -> forall nu, ~ (sat1 nu o /\ sat1 nu o2)) /\
    (flag = false -> lgood n K R o' /\ forall nu, sat1 nu o' -> cost1 nu o' = cost1 nu o + cost1 nu o2).
Proof.
  intros Hi Hj G1 G2. destruct (merge_ok one o o2 Hi Hj) as (o' & flag & E & El & Eu & Ei & Ej & Ef & EF).
  exists o', flag. split; [exact E|]. split; auto. split; auto.
  assert (HS : forall nu, sat1 nu o' <-> sat1 nu o /\ sat1 nu o2).
  { intros nu. unfold sat1, diff. rewrite El, Eu, Ei, Ej, Hi, Hj. lia. }
  destruct G1 as [A1 A2 A3 A4 A5 A6 A7 A8], G2 as [B1 B2 B3 B4 B5 B6 B7 B8].
  assert (HF : forall x, o_l o' <= x <= o_u o' -> o_fn o' x = Ok (cost (o_fn o) x + cost (o_fn o2) x)).
  { intros x Hx. apply EF; [apply (cost_ok _ _ _ _ A2)|apply (cost_ok _ _ _ _ B2)]; lia. }
  assert (HC : forall x, o_l o' <= x <= o_u o' -> cost (o_fn o') x = cost (o_fn o) x + cost (o_fn o2) x).
  { intros x Hx. unfold cost at 1. rewrite HF by auto. reflexivity. }
  split; auto. split.
  - intros F nu Hnu. apply HS in Hnu. apply Ef in F. unfold sat1 in Hnu. lia.
  - intros F. assert (Hlu : o_l o' <= o_u o').
    { destruct (Z.le_gt_cases (o_l o') (o_u o')) as [|X]; auto. apply Ef in X. congruence. }
    split.
    + constructor; try lia.
      * intros x Hx. rewrite HF by auto. eauto.
      * apply (convex_ext (fun x => cost (o_fn o) x + cost (o_fn o2) x)); [apply convex_add; [apply (convex_sub _ (o_l o) (o_u o))|apply (convex_sub _ (o_l o2) (o_u o2))]; auto; lia|exact HC].
    + intros nu Hnu. unfold cost1. assert (Hd : diff nu o' = diff nu o /\ diff nu o' = diff nu o2).
      { unfold diff. rewrite Ei, Ej, Hi, Hj. auto. }
      destruct Hd as [D1 D2]. rewrite <- D1, <- D2. apply HC. exact Hnu.
Qed.

Lemma sat_cons o L nu : sat (o :: L) nu <-> sat1 nu o /\ sat L nu.
Proof. unfold sat. simpl. split; [intros H; split; auto|intros [H1 H2] x [<-|Hx]; auto]. Qed.

Lemma sat_app L1 L2 nu : sat (L1 ++ L2) nu <-> sat L1 nu /\ sat L2 nu.
Proof.
  unfold sat. split; [intros H; split; intros; apply H, in_or_app; auto|].
  intros [H1 H2] x Hx. apply in_app_or in Hx. destruct Hx; auto.
Qed.

Lemma sat_insert l1 o l2 nu : sat (l1 ++ o :: l2) nu <-> sat1 nu o /\ sat (l1 ++ l2) nu.
Proof. rewrite !sat_app, sat_cons. tauto. Qed.

Lemma lcost_insert l1 o l2 nu : lcost (l1 ++ o :: l2) nu = cost1 nu o + lcost (l1 ++ l2) nu.
Proof. unfold lcost. rewrite !zsum_app. cbn [zsum]. lia. Qed.

Lemma forall_insert {A} (P : A -> Prop) l1 o l2 : (forall x, In x (l1 ++ o :: l2) -> P x) <-> P o /\ forall x, In x (l1 ++ l2) -> P x.
Proof.
  split.
  - intros H. split; [apply H, in_or_app; simpl; auto|]. intros x Hx. apply H. apply in_app_or in Hx. apply in_or_app. simpl. tauto.
  - intros [H1 H2] x Hx. apply in_app_or in Hx. destruct Hx as [Hx|[<-|Hx]]; auto; apply H2, in_or_app; auto.
Qed.

(** ProblemSolver.cpp:66-77 *)
Lemma merge_loop_ok oms : forall mp,
  (forall o, In o oms -> lgood n K R o) -> (forall o, In o (map snd mp) -> lgood n K R o) ->
  keyed mp -> ksorted mp ->
  (exists mp', merge_loop oms mp = Ok (Some mp') /\ (forall o, In o (map snd mp') -> lgood n K R o) /\
     (length mp' <= length mp + length oms)%nat /\
     forall nu, (sat (map snd mp') nu <-> sat (map snd mp) nu /\ sat oms nu) /\
                (sat (map snd mp') nu -> lcost (map snd mp') nu = lcost (map snd mp) nu + lcost oms nu)) \/
  (merge_loop oms mp = Ok None /\ forall nu, ~ (sat (map snd mp) nu /\ sat oms nu)).
Proof.
  induction oms as [|it oms IH]; intros mp G1 G2 HK1 HS; cbn [merge_loop].
  - left. exists mp. split; auto. split; auto. split; [lia|]. intros nu. split.
    + split; [|tauto]. intros H. split; auto. intros o [].
    + intros _. unfold lcost at 3. simpl. lia.
  - assert (Gi := G1 it (or_introl eq_refl)).
    assert (HR : exists it', (if (o_i it <? o_j it)%nat then reverse it else Ok it) = Ok it' /\ lgood n K R it' /\ leq it it').
    { destruct (o_i it <? o_j it)%nat.
      - destruct Gi as [A1 A2 A3 A4 A5 A6 A7 A8] eqn:EG. destruct (reverse_ok it ltac:(lia) A1 ltac:(lia)) as (it' & E & HE & HF).
        exists it'. split; auto. split; [eapply rev_edge_good; eauto|apply rev_edge_leq; auto].
      - exists it. split; auto. split; auto. intros nu. tauto. }
    destruct HR as (it' & E & Gi' & HQ). rewrite E. cbn [bind]. clear E.
    set (k := (o_i it', o_j it')).
    destruct (map_find mp k) as [o|] eqn:EF.
    + assert (Hin := find_some_in _ _ _ EF). assert (Hk := HK1 _ _ Hin). unfold k in Hk. inversion Hk as [[Hk1 Hk2]].
      assert (Go : lgood n K R o) by (apply G2; apply (in_map snd _ _ Hin)).
      destruct (merge_good o it' ltac:(auto) ltac:(auto) Go Gi') as (o' & flag & Em & Ei & Ej & HSat & HT & HFl).
      rewrite Em. cbn [bind].
      destruct (map_set_present mp k o o' HS EF) as (l1 & l2 & E1 & E2).
      assert (E1' : map snd mp = map snd l1 ++ o :: map snd l2) by (rewrite E1, map_app; reflexivity).
      destruct flag.
      * right. split; [reflexivity|]. intros nu [H1 H2]. rewrite E1', sat_insert in H1. rewrite sat_cons in H2.
        apply (HT eq_refl nu). split; [tauto|]. apply HQ. tauto.
      * destruct (HFl eq_refl) as [Go' HC].
        assert (E2' : map snd (map_set mp k o') = map snd l1 ++ o' :: map snd l2) by (rewrite E2, map_app; reflexivity).
        destruct (IH (map_set mp k o')) as [(mp' & Em' & Gm & Hlen & HN)|[Em' HN]].
        { intros; apply G1; simpl; auto. }
        { rewrite E2'. apply forall_insert. split; auto. rewrite E1' in G2. apply forall_insert in G2. tauto. }
        { unfold keyed. rewrite E2. intros k2 o2 H2.
          assert (H2' : k2 = k /\ o2 = o' \/ In (k2, o2) mp).
          { rewrite E1. apply in_app_or in H2. destruct H2 as [H2|[H2|H2]].
            - right. apply in_or_app. auto.
            - inversion H2. auto.
            - right. apply in_or_app. simpl. auto. }
          destruct H2' as [[-> ->]|H2']; [|apply HK1; auto]. unfold k. congruence. }
        { apply map_set_sorted; auto. }
        -- left. exists mp'. split; auto. split; auto. split.
           { rewrite E2, app_length in Hlen. rewrite E1, app_length. simpl in *. lia. }
           intros nu. destruct (HN nu) as [HN1 HN2]. rewrite E2', sat_insert in HN1. rewrite E2', lcost_insert in HN2.
           rewrite E1', sat_insert, sat_cons, lcost_insert. rewrite HSat in HN1. destruct (HQ nu) as [Q1 Q2].
           split; [tauto|]. intros Hs. rewrite HN2 by auto. rewrite HC by (apply HSat; tauto). rewrite Q2 by tauto.
           change (lcost (it :: oms) nu) with (cost1 nu it + lcost oms nu). lia.
        -- right. split; auto. intros nu [H1 H2]. apply (HN nu). rewrite E2', sat_insert, HSat.
           rewrite E1', sat_insert in H1. rewrite sat_cons in H2. destruct (HQ nu) as [Q1 Q2]. tauto.
    + destruct (map_set_absent mp k it' EF) as (l1 & l2 & E1 & E2).
      assert (E1' : map snd mp = map snd l1 ++ map snd l2) by (rewrite E1, map_app; reflexivity).
      assert (E2' : map snd (map_set mp k it') = map snd l1 ++ it' :: map snd l2) by (rewrite E2, map_app; reflexivity).
      destruct (IH (map_set mp k it')) as [(mp' & Em' & Gm & Hlen & HN)|[Em' HN]].
      { intros; apply G1; simpl; auto. }
      { rewrite E2'. apply forall_insert. split; auto. rewrite E1' in G2. auto. }
      { unfold keyed. rewrite E2. intros k2 o2 H2.
        assert (H2' : k2 = k /\ o2 = it' \/ In (k2, o2) mp).
        { rewrite E1. apply in_app_or in H2. destruct H2 as [H2|[H2|H2]].
          - right. apply in_or_app. auto.
          - inversion H2. auto.
          - right. apply in_or_app. simpl. auto. }
        destruct H2' as [[-> ->]|H2']; [reflexivity|apply HK1; auto]. }
      { apply map_set_sorted; auto. }
      * left. exists mp'. split; auto. split; auto. split.
        { rewrite E2, app_length in Hlen. rewrite E1, app_length. simpl in *. lia. }
        intros nu. destruct (HN nu) as [HN1 HN2]. rewrite E2', sat_insert in HN1. rewrite E2', lcost_insert in HN2.
        rewrite E1', sat_cons. destruct (HQ nu) as [Q1 Q2].
        split; [tauto|]. intros Hs. rewrite HN2 by auto. rewrite Q2 by tauto.
        change (lcost (it :: oms) nu) with (cost1 nu it + lcost oms nu). lia.
      * right. split; auto. intros nu [H1 H2]. apply (HN nu). rewrite E2', sat_insert.
        rewrite E1' in H1. rewrite sat_cons in H2. destruct (HQ nu) as [Q1 Q2]. tauto.
Qed.

(** the limits mu_i - mu_0 (ProblemSolver.cpp:79-85) *)
Definition mu_limit (mus : list (MuLimit Z)) (i : nat) : OmegaLimit Z :=
  match nth_error mus i with
  | Some m => mkOm (m_l m) (m_u m) (m_fn m) i 0
  | None => OmegaLimit0
  end.

Lemma mu_loop_ok mus L : forall ret, (forall i, In i L -> (i < length mus)%nat) ->
  for_each L ret (fun ret i => m <- vget mus i ;; Ok (ret ++ [mkOm (m_l m) (m_u m) (m_fn m) i 0])) =
  Ok (ret ++ map (mu_limit mus) L).
Proof.
  induction L as [|i L IH]; intros ret H; cbn [for_each map].
  - rewrite app_nil_r. reflexivity.
  - assert (Hi := H i (or_introl eq_refl)). destruct (nth_error mus i) as [m|] eqn:Em; [|apply nth_error_None in Em; lia].
    rewrite (vget_ok _ _ _ Em). cbn [bind]. rewrite IH by (intros; apply H; simpl; auto).
    rewrite <- app_assoc. unfold mu_limit at 2. rewrite Em. reflexivity.
Qed.

(** ProblemSolver.cpp:61-87 *)
Lemma merge_limits_ok (s : solver Z) :
  (0 <= s_n s) -> length (s_mus s) = (Z.to_nat (s_n s) + 1)%nat ->
  (forall o, In o (s_oms s) -> lgood n K R o) ->
  (exists L, merge_limits s = Ok (Some (L ++ map (mu_limit (s_mus s)) (seq 1 (Z.to_nat (s_n s))))) /\
     (forall o, In o L -> lgood n K R o) /\ (length L <= length (s_oms s))%nat /\
     forall nu, (sat L nu <-> sat (s_oms s) nu) /\ (sat L nu -> lcost L nu = lcost (s_oms s) nu)) \/
  (merge_limits s = Ok None /\ forall nu, ~ sat (s_oms s) nu).
Proof.
  intros Hn Hl G. unfold merge_limits.
  destruct (merge_loop_ok (s_oms s) []) as [(mp & E & G' & Hlen & HN)|[E HN]]; auto.
  - intros o [].
  - intros k o [].
  - constructor.
  - left. exists (map snd mp). rewrite E. cbn [bind]. rewrite mu_loop_ok.
    + cbn [bind app]. split; [reflexivity|]. split; auto. split; [rewrite map_length; simpl in Hlen; lia|].
      intros nu. destruct (HN nu) as [H1 H2]. cbn [map] in H1, H2. assert (S0 : sat [] nu) by (intros o []).
      split; [tauto|]. intros Hs. rewrite H2 by auto. reflexivity.
    + intros i Hi. apply in_seq in Hi. lia.
  - right. rewrite E. split; auto. intros nu Hs. apply (HN nu). split; auto. intros o [].
Qed.

End Net.
