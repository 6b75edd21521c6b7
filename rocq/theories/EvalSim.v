(** * The recorded run of the constructor and of [merge_limits] and [calc] *)
From Verif Require Import Base BaseLemmas Data UniqueQueue LCT ProblemDefine Flow ProblemSolver Throw EvalSpec EvalLog.
Local Open Scope Z_scope.

(** ** Recorded computations

    Where the plain computation succeeds the recorded one does, with at most [b]
    calls, all of which satisfy [P]. *)
Definition simr {A B} (R : A -> B -> Prop) (m : res A) (m' : res B) : Prop :=
  forall y, m' = Ok y -> exists x, m = Ok x /\ R x y.

Lemma simr_ok {A B} (R : A -> B -> Prop) x y : R x y -> simr R (Ok x) (Ok y).
Proof. intros H z E. inversion E; subst. eauto. Qed.
Lemma simr_err {A B} (R : A -> B -> Prop) m e : simr R m (Err e).
Proof. intros z E. discriminate. Qed.
Lemma simr_refl {A} (R : A -> A -> Prop) m : (forall a, R a a) -> simr R m m.
Proof. intros H y ->. eauto. Qed.
Lemma simr_bind {A A' B B'} (R : A -> A' -> Prop) (Q : B -> B' -> Prop) m m' k k' :
  simr R m m' -> (forall x y, m' = Ok y -> R x y -> simr Q (k x) (k' y)) -> simr Q (bind m k) (bind m' k').
Proof.
  intros H HK z E. apply bind_inv in E. destruct E as (y & E1 & E). destruct (H y E1) as (x & -> & HR). cbn [bind]. exact (HK x y E1 HR z E).
Qed.
Lemma simr_same {A B B'} (Q : B -> B' -> Prop) (m : res A) k k' : (forall a, m = Ok a -> simr Q (k a) (k' a)) -> simr Q (bind m k) (bind m k').
Proof. intro H. apply (simr_bind eq); [apply simr_refl; reflexivity|]. intros x y E <-. apply H, E. Qed.
Lemma simr_for_each {X A B} (R : A -> B -> Prop) body body' (l : list X) :
  (forall a b x, R a b -> simr R (body a x) (body' b x)) -> forall a b, R a b -> simr R (for_each l a body) (for_each l b body').
Proof. intro H. induction l as [|x l IH]; intros a b HR; cbn [for_each]; [apply simr_ok; exact HR|]. eapply simr_bind; [apply H; exact HR|]. intros; apply IH; assumption. Qed.

Lemma vget_sim {A B} (R : A -> B -> Prop) l l' i : Forall2 R l l' -> simr R (vget l i) (vget l' i).
Proof.
  intro H. revert i. induction H as [|a b l l' HR H IH]; intro i; [destruct i; apply simr_err|]. destruct i as [|i]; [apply simr_ok; exact HR|]. exact (IH i).
Qed.
Lemma vset_sim {A B} (R : A -> B -> Prop) l l' i a b : Forall2 R l l' -> R a b -> simr (Forall2 R) (vset l i a) (vset l' i b).
Proof. intros H HR. unfold vset. rewrite (forall2_len _ _ _ H). destruct (i <? length l')%nat; [apply simr_ok, upd_forall2; auto|apply simr_err]. Qed.

Section Sim.
Variable P : user_call -> Prop.

Definition sim {A B} (R : A -> B -> Prop) (b : nat) (m : noted A) (m' : res B) : Prop :=
  forall y, m' = Ok y -> exists x log, m = Ok (x, log) /\ R x y /\ (length log <= b)%nat /\ Forall P log.

Lemma sim_le {A B} (R : A -> B -> Prop) b b' m m' : sim R b m m' -> (b <= b')%nat -> sim R b' m m'.
Proof. intros H Hb y E. destruct (H y E) as (x & log & E1 & HR & HL & HP). exists x, log. repeat (split; [assumption|]). split; [lia|exact HP]. Qed.
Lemma sim_still {A B} (R : A -> B -> Prop) b m m' : simr R m m' -> sim R b (still m) m'.
Proof. intros H y E. destruct (H y E) as (x & -> & HR). exists x, []. repeat split; [exact HR|cbn; lia|constructor]. Qed.
Lemma sim_ok {A B} (R : A -> B -> Prop) b x y : R x y -> sim R b (still (Ok x)) (Ok y).
Proof. intro H. apply sim_still, simr_ok, H. Qed.
Lemma sim_err {A B} (R : A -> B -> Prop) b m e : sim R b m (Err e).
Proof. intros z E. discriminate. Qed.
Lemma sim_bind {A A' B B'} (R : A -> A' -> Prop) (Q : B -> B' -> Prop) b1 b2 b m m' k k' :
  sim R b1 m m' -> (forall x y, m' = Ok y -> R x y -> sim Q b2 (k x) (k' y)) -> (b1 + b2 <= b)%nat -> sim Q b (nbind m k) (bind m' k').
Proof.
  intros H HK Hb z E. apply bind_inv in E. destruct E as (y & E1 & E). destruct (H y E1) as (x & log & -> & HR & HL & HP). cbn [nbind].
  destruct (HK x y E1 HR z E) as (x2 & log2 & -> & HQ & HL2 & HP2). exists x2, (log ++ log2). repeat split; [exact HQ|rewrite app_length; lia|apply Forall_app; auto].
Qed.
Lemma sim_rel {A A' B B'} (R : A -> A' -> Prop) (Q : B -> B' -> Prop) b m m' k k' :
  simr R m m' -> (forall x y, m' = Ok y -> R x y -> sim Q b (k x) (k' y)) -> sim Q b (nbind (still m) k) (bind m' k').
Proof. intros H HK. eapply (sim_bind R Q 0 b); [apply sim_still; exact H|exact HK|lia]. Qed.
Lemma sim_same {A B B'} (Q : B -> B' -> Prop) b (m : res A) k k' : (forall a, m = Ok a -> sim Q b (k a) (k' a)) -> sim Q b (nbind (still m) k) (bind m k').
Proof. intro H. apply (sim_rel eq); [apply simr_refl; reflexivity|]. intros x y E <-. apply H, E. Qed.
Lemma sim_eq {A B B'} (Q : B -> B' -> Prop) b1 b2 b (m : noted A) m' k k' : sim eq b1 m m' -> (forall a, sim Q b2 (k a) (k' a)) -> (b1 + b2 <= b)%nat ->
  sim Q b (nbind m k) (bind m' k').
Proof. intros Hm H Hb. eapply (sim_bind eq); [exact Hm| |exact Hb]. intros x y E <-. apply H. Qed.
Lemma sim_extra {A B B'} (Q : B -> B' -> Prop) b1 b2 b (m : noted A) m' y k c : m' = Ok y -> sim eq b1 m m' -> sim Q b2 (k y) c -> (b1 + b2 <= b)%nat ->
  sim Q b (nbind m k) c.
Proof.
  intros E Hm Hk Hb z Ez. destruct (Hm y E) as (x & log & -> & -> & HL & HP). destruct (Hk z Ez) as (x2 & log2 & E2 & HQ & HL2 & HP2). cbn [nbind]. rewrite E2.
  exists x2, (log ++ log2). repeat split; [exact HQ|rewrite app_length; lia|apply Forall_app; auto].
Qed.
Lemma sim_for_each2 {X Y A B} (C : X -> Y -> Prop) (R : A -> B -> Prop) c body body' l l' : Forall2 C l l' ->
  (forall a b x y, C x y -> R a b -> sim R c (body a x) (body' b y)) -> forall a b, R a b -> sim R (length l' * c) (for_each_n l a body) (for_each l' b body').
Proof.
  intros HC H. induction HC as [|x y l l' Hxy HC IH]; intros a b HR; cbn [for_each_n for_each length]; [apply sim_ok; exact HR|].
  eapply sim_bind; [apply H; eauto| |apply le_n]. intros; apply IH; assumption.
Qed.
Lemma sim_for_each {X A B} (R : A -> B -> Prop) c body body' (l : list X) :
  (forall a b x, R a b -> sim R c (body a x) (body' b x)) -> forall a b, R a b -> sim R (length l * c) (for_each_n l a body) (for_each l b body').
Proof.
  intros H. apply (sim_for_each2 eq); [|intros a b x ? <-; apply H]. induction l; constructor; auto.
Qed.

(** ** Functions and limits *)
Definition fnN (w : nat) (f : Fn nz) (f' : Fn Z) : Prop := forall x, sim eq w (f x) (f' x).
Inductive limN (w : nat) : OmegaLimit nz -> OmegaLimit Z -> Prop :=
| limN_i l u f f' i j : fnN w f f' -> limN w (mkOm l u f i j) (mkOm l u f' i j).
Inductive muN : MuLimit nz -> MuLimit Z -> Prop :=
| muN_i l u f f' : fnN 1 f f' -> muN (mkMu l u f) (mkMu l u f').

Lemma limN_le w w' o o' : limN w o o' -> (w <= w')%nat -> limN w' o o'.
Proof. intros [l u f f' i j H] Hw. constructor. intro x. eapply sim_le; [apply H|exact Hw]. Qed.

Variable one : Z.
#[local] Hint Extern 0 (DataOps Z) => exact (exact_ops one) : typeclass_instances.

(** turns of the search, as a number *)
Definition turns (w : Z) : nat := Z.to_nat (halvings w).

Lemma halvings_half w : 1 <= w -> halvings w = halvings (w / 2) + 1.
Proof.
  intro H. unfold halvings. destruct (Z.leb_spec w 0); [lia|]. destruct (Z.leb_spec (w / 2) 0).
  - assert (w = 1) by (assert (Y := Z.mul_succ_div_gt w 2); lia). subst w. reflexivity.
  - assert (2 <= w) by (destruct (Z.eq_dec w 1) as [->|]; [change (1 / 2) with 0 in *|]; lia).
    assert (L0 : 0 < Z.log2 w) by (apply Z.log2_pos; lia). destruct (Z.log2_spec w ltac:(lia)) as [L1 L2].
    rewrite (Z.log2_unique (w / 2) (Z.log2 w - 1)); [lia|lia|]. set (k := Z.log2 w - 1) in *. replace (Z.log2 w) with (Z.succ k) in L1, L2 by lia.
    rewrite Z.pow_succ_r in L1 by lia. rewrite !Z.pow_succ_r in L2 by lia. rewrite Z.pow_succ_r by lia. set (p := 2 ^ k) in *. clearbody p.
    assert (Y := Z.div_mod w 2 ltac:(lia)). assert (Y2 := Z.mod_pos_bound w 2 ltac:(lia)). lia.
Qed.
Lemma halvings_nonneg w : 0 <= halvings w.
Proof. unfold halvings. destruct (w <=? 0); [lia|]. assert (Y := Z.log2_nonneg w). lia. Qed.
Lemma halvings_mono a b : a <= b -> halvings a <= halvings b.
Proof.
  intro H. unfold halvings. destruct (Z.leb_spec a 0).
  - apply (halvings_nonneg b).
  - destruct (Z.leb_spec b 0); [lia|]. assert (Y := Z.log2_le_mono a b H). lia.
Qed.
Lemma turns_half w : 1 <= w -> turns w = S (turns (w / 2)).
Proof. intro H. unfold turns. rewrite (halvings_half w H). assert (Y := halvings_nonneg (w / 2)). lia. Qed.
Lemma turns_mono a b : a <= b -> (turns a <= turns b)%nat.
Proof. intro H. unfold turns. assert (Y := halvings_mono a b H). lia. Qed.

Lemma partition_point_sim c fuel : forall l r p p', l <= r -> (forall x, sim eq c (p x) (p' x)) ->
  sim eq (turns (r - l) * c) (partition_point_n fuel l r p) (partition_point fuel l r p').
Proof.
  induction fuel as [|fuel IH]; intros l r p p' Hlr H; cbn [partition_point_n partition_point]; [apply sim_err|].
  destruct (Z.eqb_spec l r) as [->|Hne]; [apply sim_ok; reflexivity|].
  apply sim_same; intros w Ew. apply ck_inv in Ew. destruct Ew as [Ew _]. subst w. apply sim_same; intros mid Em. apply ck_inv in Em. destruct Em as [Em _].
  rewrite Z.quot_div_nonneg in Em by lia. assert (D1 := Z.div_mod (r - l) 2 ltac:(lia)). assert (D2 := Z.mod_pos_bound (r - l) 2 ltac:(lia)).
  rewrite (turns_half (r - l)) by lia. eapply sim_eq with (b1 := c) (b2 := (turns ((r - l) / 2) * c)%nat); [apply H| |cbn [Nat.mul]; lia].
  intros [|].
  - apply sim_same; intros l' El. apply ck_inv in El. destruct El as [El _]. subst l'. eapply sim_le; [apply IH; [lia|exact H]|].
    apply Nat.mul_le_mono_r, turns_mono. lia.
  - eapply sim_le; [apply IH; [lia|exact H]|]. apply Nat.mul_le_mono_r, turns_mono. lia.
Qed.

Lemma decreasing_sim w f f' : fnN w f f' -> forall x, sim eq (2 * w) (decreasing_at_n one f x) (decreasing_at f' x).
Proof.
  intros H x. unfold decreasing_at_n, decreasing_at. eapply sim_eq with (b2 := w); [apply H| |lia]. intro a. apply sim_same; intros x1 _.
  eapply sim_eq with (b2 := O); [apply H| |lia]. intro b. apply sim_ok. reflexivity.
Qed.

Lemma pre_processing_sim w fuel o o' : limN w o o' -> o_l o' <= o_u o' ->
  sim (limN w) (turns (o_u o' - o_l o') * (2 * w)) (pre_processing_n one fuel o) (pre_processing fuel o').
Proof.
  intros [l u f f' i j H] Hlu. unfold pre_processing_n, pre_processing. cbn [o_l o_u o_fn o_i o_j] in *.
  eapply sim_eq with (b2 := O); [apply partition_point_sim; [exact Hlu|apply decreasing_sim; exact H]| |lia].
  intro p. apply sim_ok. constructor. intro x. apply H.
Qed.

Lemma limit_min_sim w fuel o o' : limN w o o' -> o_l o' <= o_u o' ->
  sim eq (turns (o_u o' - o_l o') * (2 * w) + w) (limit_min_n one fuel o) (limit_min fuel o').
Proof.
  intros [l u f f' i j H] Hlu. unfold limit_min_n, limit_min. cbn [o_l o_u o_fn] in *.
  eapply sim_eq; [apply partition_point_sim; [exact Hlu|apply decreasing_sim; exact H]| |apply le_n]. intro p. apply H.
Qed.

Lemma reverse_sim w o o' : limN w o o' -> simr (limN w) (reverse o) (reverse o').
Proof.
  intros [l u f f' i j H]. unfold reverse. cbn [o_l o_u o_fn o_i o_j]. apply simr_same; intros l' _. apply simr_same; intros u' _. apply simr_ok. constructor.
  intros x v E. apply bind_inv in E. destruct E as (y & E1 & E). rewrite E1. cbn [bind]. exact (H y v E).
Qed.

Definition pairN (w : nat) (a : OmegaLimit nz * bool) (b : OmegaLimit Z * bool) : Prop := limN w (fst a) (fst b) /\ snd a = snd b.
Lemma merge_sim w w' o o' p p' : limN w o o' -> limN w' p p' -> simr (pairN (w + w')) (merge_n one o p) (merge o' p').
Proof.
  intros [l u f f' i j H] [l2 u2 g g' i2 j2 H2]. unfold merge_n, merge. cbn [o_l o_u o_fn o_i o_j]. apply simr_same; intros. apply simr_same; intros. apply simr_ok.
  split; [|reflexivity]. constructor. intro x. eapply sim_eq with (b2 := w'); [apply H| |lia]. intro y. eapply sim_eq with (b2 := O); [apply H2| |lia]. intro z. apply sim_ok. reflexivity.
Qed.

(** ** The constructor *)
Inductive solverN : solver nz -> solver Z -> Prop :=
| solverN_i n mus mus' oms oms' : Forall2 muN mus mus' -> Forall2 (limN 1) oms oms' -> solverN (mkSolver n mus oms) (mkSolver n mus' oms').

Lemma invalidN : solverN invalid invalid.
Proof. constructor; constructor. Qed.

Lemma check_mus_sim mus mus' n : Forall2 muN mus mus' -> forall fuel i, simr eq (check_mus fuel n mus i) (check_mus fuel n mus' i).
Proof.
  intros H. induction fuel as [|fuel IH]; intro i; cbn [check_mus]; destruct (n <? Z.of_nat i); try (apply simr_ok; reflexivity); [apply simr_err|].
  apply (simr_bind muN); [apply vget_sim; exact H|]. intros m m' _ [l u f f' _]. cbn [m_l m_u]. destruct (l <=? u); [apply IH|apply simr_ok; reflexivity].
Qed.

Lemma check_omega_sim mus mus' n fuel K o o' : Forall2 muN mus mus' -> limN 1 o o' -> o_u o' - o_l o' <= K ->
  sim (optT (limN 1)) (turns K * 2) (check_omega_n one fuel n mus o) (check_omega fuel n mus' o').
Proof.
  intros H HO HK. assert (HP := pre_processing_sim 1 fuel o o' HO). destruct HO as [l u f f' i j Hf]. unfold check_omega_n, check_omega. cbn [o_l o_u o_fn o_i o_j] in *.
  destruct (negb ((1 <=? Z.of_nat i) && (Z.of_nat i <=? n))); [apply sim_ok; exact I|]. destruct (negb ((1 <=? Z.of_nat j) && (Z.of_nat j <=? n))); [apply sim_ok; exact I|].
  destruct (Nat.eqb i j); [apply sim_ok; exact I|]. destruct (Z.leb_spec l u) as [Hlu|Hlu]; cbn [negb]; [|apply sim_ok; exact I].
  eapply (sim_bind (limN 1)) with (b2 := O); [apply HP; exact Hlu| |assert (Y := turns_mono _ _ HK); lia]. intros o o' _ [l2 u2 g g' i2 j2 Hg]. cbn [o_l o_u o_fn o_i o_j].
  apply sim_still. apply (simr_bind muN); [apply vget_sim; exact H|]. intros a a' _ [la ua fa fa' _]. apply (simr_bind muN); [apply vget_sim; exact H|]. intros b b' _ [lb ub fb fb' _].
  cbn [m_l m_u]. apply simr_same; intros l0 _. destruct (l0 <=? u2); apply simr_ok; [constructor; exact Hg|exact I].
Qed.

Lemma check_omegas_sim mus mus' n fuel K oms oms' : Forall2 muN mus mus' -> Forall2 (limN 1) oms oms' -> (forall o, In o oms' -> o_u o - o_l o <= K) ->
  sim (optT (Forall2 (limN 1))) (length oms' * (turns K * 2)) (check_omegas_n one fuel n mus oms) (check_omegas fuel n mus' oms').
Proof.
  intros H HO. induction HO as [|o o' oms oms' HL HO IH]; intro HK; cbn [check_omegas_n check_omegas length]; [apply sim_ok; constructor|].
  eapply (sim_bind (optT (limN 1))) with (b2 := (length oms' * (turns K * 2))%nat); [apply check_omega_sim; [exact H|exact HL|apply HK; left; reflexivity]| |apply le_n].
  intros [a|] [b|] _ Hab; try contradiction; [|apply sim_ok; exact I].
  eapply (sim_bind (optT (Forall2 (limN 1)))) with (b2 := O); [apply IH; intros; apply HK; right; assumption| |lia].
  intros [x|] [y|] _ Hxy; try contradiction; apply sim_ok; [constructor; auto|exact I].
Qed.

Lemma solver_new_sim n fuel K mus mus' oms oms' : Forall2 muN mus mus' -> Forall2 (limN 1) oms oms' -> (forall o, In o oms' -> o_u o - o_l o <= K) ->
  sim solverN (length oms' * (turns K * 2)) (solver_new_n one fuel n mus oms) (solver_new fuel n mus' oms').
Proof.
  intros H HO HK. unfold solver_new_n, solver_new. rewrite (forall2_len _ _ _ H). destruct (negb _); [apply sim_ok, invalidN|].
  apply (sim_rel eq); [apply check_mus_sim; exact H|]. intros x y _ <-. destruct x; [|apply sim_ok, invalidN]. cbn [negb].
  eapply (sim_bind (optT (Forall2 (limN 1)))) with (b2 := O); [apply check_omegas_sim; eauto| |lia].
  intros [x|] [y|] _ Hxy; try contradiction; apply sim_ok; [constructor; auto|apply invalidN].
Qed.

(** ** merge_limits *)
(** the key under which a limit is stored *)
Definition okey {D} (o : OmegaLimit D) : nat * nat := if (o_i o <? o_j o)%nat then (o_j o, o_i o) else (o_i o, o_j o).
Definition at_key {D} (k : nat * nat) (oms : list (OmegaLimit D)) : nat := length (filter (fun o => key_eqb (okey o) k) oms).

Lemma key_eqb_eq a b : key_eqb a b = true <-> a = b.
Proof.
  destruct a, b. unfold key_eqb. cbn [fst snd]. rewrite andb_true_iff, !Nat.eqb_eq. split; [intros [-> ->]; reflexivity|intro E; inversion E; auto].
Qed.

Definition entryN (cw : nat * nat -> nat) (a : nat * nat * OmegaLimit nz) (b : nat * nat * OmegaLimit Z) : Prop := fst a = fst b /\ limN (cw (fst a)) (snd a) (snd b).
Lemma map_find_sim cw m m' k : Forall2 (entryN cw) m m' -> optT (limN (cw k)) (map_find m k) (map_find m' k).
Proof.
  induction 1 as [|[k1 v1] [k2 v2] m m' [E1 E2] H IH]; cbn [map_find]; [exact I|]. cbn [fst snd] in *. subst k2.
  destruct (key_eqb k1 k) eqn:E; [apply key_eqb_eq in E; subst k1; exact E2|exact IH].
Qed.
Lemma map_set_sim cw m m' k v v' : Forall2 (entryN cw) m m' -> limN (cw k) v v' -> Forall2 (entryN cw) (map_set m k v) (map_set m' k v').
Proof.
  intros H HV. induction H as [|[k1 v1] [k2 v2] m m' [E1 E2] H IH]; cbn [map_set]; [repeat constructor; exact HV|]. cbn [fst snd] in *. subst k2.
  destruct (key_eqb k1 k); [constructor; [split; auto|exact H]|]. destruct (key_ltb k k1); [|constructor; [split; auto|exact IH]].
  constructor; [split; auto|]. constructor; [split; auto|exact H].
Qed.
Lemma entryN_le cw cw' m m' : (forall k, (cw k <= cw' k)%nat) -> Forall2 (entryN cw) m m' -> Forall2 (entryN cw') m m'.
Proof. intros Hc H. induction H as [|a b m m' [E1 E2] H IH]; constructor; [|exact IH]. split; [exact E1|]. eapply limN_le; [exact E2|apply Hc]. Qed.

Lemma merge_loop_sim oms oms' : Forall2 (limN 1) oms oms' -> forall cw m m', Forall2 (entryN cw) m m' ->
  simr (optT (Forall2 (entryN (fun k => cw k + at_key k oms')%nat))) (merge_loop_n one oms m) (merge_loop oms' m').
Proof.
  induction 1 as [|o o' oms oms' HL H IH]; intros cw m m' HM; cbn [merge_loop_n merge_loop].
  { apply simr_ok. cbn [optT]. eapply entryN_le; [|exact HM]. intro k. cbn. lia. }
  eapply (simr_bind (fun x y => limN 1 x y /\ (o_i y, o_j y) = okey o')).
  { unfold okey. assert (E : o_i o' = o_i o /\ o_j o' = o_j o) by (destruct HL; auto). destruct E as [<- <-]. destruct (o_i o' <? o_j o')%nat; [|apply simr_ok; auto].
    intros y E. destruct (reverse_sim 1 o o' HL y E) as (x & E1 & E2). exists x. split; [exact E1|]. split; [exact E2|].
    unfold reverse in E. apply bind_inv in E. destruct E as (? & _ & E). apply bind_inv in E. destruct E as (? & _ & E). inversion E; subst. reflexivity. }
  intros x y _ [Hxy Ek]. assert (E : o_i x = o_i y /\ o_j x = o_j y) by (destruct Hxy; auto). destruct E as [-> ->]. rewrite Ek. cbv zeta.
  set (cw' := fun k => (cw k + if key_eqb (okey o') k then 1 else 0)%nat).
  assert (HM' : Forall2 (entryN cw') m m') by (apply (entryN_le cw); [intro k; unfold cw'; lia|exact HM]).
  assert (HA : forall k, (cw' k + at_key k oms' <= cw k + at_key k (o' :: oms'))%nat).
  { intro k. unfold cw', at_key. cbn [filter]. destruct (key_eqb (okey o') k); cbn [length]; lia. }
  assert (HI : forall v v', limN (cw' (okey o')) v v' ->
    simr (optT (Forall2 (entryN (fun k => cw k + at_key k (o' :: oms'))%nat))) (merge_loop_n one oms (map_set m (okey o') v)) (merge_loop oms' (map_set m' (okey o') v'))).
  { intros v v' Hv z Ez. destruct (IH cw' _ _ (map_set_sim cw' m m' (okey o') v v' HM' Hv) z Ez) as (x1 & X1 & X2). exists x1. split; [exact X1|].
    destruct x1, z; try contradiction; [|exact I]. cbn [optT] in *. eapply entryN_le; [exact HA|exact X2]. }
  assert (Hk : cw' (okey o') = (cw (okey o') + 1)%nat).
  { unfold cw'. rewrite (proj2 (key_eqb_eq (okey o') (okey o')) eq_refl). reflexivity. }
  assert (HF := map_find_sim cw m m' (okey o') HM). destruct (map_find m (okey o')) as [a|], (map_find m' (okey o')) as [b|]; try contradiction.
  - apply (simr_bind (pairN (cw (okey o') + 1))); [apply merge_sim; [exact HF|exact Hxy]|]. intros [a1 e1] [b1 e2] _ [Hab Ee]. cbn [fst snd] in *. subst e2.
    destruct e1; [apply simr_ok; exact I|]. apply HI. rewrite Hk. exact Hab.
  - apply HI. rewrite Hk. eapply limN_le; [exact Hxy|lia].
Qed.

Lemma map_snd_sim cw d m m' : (forall k, (cw k <= d)%nat) -> Forall2 (entryN cw) m m' -> Forall2 (limN d) (map snd m) (map snd m').
Proof. intros Hd. induction 1 as [|a b m m' [_ H1] H IH]; cbn [map]; constructor; [eapply limN_le; eauto|exact IH]. Qed.

Lemma merge_limits_sim d s s' : solverN s s' -> (1 <= d)%nat -> (forall k, (at_key k (s_oms s') <= d)%nat) ->
  simr (optT (Forall2 (limN d))) (merge_limits_n one s) (merge_limits s').
Proof.
  intros [n mus mus' oms oms' HM HO] Hd Hk. unfold merge_limits_n, merge_limits. cbn [s_n s_mus s_oms] in *.
  eapply simr_bind; [apply (merge_loop_sim _ _ HO (fun _ => O)); constructor|].
  intros [m|] [m'|] _ Hm; try contradiction; [|apply simr_ok; exact I]. cbn [optT Nat.add] in Hm. apply (simr_bind (Forall2 (limN d))).
  - apply simr_for_each; [|constructor]. intros a b i Hab. apply (simr_bind muN); [apply vget_sim; exact HM|]. intros x x' _ [l u f f' Hf]. apply simr_ok.
    apply Forall2_app; [exact Hab|]. constructor; [apply (limN_le 1); [constructor; exact Hf|exact Hd]|constructor].
  - intros a b _ Hab. apply simr_ok. apply Forall2_app; [eapply map_snd_sim; [|exact Hm]; exact Hk|exact Hab].
Qed.

(** ** calc *)
Definition within (U : Z) (o : OmegaLimit Z) : Prop := o_l o <= o_u o /\ o_u o - o_l o <= U.

Lemma calc_sim d U fuel ls ls' : Forall2 (limN d) ls ls' -> (forall o, In o ls' -> within U o) ->
  sim eq (length ls' * ((2 * turns U + 5) * d)) (calc_n one fuel ls) (calc fuel ls').
Proof.
  intros H HU. unfold calc_n, calc. apply (sim_for_each2 (fun o o' => limN d o o' /\ within U o')); [| |reflexivity].
  { induction H as [|o o' ls ls' HL H IH]; constructor; [split; [exact HL|apply HU; left; reflexivity]|]. apply IH. intros; apply HU; right; assumption. }
  intros [[vm M] V] ? o o' [HL [HW1 HW2]] <-. assert (HM := limit_min_sim d fuel o o' HL HW1).
  assert (Y := turns_mono _ _ HW2). set (tu := turns U) in *. set (tw := turns (o_u o' - o_l o')) in *. clearbody tu tw.
  destruct HL as [l u f f' i j Hf]. cbn [o_l o_u o_fn] in *.
  assert (N' : (d + (d + (d + (d + (tw * (2 * d) + d)))) <= (2 * tu + 5) * d)%nat) by nia.
  eapply (sim_bind eq); [apply Hf| |exact N']. intros a ? Ea <-. eapply (sim_bind eq); [apply Hf| |apply le_n]. intros b ? Eb <-.
  eapply sim_extra; [exact Ea|apply Hf| |apply le_n]. eapply sim_extra; [exact Eb|apply Hf| |apply le_n].
  eapply sim_eq with (b2 := O); [exact HM| |rewrite Nat.add_0_r; apply le_n]. intro mi. apply sim_same; intros w _. apply sim_ok. reflexivity.
Qed.
End Sim.
