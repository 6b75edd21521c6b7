(** * The graph generator of 3rd/generator *)
From Coq Require Import Permutation FinFun.
From Verif Require Import Base Data BaseLemmas ProblemDefine CostScaling Generator Spec GenSpec GenRng.
Local Open Scope Z_scope.

(** ** shuffle *)
Definition tr (i j k : nat) : nat := if Nat.eqb k i then j else if Nat.eqb k j then i else k.

Lemma vswap_ok {A} (l : list A) i j : (i < length l)%nat -> (j < length l)%nat ->
  exists l', vswap l i j = Ok l' /\ Permutation l l' /\ (forall k, (k < i)%nat -> (k < j)%nat -> nth_error l' k = nth_error l k).
Proof.
  intros Hi Hj. unfold vswap.
  destruct (nth_error l i) as [a|] eqn:Ea; [|apply nth_error_None in Ea; lia].
  destruct (nth_error l j) as [b|] eqn:Eb; [|apply nth_error_None in Eb; lia].
  rewrite (vget_ok _ _ _ Ea), (vget_ok _ _ _ Eb). cbn. rewrite vset_ok by lia. cbn. rewrite vset_ok by (rewrite upd_length; lia).
  exists (upd (upd l i b) j a). split; [reflexivity|].
  assert (N : forall k, nth_error (upd (upd l i b) j a) k = nth_error l (tr i j k)).
  { intro k. unfold tr. destruct (Nat.eqb_spec k i) as [->|Ni].
    - destruct (Nat.eq_dec j i) as [->|Nj].
      + rewrite nth_error_upd_eq by (rewrite upd_length; lia). congruence.
      + rewrite nth_error_upd_neq by lia. rewrite nth_error_upd_eq by lia. congruence.
    - destruct (Nat.eqb_spec k j) as [->|Nj].
      + rewrite nth_error_upd_eq by (rewrite upd_length; lia). congruence.
      + rewrite !nth_error_upd_neq by lia. reflexivity. }
  split.
  - apply Permutation_nth_error. split; [rewrite !upd_length; reflexivity|]. exists (tr i j). split; [|exact N].
    intros x y. unfold tr. destruct (Nat.eqb_spec x i), (Nat.eqb_spec x j), (Nat.eqb_spec y i), (Nat.eqb_spec y j); lia.
  - intros k H1 H2. rewrite N. unfold tr. destruct (Nat.eqb_spec k i), (Nat.eqb_spec k j); try lia. reflexivity.
Qed.

Lemma shuffle_ok {A} fuel first (l : list A) s : Z.of_nat (length l) <= INT_MAX ->
  runs (rng_fuel fuel) (fun '(l', _) => Permutation l l') (shuffle fuel first l s).
Proof.
  intro HL. unfold shuffle.
  apply (runs_for _ _ _ (fun _ '(l', _) => Permutation l l')); [apply Permutation_refl|].
  intros pre k suf [l' s'] E P. pose proof (Permutation_length P) as EL.
  assert (Hk : (1 <= k < 1 + (length l - first - 1))%nat).
  { apply in_seq. rewrite E. apply in_or_app. right. left. reflexivity. }
  eapply runs_bind; [apply (runs_ck _ (fun x => x = Z.of_nat k + 1)); [unfold INT_MIN; lia|reflexivity]|]. intros w ->.
  eapply runs_bind; [apply next_int_ok; lia|]. intros [x s''] [Hx _].
  destruct (vswap_ok l' (first + k) (first + Z.to_nat x)) as [l'' (E' & P' & _)]; [lia|lia|].
  rewrite E'. cbn. eapply Permutation_trans; eassumption.
Qed.

(** ** Repetitions *)
Lemma same_refl d a : same_edge d a a.
Proof. left. reflexivity. Qed.

Lemma same_sym d a b : same_edge d a b -> same_edge d b a.
Proof. intros [->|[H ->]]; [left; reflexivity|right]. split; [exact H|]. destruct b; reflexivity. Qed.

Lemma same_trans d a b c : same_edge d a b -> same_edge d b c -> same_edge d a c.
Proof. intros [->|[H ->]] [->|[H' ->]]; unfold same_edge; destruct c as [u v]; cbn; auto. Qed.

Lemma no_rep_nil d : no_repetition d [].
Proof. intros p q a b H. destruct p; discriminate H. Qed.

Lemma no_rep_snoc d l a : no_repetition d l -> (forall b, In b l -> ~ same_edge d a b) -> no_repetition d (l ++ [a]).
Proof.
  intros H Ha p q x y Hp Hq S.
  assert (C : forall p x, nth_error (l ++ [a]) p = Some x -> (nth_error l p = Some x) \/ (p = length l /\ x = a)).
  { intros r z Hz. destruct (Nat.lt_ge_cases r (length l)); [left; rewrite nth_error_app1 in Hz; auto|].
    rewrite nth_error_app2 in Hz by lia. right. destruct (r - length l)%nat as [|k] eqn:Ek; [|destruct k; discriminate Hz].
    cbn in Hz. split; [lia|congruence]. }
  destruct (C _ _ Hp) as [Hp'|[-> ->]], (C _ _ Hq) as [Hq'|[-> ->]].
  - exact (H p q x y Hp' Hq' S).
  - exfalso. apply (Ha x (nth_error_In _ _ Hp')). apply same_sym. exact S.
  - exfalso. exact (Ha y (nth_error_In _ _ Hq') S).
  - reflexivity.
Qed.

Lemma no_rep_perm d l l' : Permutation l l' -> no_repetition d l -> no_repetition d l'.
Proof.
  intros P H p q a b Hp Hq S. apply Permutation_nth_error in P. destruct P as (_ & f & Hf & E).
  rewrite E in Hp, Hq. apply Hf. eapply H; eassumption.
Qed.

Lemma linked_mono l l' u v : (forall e, In e l -> In e l') -> linked l u v -> linked l' u v.
Proof. intros H L. induction L as [|u v w L IH E]; [apply linked_refl|]. eapply linked_edge; [exact IH|]. destruct E; auto. Qed.

Lemma linked_trans l u v w : linked l u v -> linked l v w -> linked l u w.
Proof. intros H L. induction L as [|v x w L IH E]; [exact H|]. eapply linked_edge; [apply IH; exact H|exact E]. Qed.

Lemma linked_sym l u v : linked l u v -> linked l v u.
Proof.
  intro L. induction L as [|u v w L IH E]; [apply linked_refl|].
  eapply linked_trans; [|exact IH]. eapply linked_edge; [apply linked_refl|]. tauto.
Qed.

(** ** Random trees *)
Lemma gen_tree_ok fuel N s : 1 <= N <= INT_MAX ->
  runs (rng_fuel fuel) (fun '(l, _) => Z.of_nat (length l) = N - 1 /\ nodes_in N l /\ (forall u v, In (u, v) l -> u <> v) /\
     no_repetition false l /\ connected N l) (gen_tree fuel N s).
Proof.
  intro HN. unfold gen_tree. rewrite (proj2 (Z.leb_gt N 0)) by lia. cbn [bind].
  set (p0 := map Z.of_nat (seq 0 (Z.to_nat N))).
  assert (L0 : length p0 = Z.to_nat N) by (unfold p0; rewrite map_length, seq_length; reflexivity).
  eapply runs_bind; [apply shuffle_ok; rewrite L0; lia|].
  intros [p s1] P. assert (Lp : length p = Z.to_nat N) by (rewrite <- (Permutation_length P); exact L0).
  assert (ND : NoDup p).
  { apply (Permutation_NoDup P). unfold p0. apply FinFun.Injective_map_NoDup; [intros x y; lia|apply seq_NoDup]. }
  assert (RG : forall x, In x p <-> 0 <= x < N).
  { intro x. split; intro H.
    - apply (Permutation_in _ (Permutation_sym P)) in H. unfold p0 in H. apply in_map_iff in H. destruct H as [k [<- Hk]]. apply in_seq in Hk. lia.
    - apply (Permutation_in _ P). unfold p0. apply in_map_iff. exists (Z.to_nat x). split; [lia|]. apply in_seq. lia. }
  clear P. set (P := fun k => nth k p 0).
  assert (PR : forall k, (k < Z.to_nat N)%nat -> 0 <= P k < N) by (intros k Hk; apply RG; apply nth_In; lia).
  assert (PI : forall k k', (k < Z.to_nat N)%nat -> (k' < Z.to_nat N)%nat -> P k = P k' -> k = k').
  { intros k k' Hk Hk' E. apply (proj1 (NoDup_nth p 0) ND); [lia|lia|exact E]. }
  set (I := fun (n : nat) (l : list (Z * Z)) => length l = n /\
     (forall u v, In (u, v) l -> exists i f, (f < i <= n)%nat /\ ((u, v) = (P i, P f) \/ (u, v) = (P f, P i))) /\
     no_repetition false l /\ (forall i, (i <= n)%nat -> linked l (P 0%nat) (P i))).
  eapply runs_bind.
  - apply (runs_for _ _ _ (fun pre '(l, _) => I (length pre) l)).
    + split; [reflexivity|]. split; [intros u v []|]. split; [apply no_rep_nil|].
      intros i Hi. cbn in Hi. assert (i = 0)%nat as -> by lia. apply linked_refl.
    + intros pre i suf [l s2] E (IL & IE & ID & IC).
      assert (Ei : i = S (length pre)).
      { assert (X : nth_error (seq 1 (Z.to_nat N - 1)) (length pre) = Some i) by (rewrite E, nth_error_app2, Nat.sub_diag by lia; reflexivity).
        assert (Y : (length pre < length (seq 1 (Z.to_nat N - 1)))%nat) by (eapply nth_error_lt; exact X).
        rewrite seq_length in Y. rewrite (nth_error_nth' _ 0%nat) in X by (rewrite seq_length; exact Y).
        rewrite seq_nth in X by exact Y. inversion X. lia. }
      assert (Hi : (i < Z.to_nat N)%nat).
      { assert (X : In i (seq 1 (Z.to_nat N - 1))) by (rewrite E; apply in_or_app; right; left; reflexivity). apply in_seq in X. lia. }
      eapply runs_bind; [apply wnext_ok; lia|]. intros [f s3] [Hf _].
      eapply runs_bind; [apply next_int_ok; unfold INT_MAX; lia|]. intros [b s4] _.
      rewrite (vget_nth p i 0) by lia. rewrite (vget_nth p (Z.to_nat f) 0) by lia. cbn [bind runs].
      change (nth i p 0) with (P i). change (nth (Z.to_nat f) p 0) with (P (Z.to_nat f)).
      set (f' := Z.to_nat f). assert (Hf' : (f' < i)%nat) by lia. clearbody f'. clear Hf.
      set (a := if b =? 0 then (P f', P i) else (P i, P f')).
      assert (Ha : a = (P i, P f') \/ a = (P f', P i)) by (unfold a; destruct (b =? 0); auto).
      clearbody a. rewrite app_length. cbn [length]. replace (length pre + 1)%nat with i by lia.
      split; [rewrite app_length; cbn; lia|]. split; [|split].
      * intros u v H. apply in_app_or in H. destruct H as [H|[H|[]]].
        -- destruct (IE u v H) as (i' & g & H1 & H2). exists i', g. split; [lia|exact H2].
        -- exists i, f'. split; [lia|]. rewrite <- H. exact Ha.
      * apply no_rep_snoc; [exact ID|]. intros [u v] Hb S. destruct (IE u v Hb) as (i' & g & H1 & H2).
        assert (C : forall x y, P i = P x -> P f' = P y -> (x <= length pre)%nat -> (y <= length pre)%nat -> False).
        { intros x y E1 _ Hx _. apply PI in E1; lia. }
        unfold same_edge in S. cbn [fst snd] in S.
        destruct Ha as [->| ->], H2 as [[= -> ->]|[= -> ->]], S as [S|[_ S]]; injection S as S1 S2;
          (eapply C; [first [exact S1|exact S2]|first [exact S1|exact S2]|lia|lia]).
      * intros k Hk. destruct (Nat.eq_dec k i) as [->|Nk].
        -- eapply linked_edge; [apply (linked_mono l); [intros; apply in_or_app; auto|apply (IC f'); lia]|].
           destruct Ha as [->| ->]; [right|left]; apply in_or_app; right; left; reflexivity.
        -- apply (linked_mono l); [intros; apply in_or_app; auto|apply IC; lia].
  - intros [l s5] (IL & IE & ID & IC). rewrite seq_length in *.
    eapply runs_weaken; [apply shuffle_ok; lia|auto|]. intros [l' _] Pl.
    split; [rewrite <- (Permutation_length Pl); lia|].
    assert (IN : forall e, In e l' <-> In e l) by (intro e; split; apply Permutation_in; [apply Permutation_sym|]; exact Pl).
    split; [|split; [|split]].
    + intros u v H. apply IN in H. destruct (IE u v H) as (i & f & H1 & [[= -> ->]|[= -> ->]]); split; apply PR; lia.
    + intros u v H E. apply IN in H. destruct (IE u v H) as (i & f & H1 & [[= -> ->]|[= -> ->]]); apply PI in E; lia.
    + apply (no_rep_perm _ _ _ Pl ID).
    + assert (C : forall u, 0 <= u < N -> linked l' (P 0%nat) u).
      { intros u Hu. apply RG in Hu. destruct (In_nth p u 0 Hu) as [k [Hk <-]].
        apply (linked_mono l); [intros e He; apply IN; exact He|]. apply (IC k). lia. }
      intros u v Hu Hv. eapply linked_trans; [apply linked_sym; apply C; exact Hu|apply C; exact Hv].
Qed.

(** ** Drawing an edge *)
Lemma next_of_out N w : 0 < N -> next_of N w = out N (rng_step w).
Proof.
  intro HN. unfold next_of, next_int, out, pow2. rewrite (proj2 (Z.leb_gt N 0)) by lia.
  destruct (Z.land N (- N) =? N); [reflexivity|]. cbn [draw_below next_bits].
  change (Z.shiftr (rng_step w) (48 - 31)) with (bits31 (rng_step w)).
  destruct (INT_MAX / N * N <=? bits31 (rng_step w)); reflexivity.
Qed.

Definition refused (g : gen_graph) (u v : Z) : bool := judge_self_loop g u v || judge_multiply g u v.

(** the pair can be drawn in both orders *)
Definition drawable_now (g : gen_graph) : Prop :=
  exists u v, can_yield (g_node g) u v /\ refused g u v = false /\ refused g v u = false.

Lemma draw_edge_ends fuel k g s : 0 < g_node g <= INT_MAX -> rng_fuel fuel -> forall K w u v,
  yields (g_node g) u v w -> refused g u v = false -> refused g v u = false ->
  steps K s = w -> (K + 2 <= k)%nat -> draw_edge fuel k g s <> Err OutOfFuel.
Proof.
  intros HN Hf. revert s. induction k as [|k IH]; intros s K w u v (Hw & Y1 & Y2 & Y3) R1 R2 EK Hk; [lia|].
  rewrite next_of_out in Y1, Y2, Y3 by lia. cbn [draw_edge].
  destruct (runs_ok _ _ _ (next_int_drawn fuel _ s HN) Hf) as [[x s1] (E1 & D1 & _)]. rewrite E1. cbn [bind].
  destruct (runs_ok _ _ _ (next_int_drawn fuel _ s1 HN) Hf) as [[y s2] (E2 & D2 & _)]. rewrite E2. cbn [bind].
  destruct (judge_self_loop g x y || judge_multiply g x y) eqn:J; [|discriminate].
  destruct D1 as [k1 (H1 & N1 & O1 & ->)]. destruct D2 as [k2 (H2 & N2 & O2 & ->)].
  assert (P1 : out (g_node g) (steps (K + 1) s) = Some u) by (rewrite steps_add, EK; exact Y1).
  assert (P2 : out (g_node g) (steps (K + 2) s) = Some v) by (rewrite steps_add, EK; exact Y2).
  assert (Q2 : forall j, (1 <= j < k2)%nat -> out (g_node g) (steps (k1 + j) s) = None) by (intros j Hj; rewrite steps_add; apply N2; exact Hj).
  assert (B1 : (k1 <= K + 1)%nat).
  { destruct (Nat.le_gt_cases k1 (K + 1)); [assumption|]. rewrite N1 in P1 by lia. discriminate. }
  destruct (Nat.eq_dec k1 (K + 1)) as [->|Nk].
  - (* the pair u, v *)
    assert (k2 = 1)%nat as ->.
    { destruct (Nat.eq_dec k2 1); [assumption|]. specialize (Q2 1%nat ltac:(lia)). replace (K + 1 + 1)%nat with (K + 2)%nat in Q2 by lia. congruence. }
    rewrite P1 in O1. rewrite <- steps_add in O2. replace (K + 1 + 1)%nat with (K + 2)%nat in O2 by lia. rewrite P2 in O2.
    injection O1 as <-. injection O2 as <-. unfold refused in R1. congruence.
  - assert (B2 : (k1 + k2 <= K + 1)%nat).
    { destruct (Nat.le_gt_cases (k1 + k2) (K + 1)); [assumption|].
      specialize (Q2 (K + 1 - k1)%nat ltac:(lia)). replace (k1 + (K + 1 - k1))%nat with (K + 1)%nat in Q2 by lia. congruence. }
    destruct (Nat.eq_dec (k1 + k2) (K + 1)) as [E|NE].
    + (* u was the second number; the next pair is v, u *)
      assert (ES : steps k2 (steps k1 s) = rng_step w) by (rewrite <- steps_add, E, Nat.add_1_r, steps_S, EK; reflexivity).
      rewrite ES. clear IH. destruct k as [|k]; [lia|]. cbn [draw_edge].
      destruct (runs_ok _ _ _ (next_int_drawn fuel _ (rng_step w) HN) Hf) as [[x' s3] (E3 & D3 & _)]. rewrite E3. cbn [bind].
      destruct D3 as [k3 (H3 & N3 & O3 & ->)].
      assert (k3 = 1)%nat as ->.
      { destruct (Nat.eq_dec k3 1); [assumption|]. specialize (N3 1%nat ltac:(lia)). cbn [steps] in N3. congruence. }
      cbn [steps] in *.
      destruct (runs_ok _ _ _ (next_int_drawn fuel _ (rng_step (rng_step w)) HN) Hf) as [[y' s4] (E4 & D4 & _)]. rewrite E4. cbn [bind].
      destruct D4 as [k4 (H4 & N4 & O4 & ->)].
      assert (k4 = 1)%nat as ->.
      { destruct (Nat.eq_dec k4 1); [assumption|]. specialize (N4 1%nat ltac:(lia)). cbn [steps] in N4. congruence. }
      cbn [steps] in *. rewrite Y2 in O3. rewrite Y3 in O4. injection O3 as <-. injection O4 as <-.
      unfold refused in R2. rewrite R2. discriminate.
    + apply (IH _ (K - (k1 + k2))%nat w u v); auto.
      * split; [exact Hw|]. rewrite !next_of_out by lia. auto.
      * rewrite <- !steps_add. replace (k1 + (k2 + (K - (k1 + k2))))%nat with K by lia. exact EK.
      * lia.
Qed.

Lemma draw_edge_partial fuel k g s : 0 < g_node g <= INT_MAX ->
  runs False (fun '(u, v, _) => 0 <= u < g_node g /\ 0 <= v < g_node g /\ refused g u v = false) (draw_edge fuel k g s).
Proof.
  intro HN. revert s. induction k as [|k IH]; intro s; cbn [draw_edge]; [split; [reflexivity|tauto]|].
  eapply runs_bind; [eapply runs_weaken; [apply (next_int_ok fuel _ s HN)|tauto|intros x Hx; exact Hx]|]. intros [u s1] [Hu _].
  eapply runs_bind; [eapply runs_weaken; [apply (next_int_ok fuel _ s1 HN)|tauto|intros x Hx; exact Hx]|]. intros [v s2] [Hv _].
  destruct (judge_self_loop g u v || judge_multiply g u v) eqn:J; [apply IH|]. cbn. split; [exact Hu|]. split; [exact Hv|exact J].
Qed.

Lemma draw_edge_ok fuel g s : 0 < g_node g <= INT_MAX ->
  runs (rng_fuel fuel /\ drawable_now g) (fun '(u, v, _) => 0 <= u < g_node g /\ 0 <= v < g_node g /\ refused g u v = false) (draw_edge fuel fuel g s).
Proof.
  intro HN. pose proof (draw_edge_partial fuel fuel g s HN) as P.
  destruct (draw_edge fuel fuel g s) as [[[u v] s']|e] eqn:E; [exact P|]. cbn in P. destruct P as [-> _]. split; [reflexivity|].
  intros [Hf (u & v & [w Y] & R1 & R2)]. destruct (orbit s w) as [K (_ & HK & EK)]; [exact (proj1 Y)|].
  apply (draw_edge_ends fuel fuel g s HN Hf K w u v Y R1 R2 EK); [unfold rng_fuel in Hf; lia|exact E].
Qed.

(** ** The loop *)
Lemma e_has_in e u v : e_has e u v = true <-> In (u, v) e.
Proof.
  unfold e_has. rewrite existsb_exists. split.
  - intros [[a b] [H E]]. unfold pair_eqb in E. cbn in E. apply andb_prop in E. destruct E as [E1 E2].
    apply Z.eqb_eq in E1, E2. subst. exact H.
  - intro H. exists (u, v). split; [exact H|]. unfold pair_eqb. cbn. rewrite !Z.eqb_refl. reflexivity.
Qed.

Definition swap (a : Z * Z) : Z * Z := (snd a, fst a).

Definition gen_inv (g : gen_graph) : Prop :=
  nodes_in (g_node g) (g_edge g) /\
  (g_self_loop g = false -> forall u v, In (u, v) (g_edge g) -> u <> v) /\
  (g_multiply g = false ->
     no_repetition (g_direction g) (g_edge g) /\
     (forall a, In a (g_edge g) -> In a (g_e g) \/ (g_direction g = false /\ In (swap a) (g_e g))) /\
     (forall a, In a (g_e g) -> exists b, In b (g_edge g) /\ same_edge (g_direction g) a b)).

(** the parameters are not changed *)
Definition same_params (g g' : gen_graph) : Prop :=
  g_node g' = g_node g /\ g_side g' = g_side g /\ g_direction g' = g_direction g /\ g_multiply g' = g_multiply g /\
  g_self_loop g' = g_self_loop g /\ g_connect g' = g_connect g.

Lemma same_params_refl g : same_params g g.
Proof. unfold same_params. tauto. Qed.

Lemma add_edge_ok fuel g u v s : gen_inv g -> 0 <= u < g_node g -> 0 <= v < g_node g -> refused g u v = false ->
  runs (rng_fuel fuel) (fun '(g', _) => gen_inv g' /\ same_params g g' /\ exists a, g_edge g' = g_edge g ++ [a])
    (gen_add_edge fuel g u v s).
Proof.
  intros (I1 & I2 & I3) Hu Hv R. unfold refused in R. apply orb_false_elim in R. destruct R as [RL RM]. unfold gen_add_edge.
  apply (runs_bind _ (fun '(l, _) => exists a, l = g_edge g ++ [a] /\ (a = (u, v) \/ (g_direction g = false /\ a = (v, u))))).
  { destruct (g_direction g) eqn:Ed; [cbn; eauto|].
    eapply runs_bind; [apply next_int_ok; unfold INT_MAX; lia|]. intros [b s'] _. cbn.
    destruct (b =? 0); [exists (v, u)|exists (u, v)]; auto. }
  intros [l s'] [a [-> Ha]]. cbn [runs]. split; [|split; [unfold same_params; cbn; tauto|exists a; reflexivity]].
  unfold gen_inv, with_edges; cbn [g_node g_edge g_self_loop g_multiply g_direction g_e].
  split; [|split].
  - intros x y H. apply in_app_or in H. destruct H as [H|[H|[]]]; [exact (I1 x y H)|].
    destruct Ha as [->|[_ ->]]; injection H as <- <-; auto.
  - intros Es x y H. apply in_app_or in H. destruct H as [H|[H|[]]]; [exact (I2 Es x y H)|].
    unfold judge_self_loop in RL. rewrite Es in RL. cbn in RL. apply Z.eqb_neq in RL.
    destruct Ha as [->|[_ ->]]; injection H as <- <-; auto.
  - intro Em. destruct (I3 Em) as (J1 & J2 & J3). rewrite Em.
    unfold judge_multiply in RM. rewrite Em in RM.
    assert (Nuv : ~ In (u, v) (g_e g)).
    { rewrite <- e_has_in. intro C. rewrite C in RM. discriminate. }
    assert (Nvu : g_direction g = false -> ~ In (v, u) (g_e g)).
    { intros Ed C. rewrite <- e_has_in in C. rewrite Ed, C in RM. destruct (e_has (g_e g) u v); discriminate. }
    clear RM RL. split; [|split].
    + apply no_rep_snoc; [exact J1|]. intros b Hb S.
      assert (S' : same_edge (g_direction g) (u, v) b).
      { eapply same_trans; [|exact S]. destruct Ha as [->|[Ed ->]]; [apply same_refl|right; auto]. }
      destruct S' as [<-|[Ed E]]; destruct (J2 _ Hb) as [C|[Ed' C]].
      * auto.
      * apply (Nvu Ed'). exact C.
      * destruct b as [b1 b2]. injection E as -> ->. apply (Nvu Ed). exact C.
      * destruct b as [b1 b2]. injection E as -> ->. exact (Nuv C).
    + intros b Hb. apply in_app_or in Hb. destruct Hb as [Hb|[<-|[]]].
      * destruct (J2 b Hb) as [C|[Ed C]].
        -- left. right. destruct (g_direction g); [exact C|right; exact C].
        -- right. split; [exact Ed|]. right. rewrite Ed. right. exact C.
      * destruct Ha as [->|[Ed ->]]; [left; left; reflexivity|].
        right. split; [exact Ed|]. left. reflexivity.
    + intros b Hb. destruct Hb as [<-|Hb].
      * exists a. split; [apply in_or_app; right; left; reflexivity|]. destruct Ha as [->|[Ed ->]]; [apply same_refl|right; auto].
      * assert (C : In b (g_e g) \/ (g_direction g = false /\ b = (v, u))).
        { destruct (g_direction g); [auto|]. destruct Hb as [<-|Hb]; auto. }
        destruct C as [C|[Ed ->]].
        -- destruct (J3 b C) as [b' [H S]]. exists b'. split; [apply in_or_app; auto|exact S].
        -- exists a. split; [apply in_or_app; right; left; reflexivity|].
           destruct Ha as [->|[_ ->]]; [right; auto|apply same_refl].
Qed.

(** all pairs u < v *)
Definition all_pairs (n : nat) : list (Z * Z) :=
  flat_map (fun v => map (fun u => (Z.of_nat u, Z.of_nat v)) (seq 0 v)) (seq 0 n).

Lemma all_pairs_S n : all_pairs (S n) = all_pairs n ++ map (fun u => (Z.of_nat u, Z.of_nat n)) (seq 0 n).
Proof. unfold all_pairs. rewrite seq_S, flat_map_app. cbn [flat_map Nat.add]. rewrite app_nil_r. reflexivity. Qed.

Lemma all_pairs_length n : 2 * Z.of_nat (length (all_pairs n)) = Z.of_nat n * (Z.of_nat n - 1).
Proof.
  induction n as [|n IH]; [reflexivity|]. rewrite all_pairs_S, app_length, map_length, seq_length. nia.
Qed.

Lemma all_pairs_in n u v : In (u, v) (all_pairs n) <-> 0 <= u < v /\ v < Z.of_nat n.
Proof.
  unfold all_pairs. rewrite in_flat_map. split.
  - intros [k [Hk H]]. apply in_seq in Hk. apply in_map_iff in H. destruct H as [j [[= <- <-] Hj]]. apply in_seq in Hj. lia.
  - intros [H1 H2]. exists (Z.to_nat v). split; [apply in_seq; lia|]. apply in_map_iff. exists (Z.to_nat u).
    split; [f_equal; lia|apply in_seq; lia].
Qed.

Lemma all_pairs_nodup n : NoDup (all_pairs n).
Proof.
  induction n as [|n IH]; [constructor|]. rewrite all_pairs_S.
  assert (ND : NoDup (map (fun u => (Z.of_nat u, Z.of_nat n)) (seq 0 n))).
  { apply FinFun.Injective_map_NoDup; [|apply seq_NoDup]. intros x y [= E]. lia. }
  assert (DJ : forall x, In x (all_pairs n) -> ~ In x (map (fun u => (Z.of_nat u, Z.of_nat n)) (seq 0 n))).
  { intros [u v] H C. apply all_pairs_in in H. apply in_map_iff in C. destruct C as [k [[= <- <-] _]]. lia. }
  clear -IH ND DJ. revert DJ. induction IH as [|x l Hx _ IHl]; intro DJ; cbn; [exact ND|].
  constructor; [|apply IHl; intros y Hy; apply DJ; right; exact Hy].
  intro C. apply in_app_or in C. destruct C as [C|C]; [exact (Hx C)|]. exact (DJ x (or_introl eq_refl) C).
Qed.

Definition norm (a : Z * Z) : Z * Z := (Z.min (fst a) (snd a), Z.max (fst a) (snd a)).

Lemma fresh_pair g : gen_inv g -> 0 <= g_node g -> g_direction g = false -> g_self_loop g = false -> g_multiply g = false ->
  2 * Z.of_nat (length (g_edge g)) < g_node g * (g_node g - 1) ->
  exists u v, 0 <= u < v /\ v < g_node g /\ refused g u v = false /\ refused g v u = false.
Proof.
  intros (_ & _ & I3) HN Ed Es Em HL. destruct (I3 Em) as (_ & _ & J3). rewrite Ed in J3.
  set (P := fun '(u, v) => negb (refused g u v) && negb (refused g v u)).
  destruct (existsb P (all_pairs (Z.to_nat (g_node g)))) eqn:E.
  - apply existsb_exists in E. destruct E as [[u v] [H HP]]. apply all_pairs_in in H. cbn in HP. apply andb_prop in HP. destruct HP as [P1 P2].
    apply negb_true_iff in P1, P2. exists u, v. split; [lia|]. split; [lia|]. auto.
  - exfalso. pose proof (all_pairs_length (Z.to_nat (g_node g))) as LA.
    assert (INC : incl (all_pairs (Z.to_nat (g_node g))) (map norm (g_edge g))).
    { intros [u v] H. pose proof (proj1 (all_pairs_in _ _ _) H) as HB.
      assert (NP : P (u, v) = false).
      { destruct (P (u, v)) eqn:EP; [|reflexivity].
        assert (X : existsb P (all_pairs (Z.to_nat (g_node g))) = true) by (apply existsb_exists; exists (u, v); auto). congruence. }
      assert (X : In (u, v) (g_e g) \/ In (v, u) (g_e g)).
      { cbn in NP. unfold refused, judge_self_loop, judge_multiply in NP. rewrite Ed, Es, Em in NP. cbn [negb andb] in NP.
        rewrite (proj2 (Z.eqb_neq u v)), (proj2 (Z.eqb_neq v u)) in NP by lia. cbn [orb] in NP.
        destruct (e_has (g_e g) u v) eqn:E1; [left; apply e_has_in; exact E1|].
        destruct (e_has (g_e g) v u) eqn:E2; [right; apply e_has_in; exact E2|]. discriminate NP. }
      apply in_map_iff.
      assert (Y : exists b, In b (g_edge g) /\ same_edge false (u, v) b).
      { destruct X as [X|X]; destruct (J3 _ X) as [b [Hb S]]; exists b; (split; [exact Hb|]); [exact S|].
        eapply same_trans; [|exact S]. right. auto. }
      destruct Y as [[b1 b2] [Hb S]]. exists (b1, b2). split; [|exact Hb]. unfold norm. cbn.
      destruct S as [[= -> ->]|[_ [= -> ->]]]; f_equal; lia. }
    pose proof (NoDup_incl_length (all_pairs_nodup _) INC) as LE. rewrite map_length in LE. nia.
Qed.

Definition loop_ends (fuel k : nat) (m : Z) (g : gen_graph) : Prop :=
  rng_fuel fuel /\ m <= Z.of_nat k /\ g_direction g = false /\ g_self_loop g = false /\ drawable (g_multiply g) (g_node g) /\
  (g_multiply g = false -> 2 * (Z.of_nat (length (g_edge g)) + m) <= g_node g * (g_node g - 1)).

Lemma gen_loop_ok fuel : forall k m g s, 0 < g_node g <= INT_MAX -> 0 <= m <= INT_MAX -> gen_inv g ->
  runs (loop_ends fuel k m g)
    (fun '(g', _) => gen_inv g' /\ same_params g g' /\ Z.of_nat (length (g_edge g')) = Z.of_nat (length (g_edge g)) + m /\
        (forall a, In a (g_edge g) -> In a (g_edge g')))
    (gen_loop fuel k m g s).
Proof.
  induction k as [|k IH]; intros m g s HN Hm I; cbn [gen_loop].
  - destruct (m =? 0) eqn:E.
    + apply Z.eqb_eq in E. subst. cbn. split; [exact I|]. split; [apply same_params_refl|]. split; [lia|auto].
    + apply Z.eqb_neq in E. split; [reflexivity|]. unfold loop_ends. lia.
  - destruct (m =? 0) eqn:E.
    { apply Z.eqb_eq in E. subst. cbn. split; [exact I|]. split; [apply same_params_refl|]. split; [lia|auto]. }
    apply Z.eqb_neq in E.
    eapply runs_bind; [apply (runs_ck _ (fun x => x = m - 1)); [unfold INT_MIN; lia|reflexivity]|]. intros m' ->.
    eapply runs_bind.
    { eapply runs_weaken; [apply (draw_edge_ok fuel g s HN)| |intros x Hx; exact Hx].
      intros (Hf & Hk & Ed & Es & HD & HC). split; [exact Hf|]. unfold drawable in HD. destruct (g_multiply g) eqn:Em.
      - destruct HD as (u & v & Nuv & Y). exists u, v. split; [exact Y|].
        unfold refused, judge_self_loop, judge_multiply. rewrite Es, Em. cbn.
        rewrite (proj2 (Z.eqb_neq u v)), (proj2 (Z.eqb_neq v u)) by auto. auto.
      - specialize (HC eq_refl). destruct (fresh_pair g I ltac:(lia) Ed Es Em ltac:(lia)) as (u & v & H1 & H2 & R1 & R2).
        exists u, v. split; [apply HD; lia|auto]. }
    intros [[u v] s'] (Hu & Hv & R).
    eapply runs_bind; [eapply runs_weaken; [apply (add_edge_ok fuel g u v s' I Hu Hv R)|intros (Hf & _); exact Hf|intros x Hx; exact Hx]|].
    intros [g' s''] (I' & SP & a & Ea).
    assert (SP' := SP). destruct SP' as (P1 & P2 & P3 & P4 & P5 & P6).
    eapply runs_weaken; [apply (IH (m - 1) g' s'')| |].
    + rewrite P1. exact HN.
    + lia.
    + exact I'.
    + intros (Hf & Hk & Ed & Es & HD & HC). unfold loop_ends. rewrite P1, P3, P4, P5, Ea, app_length. cbn [length].
      split; [exact Hf|]. split; [lia|]. split; [exact Ed|]. split; [exact Es|]. split; [exact HD|]. intro Em. specialize (HC Em). lia.
    + intros [g'' s3] (I'' & SP'' & L & IN). split; [exact I''|]. split.
      { unfold same_params in *. intuition congruence. }
      split.
      * rewrite L, Ea, app_length. cbn [length]. lia.
      * intros b Hb. apply IN. rewrite Ea. apply in_or_app. auto.
Qed.

(** ** GenGraph *)
Definition graph_good (g g' : gen_graph) : Prop :=
  same_params g g' /\ Z.of_nat (length (g_edge g')) = edges_wanted g /\ nodes_in (g_node g) (g_edge g') /\
  (g_self_loop g = false -> forall u v, In (u, v) (g_edge g') -> u <> v) /\
  (g_multiply g = false -> no_repetition (g_direction g) (g_edge g')) /\
  (g_connect g = true -> connected (g_node g) (g_edge g')).

Lemma simple_max_eq g : 0 <= g_node g ->
  (let max := Z.quot (g_node g * (g_node g - 1)) 2 in
   let max := if g_self_loop g then max + g_node g else max in
   if g_direction g then max * 2 else max) = simple_max g.
Proof.
  intro HN. cbn zeta. unfold simple_max. set (N := g_node g) in *.
  assert (H : 0 <= N * (N - 1)) by (destruct (Z.eq_dec N 0) as [->|]; [lia|nia]).
  rewrite Z.quot_div_nonneg by lia. destruct (g_self_loop g), (g_direction g); lia.
Qed.

Lemma no_rep_directed l : no_repetition false l -> forall d, no_repetition d l.
Proof. intros H d p q a b Hp Hq S. apply (H p q a b Hp Hq). destruct S as [S|[_ S]]; [left; exact S|right; auto]. Qed.

Lemma gen_graph_run_ok fuel g s : 0 < g_node g <= INT_MAX -> 0 <= g_side g <= INT_MAX ->
  runs (rng_fuel fuel /\ g_direction g = false /\ g_self_loop g = false /\ drawable (g_multiply g) (g_node g))
    (fun '(g', _) => graph_good g g') (gen_graph_run fuel g s).
Proof.
  intros HN HS. unfold gen_graph_run. cbn [g_node g_side g_edge g_e g_direction g_multiply g_self_loop g_connect with_edges].
  pose proof (simple_max_eq g ltac:(lia)) as SM. cbn zeta in SM. cbn zeta. rewrite SM. clear SM.
  assert (SM : 0 <= simple_max g).
  { unfold simple_max. assert (0 <= g_node g * (g_node g - 1) / 2) by (apply Z.div_pos; nia). destruct (g_self_loop g), (g_direction g); lia. }
  set (m := if g_multiply g then g_side g else Z.min (g_side g) (simple_max g)).
  assert (Hm : 0 <= m <= INT_MAX) by (unfold m; destruct (g_multiply g); lia).
  set (T := _ /\ _).
  set (g0 := with_edges g [] []).
  set (I := fun (m' : Z) (g' : gen_graph) => gen_inv g' /\ same_params g g' /\ 0 <= m' <= INT_MAX /\ Z.of_nat (length (g_edge g')) + m' = edges_wanted g /\
     (g_connect g = true -> connected (g_node g) (g_edge g'))).
  apply (runs_bind _ (fun '(m', g', _) => I m' g')).
  { destruct (g_connect g) eqn:Ec.
    - eapply runs_bind; [apply (runs_ck _ (fun x => x = g_node g - 1)); [unfold INT_MIN; lia|reflexivity]|]. intros d ->.
      eapply runs_bind; [apply (runs_ck _ (fun x => x = m - (g_node g - 1))); [unfold INT_MIN, INT_MAX in *; lia|reflexivity]|]. intros d ->.
      eapply runs_bind; [eapply runs_weaken; [apply (gen_tree_ok fuel (g_node g) s); lia| |intros x Hx; exact Hx]|].
      { intros (Hf & _). exact Hf. }
      intros [l s'] (L & NI & NL & NR & CO). cbn [runs]. unfold I.
      split; [|split; [|split; [|split]]].
      + unfold gen_inv, with_edges; cbn [g_node g_edge g_self_loop g_multiply g_direction g_e].
        split; [exact NI|]. split; [intros _; exact NL|]. intros _. split; [apply no_rep_directed; exact NR|]. split; [auto|].
        intros a Ha. exists a. split; [exact Ha|apply same_refl].
      + unfold same_params, with_edges; cbn. tauto.
      + lia.
      + cbn [with_edges g_edge]. unfold edges_wanted. rewrite Ec. fold m. lia.
      + intros _. exact CO.
    - cbn [runs]. unfold I. split; [|split; [|split; [|split]]].
      + unfold gen_inv, g0, with_edges; cbn [g_node g_edge g_self_loop g_multiply g_direction g_e].
        split; [intros u v []|]. split; [intros _ u v []|]. intros _. split; [apply no_rep_nil|]. split; [intros a []|intros a []].
      + unfold same_params, g0, with_edges; cbn. tauto.
      + exact Hm.
      + cbn. unfold edges_wanted. rewrite Ec. reflexivity.
      + discriminate. }
  intros [[m' g1] s1] (I1 & SP & Hm' & HL & HC). assert (SP' := SP). destruct SP' as (P1 & P2 & P3 & P4 & P5 & P6).
  eapply runs_bind.
  { eapply runs_weaken; [apply (gen_loop_ok fuel fuel m' g1 s1)| |intros x Hx; exact Hx].
    - rewrite P1. exact HN.
    - exact Hm'.
    - exact I1.
    - intros (Hf & Ed & Es & HD). unfold loop_ends. rewrite P1, P3, P4, P5.
      split; [exact Hf|]. split; [unfold rng_fuel, INT_MAX in *; lia|]. split; [exact Ed|]. split; [exact Es|]. split; [exact HD|].
      intro Em. rewrite HL. unfold edges_wanted. rewrite Em. unfold simple_max. rewrite Ed, Es.
      pose proof (Z.div_mod (g_node g * (g_node g - 1)) 2 ltac:(lia)). pose proof (Z.mod_pos_bound (g_node g * (g_node g - 1)) 2 ltac:(lia)).
      assert (2 * (g_node g - 1) <= g_node g * (g_node g - 1)) by (destruct (Z.eq_dec (g_node g) 1) as [->|]; [lia|nia]).
      destruct (g_connect g); lia. }
  intros [g2 s2] (I2 & SP2 & L2 & IN2). assert (SP2' := SP2). destruct SP2' as (Q1 & Q2 & Q3 & Q4 & Q5 & Q6).
  assert (EL : Z.of_nat (length (g_edge g2)) = edges_wanted g) by lia.
  assert (EW : edges_wanted g <= INT_MAX) by (unfold edges_wanted; fold m; destruct (g_connect g); lia).
  eapply runs_bind.
  { eapply runs_weaken; [apply (shuffle_ok fuel 0 (g_edge g2) s2); lia| |intros x Hx; exact Hx]. intros (Hf & _). exact Hf. }
  intros [l s3] P. cbn [runs]. destruct I2 as (J1 & J2 & J3).
  assert (IN : forall e, In e l <-> In e (g_edge g2)) by (intro e; split; apply Permutation_in; [apply Permutation_sym|]; exact P).
  unfold graph_good. cbn [with_edges g_edge]. split; [unfold same_params, with_edges in *; cbn; intuition congruence|].
  split; [rewrite <- (Permutation_length P); exact EL|].
  rewrite Q1, P1 in J1. rewrite Q5, P5 in J2. rewrite Q4, P4, Q3, P3 in J3.
  split; [intros u v H; apply IN in H; exact (J1 u v H)|].
  split; [intros Es u v H; apply IN in H; exact (J2 Es u v H)|].
  split; [intro Em; apply (no_rep_perm _ _ _ P); apply (J3 Em)|].
  intros Ec u v Hu Hv. apply (linked_mono (g_edge g1)); [|apply (HC Ec u v Hu Hv)].
  intros e He. apply IN. apply IN2. exact He.
Qed.
