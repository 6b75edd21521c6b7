(** * The shapes of the trees drawn with [std::pow] *)
From Coq Require Import Permutation FinFun Floats.SpecFloat.
From Verif Require Import Base Data BaseLemmas ProblemDefine CostScaling Generator GenMore GenFar Spec GenSpec GenMoreSpec FloatSpec GenFarSpec GenRng GenGraphProof GenWeb GenShapes GenTrees GenFarFloat GenFarProof.
Local Open Scope Z_scope.

(** ** At most one draw is exceptional *)
(** the k-th draw is [usual k], but [odd_one k] when next() returns 0 *)
Definition nearly (usual odd_one : nat -> nat) (F : list nat) (s : rng) : Prop :=
  (forall k, (k < length F)%nat -> nth k F O = usual k) \/
  exists k0, (k0 < length F)%nat /\ nth k0 F O = odd_one k0 /\ (forall k, (k < length F)%nat -> k <> k0 -> nth k F O = usual k) /\
    s = steps (3 * (length F - k0) - 1) 0.

Lemma nearly_step usual odd_one F s z f : nearly usual odd_one F s -> Z.of_nat (length F) < 2700 -> (z = 0 -> rng_step s = 0) ->
  f = (if z =? 0 then odd_one (length F) else usual (length F)) -> nearly usual odd_one (F ++ [f]) (rng_step (rng_step (rng_step s))).
Proof.
  intros H L Hz Hf. unfold nearly. rewrite app_length. cbn [length].
  assert (NEW : nth (length F) (F ++ [f]) O = f) by (rewrite app_nth2, Nat.sub_diag by lia; reflexivity).
  assert (OLD : forall k, (k < length F)%nat -> nth k (F ++ [f]) O = nth k F O) by (intros k Hk; apply app_nth1; exact Hk).
  destruct H as [H|(k0 & Hk & K0 & H & Hs)].
  - destruct (Z.eqb_spec z 0) as [->|Nz].
    + right. exists (length F). split; [lia|]. split; [congruence|]. split; [intros k H1 H2; rewrite OLD by lia; apply H; lia|].
      rewrite (Hz eq_refl). replace (3 * (length F + 1 - length F) - 1)%nat with 2%nat by lia. reflexivity.
    + left. intros k Hk. destruct (Nat.eq_dec k (length F)) as [->|Nk]; [congruence|]. rewrite OLD by lia. apply H. lia.
  - destruct (Z.eqb_spec z 0) as [->|Nz].
    + exfalso. specialize (Hz eq_refl). rewrite Hs, <- steps_S in Hz. replace (S (3 * (length F - k0) - 1)) with (3 * (length F - k0))%nat in Hz by lia.
      revert Hz. apply not_back; lia.
    + right. exists k0. split; [lia|]. split; [rewrite OLD by lia; exact K0|]. split.
      * intros k H1 H2. destruct (Nat.eq_dec k (length F)) as [->|Nk]; [congruence|]. rewrite OLD by lia. apply H; lia.
      * rewrite Hs, <- !steps_S. f_equal. lia.
Qed.

(** ** Paths *)
Lemma path_cons x y l : path_edges (x :: y :: l) = (y, x) :: path_edges (y :: l).
Proof.
  unfold path_edges. cbn [length]. rewrite !Nat.sub_succ, !Nat.sub_0_r. cbn [seq map nth Nat.sub]. f_equal.
  rewrite <- (seq_shift _ 1), map_map. apply map_ext_in. intros i Hi. apply in_seq in Hi. destruct i as [|i]; [lia|]. cbn [nth Nat.sub]. rewrite Nat.sub_0_r. reflexivity.
Qed.

Lemma path_app l y l' : l <> [] -> path_edges (l ++ y :: l') = path_edges l ++ (y, last l 0) :: path_edges (y :: l').
Proof.
  induction l as [|x l IH]; intro NN; [congruence|]. destruct l as [|x' l]; [cbn [app]; rewrite path_cons; reflexivity|].
  cbn [app]. rewrite !path_cons. cbn [app]. f_equal. apply IH. discriminate.
Qed.

Lemma last_hd (l : list Z) x d : last (rev (x :: l)) d = x.
Proof. cbn [rev]. apply last_last. Qed.

Lemma same_refl d a : same_edge d a a.
Proof. left. reflexivity. Qed.

Lemma path_rev l : Forall2 (same_edge false) (rev (path_edges l)) (path_edges (rev l)).
Proof.
  induction l as [|x l IH]; [constructor|]. destruct l as [|y l]; [constructor|]. rewrite path_cons. cbn [rev] in *.
  rewrite path_app by (destruct (rev l); discriminate). apply Forall2_app; [exact IH|]. constructor; [|constructor].
  right. split; [reflexivity|]. cbn [fst snd]. rewrite last_last. reflexivity.
Qed.

Lemma seq_off a n : seq a n = map (Nat.add a) (seq 0 n).
Proof. revert a. induction n as [|n IH]; intro a; [reflexivity|]. cbn [seq map]. rewrite Nat.add_0_r. f_equal. rewrite (IH (S a)), <- seq_shift, map_map. apply map_ext. intro k. lia. Qed.

Lemma path_shift l n : length l = S n -> path_edges l = map (fun k => (nth (S k) l 0, nth k l 0)) (seq 0 n).
Proof.
  intro H. unfold path_edges. rewrite H, Nat.sub_succ, Nat.sub_0_r, <- seq_shift, map_map. apply map_ext. intro k. rewrite Nat.sub_succ, Nat.sub_0_r. reflexivity.
Qed.

Lemma same_trans a b c : same_edge false a b -> same_edge false b c -> same_edge false a c.
Proof.
  intros [->|[_ ->]] [->|[_ ->]]; [left; reflexivity|right; auto|right; auto|left]. destruct c as [u v]. reflexivity.
Qed.

Lemma forall2_trans l1 : forall l2 l3, Forall2 (same_edge false) l1 l2 -> Forall2 (same_edge false) l2 l3 -> Forall2 (same_edge false) l1 l3.
Proof.
  induction l1 as [|a l1 IH]; intros l2 l3 H1 H2; inversion H1; subst; inversion H2; subst; constructor; [eapply same_trans; eassumption|eapply IH; eassumption].
Qed.

Lemma forall2_rev {A B} (R : A -> B -> Prop) l l' : Forall2 R l l' -> Forall2 R (rev l) (rev l').
Proof. intro H. induction H; [constructor|]. cbn. apply Forall2_snoc; assumption. Qed.

Lemma chain_usual N p F E : all_nodes N p -> length p = S (length F) -> (forall k, (k < length F)%nat -> nth k F O = k) -> drawn_as false E (hung p F) -> is_path N E.
Proof.
  intros A L H D. exists p. split; [exact A|]. rewrite (path_shift p _ L). replace (map _ _) with (hung p F); [exact D|].
  unfold hung. apply map_ext_in. intros k Hk. apply in_seq in Hk. rewrite H by lia. reflexivity.
Qed.

Lemma chain_odd N p F E k0 : all_nodes N p -> length p = S (length F) -> (k0 < length F)%nat -> nth k0 F O = O ->
  (forall k, (k < length F)%nat -> k <> k0 -> nth k F O = k) -> drawn_as false E (hung p F) -> is_path N E.
Proof.
  intros A L Hk0 K0 H D. destruct (nth_split p 0 (n := S k0) ltac:(lia)) as (l1 & l2 & Ep & L1). set (y := nth (S k0) p 0) in *. clearbody y.
  assert (L2 : length p = (length l1 + S (length l2))%nat) by (rewrite Ep, app_length; reflexivity).
  assert (EH : hung p F = path_edges l1 ++ (y, nth 0 l1 0) :: path_edges (y :: l2)).
  { unfold hung. replace (length F) with (k0 + (1 + length l2))%nat by lia. rewrite seq_app, map_app. f_equal.
    - rewrite (path_shift l1 k0 L1). apply map_ext_in. intros k Hk. apply in_seq in Hk. rewrite (H k) by lia. rewrite Ep, !app_nth1 by lia. reflexivity.
    - cbn [seq Nat.add map]. f_equal.
      + rewrite K0, Ep. rewrite (app_nth1 _ _ _ (n := 0)) by lia. rewrite app_nth2, L1, Nat.sub_diag by lia. reflexivity.
      + rewrite (path_shift (y :: l2) (length l2)) by reflexivity. rewrite (seq_off (S k0)), map_map. apply map_ext_in. intros k Hk. apply in_seq in Hk.
        rewrite (H (S k0 + k)%nat) by lia. rewrite Ep, !app_nth2 by lia. f_equal; f_equal; lia. }
  rewrite EH in D. destruct D as [E0 [P0 F0]]. apply Forall2_app_inv_r in F0. destruct F0 as (EA & EB & FA & FB & ->).
  exists (rev l1 ++ y :: l2). split.
  - apply (all_nodes_perm N p); [|exact A]. rewrite Ep. apply Permutation_app_tail. apply Permutation_rev.
  - exists (rev EA ++ EB). split.
    + rewrite P0. apply Permutation_app_tail. apply Permutation_rev.
    + destruct l1 as [|x l1]; [discriminate L1|]. rewrite path_app by (cbn; destruct (rev l1); discriminate). rewrite last_hd. apply Forall2_app; [|exact FB].
      eapply forall2_trans; [apply forall2_rev; exact FA|apply path_rev].
Qed.

(** ** Stars *)
Lemma star_usual N p F E : all_nodes N p -> length p = S (length F) -> (forall k, (k < length F)%nat -> nth k F O = O) -> drawn_as false E (hung p F) -> is_star N E.
Proof.
  intros A L H [E0 [P0 F0]]. exists (nth 0 p 0), (tl p). destruct p as [|c p]; [discriminate L|]. cbn [nth tl] in *. split; [exact A|]. exists E0. split; [exact P0|].
  eapply forall2_trans; [exact F0|]. unfold hung. injection L as L. rewrite <- L.
  replace (map (fun v => (c, v)) p) with (map (fun k => (c, nth k p 0)) (seq 0 (length p))) by (rewrite <- (map_map (fun k => nth k p 0) (fun v => (c, v))), map_nth_seq; reflexivity).
  assert (G : forall l, (forall k, In k l -> (k < length F)%nat) -> Forall2 (same_edge false) (map (fun k => (nth (S k) (c :: p) 0, nth (nth k F O) (c :: p) 0)) l) (map (fun k => (c, nth k p 0)) l)).
  { induction l as [|k l IH]; intro Hl; [constructor|]. cbn [map]. constructor; [|apply IH; intros j Hj; apply Hl; right; exact Hj].
    rewrite H by (apply Hl; left; reflexivity). right. auto. }
  apply G. intros k Hk. apply in_seq in Hk. lia.
Qed.

Lemma flip_all c u : Forall2 (same_edge false) (map (fun v => (v, c)) u) (map (fun v => (c, v)) u).
Proof. induction u; constructor; [right; auto|assumption]. Qed.

Lemma star_odd N p F E k0 : all_nodes N p -> length p = S (length F) -> (k0 < length F)%nat -> nth k0 F O = k0 -> (1 <= k0)%nat ->
  (forall k, (k < length F)%nat -> k <> k0 -> nth k F O = O) -> drawn_as false E (hung p F) -> is_bent_star N E.
Proof.
  intros A L Hk0 K0 K1 H D. destruct p as [|c p]; [discriminate L|]. injection L as L.
  destruct (nth_split p 0 (n := k0) ltac:(lia)) as (u & w & Ep & L1). set (x := nth k0 p 0) in *. clearbody x.
  assert (L2 : length p = (length u + S (length w))%nat) by (rewrite Ep, app_length; reflexivity).
  set (y := nth (k0 - 1) u 0).
  assert (EH : hung (c :: p) F = map (fun v => (v, c)) u ++ (x, y) :: map (fun v => (v, c)) w).
  { unfold hung. replace (length F) with (k0 + (1 + length w))%nat by lia. rewrite seq_app, map_app. f_equal.
    - transitivity (map (fun v => (v, c)) (map (fun k => nth k u 0) (seq 0 (length u)))); [|rewrite map_nth_seq; reflexivity]. rewrite map_map, L1. apply map_ext_in. intros k Hk. apply in_seq in Hk. rewrite (H k) by lia. cbn [nth]. rewrite Ep, app_nth1 by lia. reflexivity.
    - cbn [seq Nat.add map]. f_equal.
      + rewrite K0. cbn [nth]. destruct k0 as [|j]; [lia|]. unfold y. rewrite Nat.sub_succ, Nat.sub_0_r. rewrite Ep. f_equal; [rewrite app_nth2, L1, Nat.sub_diag by lia; reflexivity|apply app_nth1; lia].
      + transitivity (map (fun v => (v, c)) (map (fun k => nth k w 0) (seq 0 (length w)))); [|rewrite map_nth_seq; reflexivity]. rewrite map_map, (seq_off (S k0)), map_map. apply map_ext_in. intros k Hk. apply in_seq in Hk.
        rewrite (H (S k0 + k)%nat) by lia. cbn [nth]. rewrite Ep, app_nth2 by lia. replace (S k0 + k - length u)%nat with (S k) by lia. reflexivity. }
  rewrite EH in D. destruct D as [E0 [P0 F0]]. apply Forall2_app_inv_r in F0. destruct F0 as (EA & EB & FA & FB & ->). inversion FB as [|e ? EB' ? Fe FB']; subst.
  exists c, x, y, (u ++ w). split; [|split].
  - apply (all_nodes_perm N (c :: u ++ x :: w)); [|exact A]. apply perm_skip. symmetry. apply Permutation_middle.
  - apply in_or_app. left. apply nth_In. lia.
  - exists (e :: EA ++ EB'). split; [rewrite P0; symmetry; apply Permutation_middle|]. constructor; [exact Fe|]. rewrite map_app.
    apply Forall2_app; (eapply forall2_trans; [eassumption|apply flip_all]).
Qed.

(** ** All together *)
Section Far.
Variables (powf : spec_float -> spec_float -> spec_float) (fuel : nat) (N : Z).
Hypothesis G : pow_good powf.
Hypothesis HN : 1 <= N <= INT_MAX.

Lemma draws_any shift : shift = 100000 \/ shift = -100000 -> forall (F : list nat) (s : rng), True -> Z.of_nat (S (length F)) < N ->
  runs (rng_fuel fuel) (fun '(f, s1) => 0 <= f < Z.of_nat (S (length F)) /\ True) (wnext_all powf fuel (Z.of_nat (S (length F))) shift s).
Proof.
  intros Hs F s _ L. rewrite all_far by (destruct Hs as [-> | ->]; lia). destruct Hs as [-> | ->].
  - destruct (far_up powf (Z.of_nat (S (length F))) s G) as (z & t & _ & _ & _ & E & Ht & _); [lia|]. rewrite E. cbn [runs]. auto.
  - destruct (far_down powf (Z.of_nat (S (length F))) s G) as (z & t & _ & _ & _ & E & Ht & _); [lia|]. rewrite E. cbn [runs]. auto.
Qed.

Lemma draws_up : N <= 2701 -> forall (F : list nat) (s : rng), nearly (fun k => k) (fun _ => O) F s -> Z.of_nat (S (length F)) < N ->
  runs (rng_fuel fuel) (fun '(f, s1) => 0 <= f < Z.of_nat (S (length F)) /\ nearly (fun k => k) (fun _ => O) (F ++ [Z.to_nat f]) (rng_step s1)) (wnext_all powf fuel (Z.of_nat (S (length F))) 100000 s).
Proof.
  intros H F s HJ L. rewrite all_far by lia. destruct (far_up powf (Z.of_nat (S (length F))) s G) as (z & t & Hz & H0 & _ & E & Ht & T); [lia|]. rewrite E. cbn [runs].
  split; [exact Ht|]. apply nearly_step with z; [exact HJ|lia|exact H0|]. rewrite (T ltac:(lia)). destruct (z =? 0); lia.
Qed.

Lemma draws_down : N <= 2701 -> forall (F : list nat) (s : rng), nearly (fun _ => O) (fun k => k) F s -> Z.of_nat (S (length F)) < N ->
  runs (rng_fuel fuel) (fun '(f, s1) => 0 <= f < Z.of_nat (S (length F)) /\ nearly (fun _ => O) (fun k => k) (F ++ [Z.to_nat f]) (rng_step s1)) (wnext_all powf fuel (Z.of_nat (S (length F))) (-100000) s).
Proof.
  intros H F s HJ L. rewrite all_far by lia. destruct (far_down powf (Z.of_nat (S (length F))) s G) as (z & t & Hz & H0 & _ & E & Ht & T); [lia|]. rewrite E. cbn [runs].
  split; [exact Ht|]. apply nearly_step with z; [exact HJ|lia|exact H0|]. rewrite (T ltac:(lia)). destruct (z =? 0); lia.
Qed.

Lemma nearly_nil u o s : nearly u o [] s.
Proof. left. intros k Hk. cbn in Hk. lia. Qed.

Lemma nearly_path p F s E : all_nodes N p -> Z.of_nat (length F) = N - 1 -> nearly (fun k => k) (fun _ => O) F s -> drawn_as false E (hung p F) -> is_path N E.
Proof.
  intros A L HJ D. pose proof (all_nodes_length N p ltac:(lia) A). destruct HJ as [H1|(k0 & H1 & H2 & H3 & _)]; [eapply chain_usual|eapply chain_odd]; try eassumption; lia.
Qed.

Lemma nearly_star p F s E : all_nodes N p -> Z.of_nat (length F) = N - 1 -> nearly (fun _ => O) (fun k => k) F s -> drawn_as false E (hung p F) -> is_star N E \/ is_bent_star N E.
Proof.
  intros A L HJ D. pose proof (all_nodes_length N p ltac:(lia) A). destruct HJ as [H1|(k0 & H1 & H2 & H3 & _)].
  - left. eapply star_usual; try eassumption; lia.
  - destruct k0 as [|k].
    + left. eapply star_usual; try eassumption; [lia|]. intros k Hk. destruct (Nat.eq_dec k 0) as [->|Nk]; [exact H2|apply H3; assumption].
    + right. eapply star_odd; try eassumption; lia.
Qed.

Theorem far_unroot shift s : shift = 100000 \/ shift = -100000 -> rng_fuel fuel ->
  exists E s', unroot_run powf fuel N shift s = Ok (E, s') /\ Z.of_nat (length E) = N - 1 /\ simple_connected N E.
Proof.
  intros Hs Hf. destruct (runs_ok _ _ _ (unroot_hung powf fuel N shift (fun _ _ => True) HN (fun _ => I) (draws_any shift Hs) s) Hf) as ([E s'] & Er & p & F & s2 & A & _ & L & D & _ & DR).
  exists E, s'. split; [exact Er|]. eapply hung_tree; try eassumption. lia.
Qed.

Theorem far_root t s : rt_node t = N -> rt_shift t = 100000 \/ rt_shift t = -100000 -> 0 <= rt_root t < N -> rng_fuel fuel ->
  exists E father s', root_run powf fuel t s = Ok (E, father, s') /\ Z.of_nat (length E) = N - 1 /\ simple_connected N E /\ rooted_tree N (rt_root t) (rt_rootfather t) father E.
Proof.
  intros Ht Hs HR Hf. destruct (runs_ok _ _ _ (root_hung powf fuel N (rt_shift t) (fun _ _ => True) HN (fun _ => I) (draws_any _ Hs) t s Ht eq_refl HR) Hf) as ([[E father] s'] & Er & p & F & s2 & A & R0 & L & D & _ & DR & LF & RF & HF).
  exists E, father, s'. split; [exact Er|]. destruct (hung_tree N p F E ltac:(lia) A L D DR) as [H1 H2]. split; [exact H1|]. split; [exact H2|]. eapply hung_rooted; try eassumption. lia.
Qed.

Theorem far_unroot_path s : N <= 2701 -> rng_fuel fuel -> exists E s', unroot_run powf fuel N 100000 s = Ok (E, s') /\ is_path N E.
Proof.
  intros H Hf. destruct (runs_ok _ _ _ (unroot_hung powf fuel N 100000 _ HN (nearly_nil _ _) (draws_up H) s) Hf) as ([E s'] & Er & p & F & s2 & A & _ & L & D & HJ & DR).
  exists E, s'. split; [exact Er|]. eapply nearly_path; eassumption.
Qed.

Theorem far_unroot_star s : N <= 2701 -> rng_fuel fuel -> exists E s', unroot_run powf fuel N (-100000) s = Ok (E, s') /\ (is_star N E \/ is_bent_star N E).
Proof.
  intros H Hf. destruct (runs_ok _ _ _ (unroot_hung powf fuel N (-100000) _ HN (nearly_nil _ _) (draws_down H) s) Hf) as ([E s'] & Er & p & F & s2 & A & _ & L & D & HJ & DR).
  exists E, s'. split; [exact Er|]. eapply nearly_star; eassumption.
Qed.

Theorem far_root_path t s : rt_node t = N -> rt_shift t = 100000 -> 0 <= rt_root t < N -> N <= 2701 -> rng_fuel fuel ->
  exists E father s', root_run powf fuel t s = Ok (E, father, s') /\ is_path N E.
Proof.
  intros Ht Hs HR H Hf. destruct (runs_ok _ _ _ (root_hung powf fuel N 100000 _ HN (nearly_nil _ _) (draws_up H) t s Ht Hs HR) Hf) as ([[E father] s'] & Er & p & F & s2 & A & R0 & L & D & HJ & DR & _).
  exists E, father, s'. split; [exact Er|]. eapply nearly_path; eassumption.
Qed.

Theorem far_root_star t s : rt_node t = N -> rt_shift t = -100000 -> 0 <= rt_root t < N -> N <= 2701 -> rng_fuel fuel ->
  exists E father s', root_run powf fuel t s = Ok (E, father, s') /\ (is_star N E \/ is_bent_star N E).
Proof.
  intros Ht Hs HR H Hf. destruct (runs_ok _ _ _ (root_hung powf fuel N (-100000) _ HN (nearly_nil _ _) (draws_down H) t s Ht Hs HR) Hf) as ([[E father] s'] & Er & p & F & s2 & A & R0 & L & D & HJ & DR & _).
  exists E, father, s'. split; [exact Er|]. eapply nearly_star; eassumption.
Qed.
End Far.

(** ** The choice of [pow] does not matter *)
Lemma for_each_in {A S} (l : list A) (f g : S -> A -> res S) : (forall s x, In x l -> f s x = g s x) -> forall s, for_each l s f = for_each l s g.
Proof.
  induction l as [|x l IH]; intros H s; [reflexivity|]. cbn [for_each]. rewrite H by (left; reflexivity). destruct (g s x) as [s'|]; [|reflexivity]. cbn [bind].
  apply IH. intros s0 y Hy. apply H. right. exact Hy.
Qed.

Lemma far_same powf powf' fuel n shift s : pow_good powf -> pow_good powf' -> shift = 100000 \/ shift = -100000 -> 0 < n <= 2700 ->
  wnext_all powf fuel n shift s = wnext_all powf' fuel n shift s.
Proof.
  intros G G' Hs Hn. rewrite !all_far by (destruct Hs as [-> | ->]; lia). assert (n <= INT_MAX) by (unfold INT_MAX; lia). destruct Hs as [-> | ->].
  - destruct (far_up powf n s G) as (z & t & _ & _ & Z1 & E & _ & T); [lia|]. destruct (far_up powf' n s G') as (z' & t' & _ & _ & Z2 & E' & _ & T'); [lia|].
    rewrite E, E', T, T', <- Z1, <- Z2 by lia. reflexivity.
  - destruct (far_down powf n s G) as (z & t & _ & _ & Z1 & E & _ & T); [lia|]. destruct (far_down powf' n s G') as (z' & t' & _ & _ & Z2 & E' & _ & T'); [lia|].
    rewrite E, E', T, T', <- Z1, <- Z2 by lia. reflexivity.
Qed.

Theorem unroot_same powf powf' fuel N shift s : pow_good powf -> pow_good powf' -> shift = 100000 \/ shift = -100000 -> N <= 2701 ->
  unroot_run powf fuel N shift s = unroot_run powf' fuel N shift s.
Proof.
  intros G G' Hs HN. unfold unroot_run. destruct (N <=? 0); [reflexivity|]. cbn [bind].
  destruct (shuffle fuel 1 (map Z.of_nat (seq 0 (Z.to_nat N))) s) as [[p s1]|]; [|reflexivity]. cbn [bind].
  erewrite for_each_in; [reflexivity|]. intros [E s2] i Hi. apply in_seq in Hi. cbv beta iota.
  rewrite (far_same powf powf' fuel (Z.of_nat i) shift s2 G G' Hs) by lia. reflexivity.
Qed.

Theorem root_same powf powf' fuel t s : pow_good powf -> pow_good powf' -> rt_shift t = 100000 \/ rt_shift t = -100000 -> rt_node t <= 2701 ->
  root_run powf fuel t s = root_run powf' fuel t s.
Proof.
  intros G G' Hs HN. unfold root_run. destruct (iota (rt_node t)) as [p0|]; [|reflexivity]. cbn [bind].
  destruct (if rt_root t <? 0 then Err OutOfBounds else vswap p0 0 (Z.to_nat (rt_root t))) as [p1|]; [|reflexivity]. cbn [bind].
  destruct (shuffle fuel 1 p1 s) as [[p s1]|]; [|reflexivity]. cbn [bind].
  erewrite for_each_in; [reflexivity|]. intros [[E father] s2] i Hi. apply in_seq in Hi. cbv beta iota.
  rewrite (far_same powf powf' fuel (Z.of_nat i) (rt_shift t) s2 G G' Hs) by lia. reflexivity.
Qed.

(** ** The exceptions *)
Definition bent_seed : rng := 205945562491954.
Definition fork_seed : rng := 252010051309667.

Lemma flower_bent : exists n seed, 1 <= n <= 2701 /\ 0 <= seed < 2 ^ 48 /\ forall powf, pow_good powf ->
  exists fuel E s', unroot_flower_run powf fuel n seed = Ok (E, s') /\ ~ is_star n E.
Proof.
  exists 4, bent_seed. split; [lia|]. split; [unfold bent_seed; lia|]. intros powf G. exists 100%nat, [(1, 3); (0, 1); (0, 2)], 25979478236433.
  split.
  - unfold unroot_flower_run. rewrite (unroot_same powf crude_pow) by (try exact G; try exact crude_good; try (right; reflexivity); lia). vm_compute. reflexivity.
  - intros (c & a & _ & D).
    assert (X : forall u v, In (u, v) [(1, 3); (0, 1); (0, 2)] -> c = u \/ c = v).
    { intros u v H. destruct (drawn_in _ _ _ D _ H) as [b [Hb S]]. apply in_map_iff in Hb. destruct Hb as [w [<- _]]. destruct S as [S|[_ S]]; injection S; auto. }
    pose proof (X 1 3 ltac:(cbn; auto)). pose proof (X 0 2 ltac:(cbn; auto)). lia.
Qed.

(** the root of a RootChain may have two children *)
Lemma chain_fork : exists n root rootfather seed, 1 <= n <= 2701 /\ 0 <= root < n /\ 0 <= seed < 2 ^ 48 /\ forall powf, pow_good powf ->
  exists fuel E father s' u v, root_run powf fuel (new_root_chain n root rootfather) seed = Ok (E, father, s') /\ 0 <= u < v /\ v < n /\
    nth (Z.to_nat u) father 0 = root /\ nth (Z.to_nat v) father 0 = root.
Proof.
  exists 5, 2, 7, fork_seed. split; [lia|]. split; [lia|]. split; [unfold fork_seed; lia|]. intros powf G.
  exists 100%nat, [(0, 1); (3, 0); (2, 3); (2, 4)], [3; 0; 7; 2; 2], 65633894156837, 3, 4.
  split; [rewrite (root_same powf crude_pow) by (try exact G; try exact crude_good; try (left; reflexivity); cbn [rt_node new_root_chain]; lia); vm_compute; reflexivity|].
  repeat split; lia.
Qed.
