(** * DAG and BipartiteGraph *)
From Coq Require Import Permutation FinFun.
From Verif Require Import Base Data BaseLemmas ProblemDefine CostScaling Generator GenMore Spec GenSpec GenMoreSpec GenRng GenGraphProof GenWeb GenShapes GenTrees.
Local Open Scope Z_scope.

Lemma runs_and {A} T (P Q : A -> Prop) (m : res A) : runs T P m -> runs T Q m -> runs T (fun a => P a /\ Q a) m.
Proof. destruct m; cbn; auto. Qed.

(** both lemmas on AddEdge together *)
Lemma add_both fuel g u v s : gen_inv g -> 0 <= u < g_node g -> 0 <= v < g_node g -> refused g u v = false ->
  runs (rng_fuel fuel) (fun '(g', _) => gen_inv g' /\ same_params g g' /\ exists a, same_edge (g_direction g) a (u, v) /\ g_edge g' = g_edge g ++ [a])
    (gen_add_edge fuel g u v s).
Proof.
  intros I Hu Hv R. eapply runs_weaken; [apply runs_and; [apply (add_edge_ok fuel g u v s I Hu Hv R)|apply (add_plain fuel g u v s)]|auto|].
  intros [g' s'] [(I' & SP & _) (a & S & ->)]. split; [exact I'|]. split; [exact SP|]. exists a. split; [exact S|reflexivity].
Qed.

Lemma params_trans g g' g'' : same_params g g' -> same_params g' g'' -> same_params g g''.
Proof. unfold same_params. intuition congruence. Qed.

(** a new node is attached *)
Lemma fresh_allowed g l u v : gen_inv g -> web l (g_edge g) -> ~ In u l -> In v l -> refused g u v = false /\ refused g v u = false.
Proof.
  intros (_ & _ & I3) (W1 & _ & _) Hu Hv.
  assert (N : u <> v) by congruence.
  assert (E : g_multiply g = false -> e_has (g_e g) u v = false /\ e_has (g_e g) v u = false).
  { intro Em. destruct (I3 Em) as (_ & _ & J3).
    assert (X : forall a b, In (a, b) (g_e g) -> In a l /\ In b l).
    { intros a b H. destruct (J3 _ H) as [[c d] [Hc S]]. destruct (W1 c d Hc) as (A & B & _). destruct S as [[= -> ->]|[_ [= -> ->]]]; auto. }
    split; (destruct (e_has (g_e g) _ _) eqn:C; [|reflexivity]; exfalso; apply e_has_in in C; destruct (X _ _ C); contradiction). }
  unfold refused, judge_self_loop, judge_multiply. rewrite (proj2 (Z.eqb_neq u v)), (proj2 (Z.eqb_neq v u)), !andb_false_r by congruence. cbn [orb].
  destruct (g_multiply g); [auto|]. destruct (E eq_refl) as [-> ->]. rewrite !andb_false_r. auto.
Qed.

Lemma grow_edge fuel g l u v x y s : gen_inv g -> web l (g_edge g) -> ~ In u l -> In v l -> 0 <= u < g_node g -> 0 <= v < g_node g ->
  (x, y) = (u, v) \/ (x, y) = (v, u) ->
  runs (rng_fuel fuel) (fun '(g', _) => gen_inv g' /\ same_params g g' /\ web (l ++ [u]) (g_edge g') /\
     exists a, same_edge (g_direction g) a (x, y) /\ g_edge g' = g_edge g ++ [a]) (gen_add_edge fuel g x y s).
Proof.
  intros I W Nu Hv Ru Rv E. destruct (fresh_allowed g l u v I W Nu Hv) as [R1 R2].
  assert (R : refused g x y = false) by (destruct E as [[= -> ->]|[= -> ->]]; assumption).
  eapply runs_weaken; [apply (add_both fuel g x y s I); [| |exact R]; destruct E as [[= -> ->]|[= -> ->]]; assumption|auto|].
  intros [g' s'] (I' & SP & a & S & EE). split; [exact I'|]. split; [exact SP|]. split; [|exists a; auto].
  rewrite EE. apply (web_grow _ _ u v); [exact W|exact Nu|exact Hv|]. eapply same_trans; [eapply same_undirected; exact S|].
  destruct E as [[= -> ->]|[= -> ->]]; [left; reflexivity|right; auto].
Qed.

(** the loop that adds the drawn edges; [R] holds for all edges *)
Lemma add_drawn_ok fuel draw g0 (R : Z * Z -> Prop) (Q : Z -> Z -> Prop) (T : Prop) cap :
  (forall u v a, Q u v -> same_edge (g_direction g0) a (u, v) -> R a) ->
  (forall g s, gen_inv g -> same_params g0 g -> (forall a, In a (g_edge g) -> R a) ->
     runs (rng_fuel fuel /\ T /\ Z.of_nat (length (g_edge g)) < cap)
       (fun '(u, v, _) => 0 <= u < g_node g0 /\ 0 <= v < g_node g0 /\ Q u v /\ refused g u v = false) (draw g s)) ->
  forall k m g s, 0 <= m <= INT_MAX -> gen_inv g -> same_params g0 g -> (forall a, In a (g_edge g) -> R a) ->
  runs (rng_fuel fuel /\ T /\ m <= Z.of_nat k /\ Z.of_nat (length (g_edge g)) + m <= cap)
    (fun '(g', _) => gen_inv g' /\ same_params g0 g' /\ (forall a, In a (g_edge g') -> R a) /\
       Z.of_nat (length (g_edge g')) = Z.of_nat (length (g_edge g)) + m /\ (forall a, In a (g_edge g) -> In a (g_edge g')))
    (add_drawn draw fuel k m g s).
Proof.
  intros HR HD. induction k as [|k IH]; intros m g s Hm I SP HE; cbn [add_drawn]; (destruct (Z.eqb_spec m 0) as [->|Nm];
    [cbn [runs]; split; [exact I|]; split; [exact SP|]; split; [exact HE|]; split; [lia|auto]|]).
  - split; [reflexivity|lia].
  - eapply runs_bind; [apply (runs_ck _ (fun x => x = m - 1)); [unfold INT_MIN; lia|reflexivity]|]. intros m' ->.
    eapply runs_bind; [eapply runs_weaken; [apply (HD g s I SP HE)|intros (Hf & HT & Hk & HC); split; [exact Hf|]; split; [exact HT|lia]|intros x Hx; exact Hx]|].
    intros [[u v] s1] (Hu & Hv & HQ & RF).
    assert (EN : g_node g = g_node g0) by apply SP.
    eapply runs_bind; [eapply runs_weaken; [apply (add_both fuel g u v s1 I); [rewrite EN; exact Hu|rewrite EN; exact Hv|exact RF]|intros (Hf & _); exact Hf|intros x Hx; exact Hx]|].
    intros [g1 s2] (I1 & SP1 & a & S & EE).
    assert (Ed : g_direction g = g_direction g0) by apply SP. rewrite Ed in S.
    eapply runs_weaken; [apply (IH (m - 1) g1 s2)| |].
    + lia.
    + exact I1.
    + eapply params_trans; eassumption.
    + intros b Hb. rewrite EE in Hb. apply in_app_or in Hb. destruct Hb as [Hb|[<-|[]]]; [apply HE; exact Hb|exact (HR u v a HQ S)].
    + intros (Hf & HT & Hk & HC). split; [exact Hf|]. split; [exact HT|]. rewrite EE, app_length. cbn [length]. lia.
    + intros [g2 s3] (I2 & SP2 & HE2 & L2 & IN2). split; [exact I2|]. split; [exact SP2|]. split; [exact HE2|]. split.
      * rewrite L2, EE, app_length. cbn [length]. lia.
      * intros b Hb. apply IN2. rewrite EE. apply in_or_app. auto.
Qed.

Lemma gen_inv_empty g : gen_inv (with_edges g [] []).
Proof.
  unfold gen_inv, with_edges; cbn [g_node g_edge g_self_loop g_multiply g_direction g_e].
  split; [intros u v []|]. split; [intros _ u v []|]. intros _. split; [apply no_rep_nil|]. split; [intros a []|intros a []].
Qed.

(** ** Positions *)
Fixpoint idx (p : list Z) (x : Z) : nat :=
  match p with [] => O | y :: p => if x =? y then O else S (idx p x) end.

Lemma idx_in p x : In x p -> (idx p x < length p)%nat /\ nth (idx p x) p 0 = x.
Proof.
  induction p as [|y p IH]; intros []; cbn.
  - subst. rewrite Z.eqb_refl. split; [lia|reflexivity].
  - destruct (Z.eqb_spec x y) as [->|N]; [split; [lia|reflexivity]|]. destruct (IH H). split; [lia|assumption].
Qed.

Lemma idx_nth p k : NoDup p -> (k < length p)%nat -> idx p (nth k p 0) = k.
Proof.
  intros ND H. destruct (idx_in p (nth k p 0)) as [H1 H2]; [apply nth_In; exact H|].
  apply (proj1 (NoDup_nth p 0) ND); auto.
Qed.

(** ** Drawing an edge of the DAG: as drawing an edge of the graph on positions *)
Definition pos_edge (p : list Z) (a : Z * Z) : Z * Z := (Z.of_nat (idx p (fst a)), Z.of_nat (idx p (snd a))).
Definition pos_graph (p : list Z) (g : gen_graph) : gen_graph :=
  mkGen (g_node g) 0 (map (pos_edge p) (g_edge g)) (map (pos_edge p) (g_edge g)) false (g_multiply g) false false.
Definition upward (p : list Z) (a : Z * Z) : Prop := (idx p (fst a) < idx p (snd a))%nat.

Section Dag.
Variable fuel : nat.
Variable p : list Z.
Variable g : gen_graph.
Hypothesis HN : 0 < g_node g <= INT_MAX.
Hypothesis HP : all_nodes (g_node g) p.
Hypothesis HD : g_direction g = true.
Hypothesis HS : g_self_loop g = false.
Hypothesis HI : gen_inv g.
Hypothesis HU : forall a, In a (g_edge g) -> upward p a.

Let at_ (u : Z) : Z := nth (Z.to_nat u) p 0.

Let LP : Z.of_nat (length p) = g_node g.
Proof. apply all_nodes_length; [lia|exact HP]. Qed.

Let at_idx u : 0 <= u < g_node g -> Z.of_nat (idx p (at_ u)) = u.
Proof. intro H. unfold at_. rewrite idx_nth; [lia|apply HP|lia]. Qed.

Let idx_at x : 0 <= x < g_node g -> at_ (Z.of_nat (idx p x)) = x /\ 0 <= Z.of_nat (idx p x) < g_node g.
Proof. intro H. apply HP in H. destruct (idx_in p x H) as [A B]. unfold at_. rewrite Nat2Z.id. split; [exact B|lia]. Qed.

Let at_range u : 0 <= u < g_node g -> 0 <= at_ u < g_node g.
Proof. intro H. apply HP. apply nth_In. lia. Qed.

Let at_inj u v : 0 <= u < g_node g -> 0 <= v < g_node g -> at_ u = at_ v -> u = v.
Proof. intros Hu Hv E. rewrite <- (at_idx u Hu), <- (at_idx v Hv), E. reflexivity. Qed.

Lemma pos_in u v : 0 <= u < g_node g -> 0 <= v < g_node g -> (In (u, v) (map (pos_edge p) (g_edge g)) <-> In (at_ u, at_ v) (g_edge g)).
Proof.
  intros Hu Hv. rewrite in_map_iff. split.
  - intros [[x y] [E H]]. unfold pos_edge in E. cbn in E. injection E as <- <-. destruct (proj1 HI x y H) as [Hx Hy].
    destruct (idx_at x Hx) as [-> _]. destruct (idx_at y Hy) as [-> _]. exact H.
  - intro H. exists (at_ u, at_ v). split; [|exact H]. unfold pos_edge. cbn. rewrite !at_idx by assumption. reflexivity.
Qed.

Lemma pos_refused u v : 0 <= u < g_node g -> 0 <= v < g_node g ->
  refused (pos_graph p g) u v = refused g (at_ (Z.min u v)) (at_ (Z.max u v)).
Proof.
  intros Hu Hv. unfold refused, judge_self_loop, judge_multiply, pos_graph.
  cbn [g_direction g_multiply g_self_loop g_e g_edge negb andb]. rewrite HS, HD. cbn [negb andb].
  f_equal.
  - destruct (Z.eqb_spec u v) as [->|N]; [rewrite Z.min_id, Z.max_id, Z.eqb_refl; reflexivity|].
    symmetry. apply Z.eqb_neq. intro C. apply at_inj in C; lia.
  - destruct (g_multiply g) eqn:Em; [reflexivity|]. destruct HI as (_ & _ & I3). destruct (I3 Em) as (_ & J2 & J3). rewrite HD in *.
    assert (EQ : forall a, In a (g_e g) <-> In a (g_edge g)).
    { intro a. split; intro H.
      - destruct (J3 a H) as [b [Hb S]]. rewrite (same_true _ _ S). exact Hb.
      - destruct (J2 a H) as [H'|[C _]]; [exact H'|discriminate]. }
    assert (UP : forall x y, 0 <= x < g_node g -> 0 <= y < g_node g -> In (at_ x, at_ y) (g_edge g) -> x < y).
    { intros x y Hx Hy H. apply HU in H. unfold upward in H. cbn in H. pose proof (at_idx x Hx). pose proof (at_idx y Hy). lia. }
    set (E := map (pos_edge p) (g_edge g)).
    destruct (e_has (g_e g) (at_ (Z.min u v)) (at_ (Z.max u v))) eqn:X.
    + apply e_has_in in X. apply EQ in X. destruct (Z.le_ge_cases u v) as [L|L].
      * rewrite Z.min_l, Z.max_r in X by exact L. apply pos_in in X; [|assumption|assumption]. apply e_has_in in X. fold E in X. rewrite X. reflexivity.
      * rewrite Z.min_r, Z.max_l in X by exact L. apply pos_in in X; [|assumption|assumption]. apply e_has_in in X. fold E in X. rewrite X.
        destruct (e_has E u v); reflexivity.
    + assert (NX : ~ In (at_ (Z.min u v), at_ (Z.max u v)) (g_edge g)).
      { intro C. apply EQ in C. apply e_has_in in C. congruence. }
      assert (X1 : e_has E u v = false).
      { destruct (e_has E u v) eqn:Y; [|reflexivity]. exfalso. apply e_has_in in Y. apply pos_in in Y; [|assumption|assumption].
        pose proof (UP u v Hu Hv Y). rewrite Z.min_l, Z.max_r in NX by lia. contradiction. }
      assert (X2 : e_has E v u = false).
      { destruct (e_has E v u) eqn:Y; [|reflexivity]. exfalso. apply e_has_in in Y. apply pos_in in Y; [|assumption|assumption].
        pose proof (UP v u Hv Hu Y). rewrite Z.min_r, Z.max_l in NX by lia. contradiction. }
      rewrite X1, X2. reflexivity.
Qed.

Lemma dag_draw_sim k s : dag_draw fuel k p g s =
  match draw_edge fuel k (pos_graph p g) s with Ok (u, v, s') => Ok (at_ (Z.min u v), at_ (Z.max u v), s') | Err e => Err e end.
Proof.
  revert s. induction k as [|k IH]; intro s; cbn [dag_draw draw_edge]; [reflexivity|].
  change (g_node (pos_graph p g)) with (g_node g).
  pose proof (next_int_ok fuel (g_node g) s HN) as R1. destruct (next_int fuel (g_node g) s) as [[u s1]|e]; [|reflexivity]. cbn [bind].
  pose proof (next_int_ok fuel (g_node g) s1 HN) as R2. destruct (next_int fuel (g_node g) s1) as [[v s2]|e]; [|reflexivity]. cbn [bind].
  cbn in R1, R2. destruct R1 as [Hu _]. destruct R2 as [Hv _].
  assert (E : (if v <? u then (v, u) else (u, v)) = (Z.min u v, Z.max u v)) by (destruct (Z.ltb_spec v u); f_equal; lia).
  rewrite E. rewrite (vget_nth p (Z.to_nat (Z.min u v)) 0), (vget_nth p (Z.to_nat (Z.max u v)) 0) by lia. cbn [bind].
  fold (at_ (Z.min u v)). fold (at_ (Z.max u v)).
  change (judge_self_loop (pos_graph p g) u v || judge_multiply (pos_graph p g) u v) with (refused (pos_graph p g) u v).
  change (judge_self_loop g (at_ (Z.min u v)) (at_ (Z.max u v)) || judge_multiply g (at_ (Z.min u v)) (at_ (Z.max u v)))
    with (refused g (at_ (Z.min u v)) (at_ (Z.max u v))).
  rewrite pos_refused by assumption. destruct (refused g _ _); [apply IH|reflexivity].
Qed.

Lemma pos_inv : gen_inv (pos_graph p g).
Proof.
  unfold gen_inv, pos_graph. cbn [g_node g_edge g_self_loop g_multiply g_direction g_e].
  assert (R : forall x y, In (x, y) (map (pos_edge p) (g_edge g)) -> 0 <= x < g_node g /\ 0 <= y < g_node g /\ x < y).
  { intros x y H. apply in_map_iff in H. destruct H as [[a b] [E H]]. unfold pos_edge in E. cbn in E. injection E as <- <-.
    destruct (proj1 HI a b H) as [Ha Hb]. pose proof (HU _ H) as U. unfold upward in U. cbn in U.
    destruct (idx_at a Ha) as [_ A]. destruct (idx_at b Hb) as [_ B]. lia. }
  split; [intros x y H; destruct (R x y H); lia|]. split; [intros _ x y H; destruct (R x y H); lia|]. intro Em. split; [|split].
  - destruct HI as (I1 & _ & I3). destruct (I3 Em) as (J1 & _ & _). rewrite HD in J1. intros i j a b Ha Hb S.
    pose proof (nth_error_In _ _ Ha) as Ia. pose proof (nth_error_In _ _ Hb) as Ib. destruct a as [a1 a2], b as [b1 b2].
    destruct (R _ _ Ia) as (_ & _ & La). destruct (R _ _ Ib) as (_ & _ & Lb).
    destruct S as [[= -> ->]|[_ [= -> ->]]]; [|lia].
    rewrite nth_error_map in Ha, Hb. destruct (nth_error (g_edge g) i) as [[x y]|] eqn:Ei; [|discriminate Ha].
    destruct (nth_error (g_edge g) j) as [[x' y']|] eqn:Ej; [|discriminate Hb]. cbn in Ha, Hb.
    unfold pos_edge in Ha, Hb. cbn in Ha, Hb.
    destruct (I1 x y (nth_error_In _ _ Ei)) as [Hx Hy]. destruct (I1 x' y' (nth_error_In _ _ Ej)) as [Hx' Hy'].
    apply (J1 i j _ _ Ei Ej). left. injection Ha as A1 A2. injection Hb as B1 B2.
    rewrite <- (proj1 (idx_at x Hx)), <- (proj1 (idx_at y Hy)), <- (proj1 (idx_at x' Hx')), <- (proj1 (idx_at y' Hy')). f_equal; f_equal; lia.
  - auto.
  - intros a Ha. exists a. split; [exact Ha|apply same_refl].
Qed.

Lemma dag_draw_ok s : runs (rng_fuel fuel /\ drawable (g_multiply g) (g_node g) /\
     (g_multiply g = false -> 2 * Z.of_nat (length (g_edge g)) < g_node g * (g_node g - 1)))
  (fun '(u, v, _) => 0 <= u < g_node g /\ 0 <= v < g_node g /\ upward p (u, v) /\ refused g u v = false) (dag_draw fuel fuel p g s).
Proof.
  rewrite dag_draw_sim. pose proof (draw_edge_ok fuel (pos_graph p g) s HN) as R.
  destruct (draw_edge fuel fuel (pos_graph p g) s) as [[[u v] s']|e]; cbn in R |- *.
  - destruct R as (Hu & Hv & RF). rewrite pos_refused in RF by assumption.
    split; [apply at_range; lia|]. split; [apply at_range; lia|]. split; [|exact RF].
    assert (u <> v).
    { intros ->. rewrite Z.min_id, Z.max_id in RF. unfold refused, judge_self_loop in RF. rewrite HS, Z.eqb_refl in RF. discriminate. }
    unfold upward. cbn. pose proof (at_idx (Z.min u v) ltac:(lia)). pose proof (at_idx (Z.max u v) ltac:(lia)). lia.
  - destruct R as [-> NT]. split; [reflexivity|]. intros (Hf & HDR & HC). apply NT. split; [exact Hf|]. unfold drawable in HDR.
    destruct (g_multiply g) eqn:Em.
    + destruct HDR as (u & v & Nuv & Y). exists u, v. split; [exact Y|]. unfold refused, judge_self_loop, judge_multiply, pos_graph. cbn. rewrite Em.
      rewrite (proj2 (Z.eqb_neq u v)), (proj2 (Z.eqb_neq v u)) by auto. auto.
    + destruct (fresh_pair (pos_graph p g) pos_inv) as (u & v & H1 & H2 & R1 & R2).
      * cbn. lia.
      * reflexivity.
      * reflexivity.
      * exact Em.
      * cbn [pos_graph g_edge g_node]. rewrite map_length. apply HC. reflexivity.
      * exists u, v. split; [apply HDR; [lia|exact H2]|auto].
Qed.
End Dag.

(** ** DAG::GenGraph *)
Lemma dag_run_ok fuel g s : 1 <= g_node g <= INT_MAX -> 0 <= g_side g <= INT_MAX -> g_direction g = true -> g_self_loop g = false ->
  (g_multiply g = false -> g_node g * (g_node g - 1) <= INT_MAX) ->
  runs (rng_fuel fuel /\ drawable (g_multiply g) (g_node g)) (fun '(g', _) => Z.of_nat (length (g_edge g')) = dag_wanted g /\
     nodes_in (g_node g) (g_edge g') /\ acyclic (g_edge g') /\ (g_multiply g = false -> no_repetition true (g_edge g')) /\
     (g_connect g = true -> connected (g_node g) (g_edge g'))) (dag_run fuel g s).
Proof.
  intros HN HSd Ed Es HX. unfold dag_run. cbn [with_edges g_node g_side g_multiply g_connect].
  set (g0 := with_edges g [] []). set (N := g_node g) in *.
  destruct (iota_ok N) as [p0 (E0 & A0 & L0 & _)]; [lia|]. rewrite E0. cbn [bind].
  set (mm := if g_multiply g then g_side g else Z.min (g_side g) (N * (N - 1) / 2)).
  assert (Hmm : 0 <= mm <= INT_MAX).
  { unfold mm. destruct (g_multiply g); [lia|]. assert (0 <= N * (N - 1) / 2) by (apply Z.div_pos; nia). lia. }
  apply (runs_bind _ (fun m => m = mm)).
  { unfold mm. destruct (g_multiply g) eqn:Em; [reflexivity|]. specialize (HX eq_refl).
    eapply runs_bind; [apply (runs_ck _ (fun x => x = N - 1)); [unfold INT_MIN; lia|reflexivity]|]. intros n1 ->.
    eapply runs_bind; [apply (runs_ck _ (fun x => x = N * (N - 1))); [unfold INT_MIN; nia|reflexivity]|]. intros nn ->.
    cbn [runs]. rewrite Z.quot_div_nonneg by nia. reflexivity. }
  intros m ->.
  eapply runs_bind; [eapply runs_weaken; [apply (shuffle_ok fuel 0 p0 s); lia|intros [Hf _]; exact Hf|intros x Hx; exact Hx]|].
  intros [p s1] P0. pose proof (all_nodes_perm _ _ _ P0 A0) as A.
  assert (L : Z.of_nat (length p) = N) by (rewrite <- (Permutation_length P0); exact L0). clear P0 A0 L0 E0 p0.
  assert (CAPN : N - 1 <= N * (N - 1) / 2) by (apply Z.div_le_lower_bound; [lia|destruct (Z.eq_dec N 1); nia]).
  apply (runs_bind _ (fun '(m', g1, _) => gen_inv g1 /\ same_params g g1 /\ 0 <= m' <= INT_MAX /\ Z.of_nat (length (g_edge g1)) + m' = dag_wanted g /\
     (forall a, In a (g_edge g1) -> upward p a) /\ (g_connect g = true -> connected N (g_edge g1)))).
  { destruct (g_connect g) eqn:Ec.
    - eapply runs_bind; [apply (runs_ck _ (fun x => x = N - 1)); [unfold INT_MIN; lia|reflexivity]|]. intros d ->.
      eapply runs_bind; [apply (runs_ck _ (fun x => x = mm - (N - 1))); [unfold INT_MIN, INT_MAX in *; lia|reflexivity]|]. intros d ->.
      eapply runs_bind.
      + apply (runs_for _ _ _ (fun pre '(g1, _) => gen_inv g1 /\ same_params g g1 /\ length (g_edge g1) = length pre /\
           (forall a, In a (g_edge g1) -> upward p a) /\ web (firstn (S (length pre)) p) (g_edge g1))).
        * split; [apply gen_inv_empty|]. split; [unfold same_params; cbn; tauto|]. split; [reflexivity|]. split; [intros a []|].
          destruct p as [|x p]; [cbn in L; lia|]. cbn. apply web_one.
        * intros pre i suf [g1 s2] Eq (I1 & SP & LE & HU & W). destruct (seq_pre _ _ _ _ _ Eq) as (Ei & Li & _).
          eapply runs_bind; [eapply runs_weaken; [apply (next_int_ok fuel (Z.of_nat i) s2); lia|intros [Hf _]; exact Hf|intros x Hx; exact Hx]|].
          intros [f s3] [Hf _]. rewrite (vget_nth p i 0), (vget_nth p (Z.to_nat f) 0) by lia. cbn [bind].
          replace (S (length pre)) with i in W by lia. rewrite app_length. cbn [length]. replace (length pre + 1)%nat with i by lia.
          assert (EN : g_node g1 = N) by apply SP. assert (Ed1 : g_direction g1 = true) by (destruct SP as (_ & _ & X & _); congruence).
          eapply runs_weaken; [apply (grow_edge fuel g1 (firstn i p) (nth i p 0) (nth (Z.to_nat f) p 0))|intros [Hf' _]; exact Hf'|].
          -- exact I1.
          -- exact W.
          -- apply new_not_in; [apply A|lia].
          -- rewrite <- (nth_firstn p i) by lia. apply nth_In. rewrite firstn_length_le; lia.
          -- rewrite EN. apply A. apply nth_In. lia.
          -- rewrite EN. apply A. apply nth_In. lia.
          -- right. reflexivity.
          -- intros [g2 s4] (I2 & SP2 & W2 & a & S & EE). split; [exact I2|]. split; [eapply params_trans; eassumption|].
             split; [rewrite EE, app_length; cbn; lia|]. rewrite (firstn_snoc p i) by lia. split; [|exact W2].
             intros b Hb. rewrite EE in Hb. apply in_app_or in Hb. destruct Hb as [Hb|[<-|[]]]; [apply HU; exact Hb|].
             rewrite Ed1 in S. rewrite (same_true _ _ S). unfold upward. cbn. rewrite !idx_nth by (try apply A; lia). lia.
      + intros [g1 s2] (I1 & SP & LE & HU & W). cbn [runs]. rewrite seq_length in *.
        replace (S (Z.to_nat N - 1)) with (length p) in W by lia. rewrite firstn_all in W.
        split; [exact I1|]. split; [exact SP|]. split; [lia|]. split; [unfold dag_wanted; rewrite Ec; fold N; fold mm; lia|]. split; [exact HU|].
        intros _. apply (web_nodes N p _ (proj2 A) W).
    - cbn [runs]. split; [apply gen_inv_empty|]. split; [unfold same_params; cbn; tauto|]. split; [exact Hmm|].
      split; [unfold dag_wanted; rewrite Ec; reflexivity|]. split; [intros a []|discriminate]. }
  intros [[m' g1] s2] (I1 & SP & Hm' & HL & HU & HC).
  set (cap := if g_multiply g then dag_wanted g + 1 else N * (N - 1) / 2).
  eapply runs_weaken; [apply (add_drawn_ok fuel (dag_draw fuel fuel p) g (upward p) (fun u v => upward p (u, v)) (drawable (g_multiply g) N) cap)| |].
  - intros u v a HQ S. rewrite Ed in S. rewrite (same_true _ _ S). exact HQ.
  - intros g2 s3 I2 SP2 HU2. destruct SP2 as (Q1 & Q2 & Q3 & Q4 & Q5 & Q6).
    eapply runs_weaken; [apply (dag_draw_ok fuel p g2)| |].
    + rewrite Q1. fold N. lia.
    + rewrite Q1. exact A.
    + congruence.
    + congruence.
    + exact I2.
    + exact HU2.
    + intros (Hf & HT & Hc). split; [exact Hf|]. rewrite Q4, Q1. split; [exact HT|]. intro Em. unfold cap in Hc. rewrite Em in Hc.
      fold N. pose proof (Z.mul_div_le (N * (N - 1)) 2 ltac:(lia)). lia.
    + intros [[u v] s4]. rewrite Q1. auto.
  - exact Hm'.
  - exact I1.
  - exact SP.
  - exact HU.
  - intros (Hf & HT). split; [exact Hf|]. split; [exact HT|]. split; [unfold rng_fuel, INT_MAX in *; lia|]. rewrite HL. unfold cap, dag_wanted. fold N. fold mm.
    destruct (g_multiply g) eqn:Em; [lia|]. unfold mm. destruct (g_connect g); lia.
  - intros [g2 s3] (I2 & SP2 & HU2 & L2 & IN2). destruct SP2 as (Q1 & Q2 & Q3 & Q4 & Q5 & Q6). destruct I2 as (J1 & J2 & J3). rewrite Q1 in J1.
    split; [lia|]. split; [exact J1|]. split; [|split].
    + exists (fun x => Z.of_nat (idx p x)). intros u v H. specialize (HU2 _ H). unfold upward in HU2. cbn in HU2. lia.
    + intro Em. rewrite Q4, Q3, Ed in J3. apply J3. exact Em.
    + intro Ec. intros u v Hu Hv. apply (linked_mono (g_edge g1)); [exact IN2|]. apply HC; assumption.
Qed.
