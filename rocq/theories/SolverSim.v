(** * Two number types, one run of the whole library

    Continues Sim.v: construction and solve() on numbers of type [D1] with
    asserted sizes are followed by the same calls on numbers of type [D2]. *)
From Verif Require Import Base BaseLemmas Data LCT LCTChecked ProblemDefine Flow FlowChecked ProblemSolver SolverChecked Sim.
Local Open Scope Z_scope.

Section SolverSim.
Context {D1 D2 : Type} {ops1 : DataOps D1} {ops2 : DataOps D2}.
Variable okd : D1 -> bool.
Variable R : D1 -> D2 -> Prop.
Hypothesis R0 : R dzero dzero.
Hypothesis R1 : okd done = true -> R done done.
Hypothesis Radd : forall a b a' b', R a b -> R a' b' -> okd (dadd a a') = true -> R (dadd a a') (dadd b b').
Hypothesis Rsub : forall a b a' b', R a b -> R a' b' -> okd (dsub a a') = true -> R (dsub a a') (dsub b b').
Hypothesis Ropp : forall a b, R a b -> R (dopp a) (dopp b).
Hypothesis Rmul : forall a b w, R a b -> INT_MIN <= w <= INT_MAX -> okd (dmuli a w) = true -> R (dmuli a w) (dmuli b w).
Hypothesis Rhalf : forall a b, R a b -> deq (dadd (dhalf a) (dhalf a)) a = true -> R (dhalf a) (dhalf b).
Hypothesis Rlt : forall a b a' b', R a b -> R a' b' -> dlt a a' = dlt b b'.
Hypothesis Rle : forall a b a' b', R a b -> R a' b' -> dle a a' = dle b b'.
Hypothesis Req : forall a b a' b', R a b -> R a' b' -> deq a a' = deq b b'.
Notation limR := (limR R).
Notation flowR := (flowR R).

(** ** Limits *)
Lemma partition_point_sim : forall fuel l r p1 p2, l <= r ->
  (forall x, l <= x < r -> sim eq (p1 x) (p2 x)) ->
  sim (fun a b => a = b /\ l <= a <= r) (partition_point fuel l r p1) (partition_point fuel l r p2).
Proof.
  clear. induction fuel as [|fuel IH]; intros l r p1 p2 Hlr Hp; [apply sim_err|]. cbn [partition_point].
  destruct (Z.eqb_spec l r) as [->|Hne]; [apply sim_ok; lia|].
  intros p E. apply bind_inv in E. destruct E as (d0 & E1 & E). rewrite E1. apply ck_inv in E1. destruct E1 as [-> _].
  cbn [bind]. apply bind_inv in E. destruct E as (mid & E1 & E). rewrite E1. apply ck_inv in E1. destruct E1 as [-> _].
  cbn [bind]. set (mid := l + Z.quot (r - l) 2) in *.
  assert (Hm : l <= mid < r).
  { unfold mid. assert (0 <= Z.quot (r - l) 2 < r - l); [|lia].
    split; [apply Z.quot_pos; lia|apply Z.quot_lt; lia]. }
  apply bind_inv in E. destruct E as (b & E1 & E). destruct (Hp mid Hm b E1) as (b' & E2 & <-). rewrite E2. cbn [bind].
  destruct b.
  - apply bind_inv in E. destruct E as (l' & E3 & E). rewrite E3. apply ck_inv in E3. destruct E3 as [-> _]. cbn [bind].
    destruct (IH (mid + 1) r p1 p2 ltac:(lia)) with (a := p) as (p' & F & <- & Hp'); auto.
    { intros x Hx. apply Hp. lia. }
    exists p. split; [exact F|]. split; [reflexivity|lia].
  - destruct (IH l mid p1 p2 ltac:(lia)) with (a := p) as (p' & F & <- & Hp'); auto.
    { intros x Hx. apply Hp. lia. }
    exists p. split; [exact F|]. split; [reflexivity|lia].
Qed.

Lemma search_sim fuel l u f f' : l <= u -> (forall x, l <= x <= u -> sim R (f x) (f' x)) ->
  sim (fun a b => a = b /\ l <= a <= u) (partition_point fuel l u (decreasing_at f)) (partition_point fuel l u (decreasing_at f')).
Proof.
  intros Hlu Hf. apply partition_point_sim; [exact Hlu|]. intros x Hx. unfold decreasing_at.
  apply (sim_bind R); [apply Hf; lia|]. intros a a' Ha.
  apply (sim_bind (fun a b => a = b /\ a = x + 1)).
  { intros y E. apply ck_inv in E as E'. destruct E' as [-> _]. eauto. }
  intros x1 ? [<- ->]. apply (sim_bind R); [apply Hf; lia|]. intros b b' Hb. apply sim_ok. apply Rlt; assumption.
Qed.

Lemma limit_min_sim fuel o o' : limR o o' -> sim R (limit_min fuel o) (limit_min fuel o').
Proof.
  intros [l u f f' i j Hlu Hf]. unfold limit_min. cbn [o_l o_u o_fn].
  apply (sim_bind (fun a b => a = b /\ l <= a <= u)); [apply search_sim; assumption|].
  intros p ? [<- Hp]. apply Hf; exact Hp.
Qed.

Lemma reverse_sim o o' : limR o o' -> sim limR (reverse o) (reverse o').
Proof.
  intros [l u f f' i j Hlu Hf]. unfold reverse. cbn [o_l o_u o_fn o_i o_j].
  intros r E. apply bind_inv in E. destruct E as (a & E1 & E). rewrite E1. apply ck_inv in E1. destruct E1 as [-> _].
  cbn [bind]. apply bind_inv in E. destruct E as (b & E1 & E). rewrite E1. apply ck_inv in E1. destruct E1 as [-> _].
  cbn [bind]. injection E as <-. eexists. split; [reflexivity|]. constructor; [lia|]. intros x Hx.
  intros v Ev. apply bind_inv in Ev. destruct Ev as (y & E1 & Ev). rewrite E1. apply ck_inv in E1. destruct E1 as [-> _].
  cbn [bind]. apply (Hf (- x) ltac:(lia) v Ev).
Qed.

Lemma merge_sim o o' p p' : limR o o' -> limR p p' ->
  sim (fun a b => snd a = snd b /\ (snd a = false -> limR (fst a) (fst b))) (merge_chk okd o p) (merge o' p').
Proof.
  intros [l u f f' i j Hlu Hf] [l2 u2 g g' i2 j2 Hlu2 Hg]. unfold merge_chk, merge. cbn [o_l o_u o_fn o_i o_j].
  apply sim_bind_eq; intros _. apply sim_bind_eq; intros _. apply sim_ok. cbn [fst snd]. split; [reflexivity|].
  intros E. apply negb_false_iff, Z.leb_le in E. constructor; [exact E|]. intros x Hx.
  apply (sim_bind R); [apply Hf; lia|]. intros a a' Ha. apply (sim_bind R); [apply Hg; lia|]. intros b b' Hb.
  intros v Ev. apply ckd_inv in Ev. destruct Ev as [-> Ev]. eauto.
Qed.

(** ** Constructor *)
Inductive muR : MuLimit D1 -> MuLimit D2 -> Prop :=
| muR_i l u f f' : (forall x, l <= x <= u -> sim R (f x) (f' x)) -> muR (mkMu l u f) (mkMu l u f').

Definition musR (mus : list (MuLimit D1)) (mus' : list (MuLimit D2)) : Prop :=
  length mus = length mus' /\
  forall i m, (1 <= i)%nat -> nth_error mus i = Some m -> exists m', nth_error mus' i = Some m' /\ muR m m'.

(** a limit as given by the user; its range may be empty *)
Inductive omR : OmegaLimit D1 -> OmegaLimit D2 -> Prop :=
| omR_i l u f f' i j : (forall x, l <= x <= u -> sim R (f x) (f' x)) -> omR (mkOm l u f i j) (mkOm l u f' i j).

Lemma musR_get mus mus' i : musR mus mus' -> (1 <= i)%nat -> sim muR (vget mus i) (vget mus' i).
Proof.
  intros [_ H] Hi m E. apply vget_inv in E. destruct (H i m Hi E) as (m' & E' & HR). exists m'. split; [apply vget_ok; exact E'|exact HR].
Qed.

Lemma check_mus_sim n mus mus' : musR mus mus' -> forall fuel i, (1 <= i)%nat ->
  sim (fun a b => a = b /\ (a = true -> forall k m, (i <= k)%nat -> Z.of_nat k <= n -> nth_error mus k = Some m -> m_l m <= m_u m))
    (check_mus fuel n mus i) (check_mus fuel n mus' i).
Proof.
  intros HR. induction fuel as [|fuel IH]; intros i Hi; cbn [check_mus]; destruct (Z.ltb_spec n (Z.of_nat i));
    try (apply sim_ok; split; [reflexivity|intros; lia]); [apply sim_err|].
  intros b E. apply bind_inv in E. destruct E as (m & E1 & E). destruct (musR_get _ _ _ HR Hi m E1) as (m' & E1' & HM).
  rewrite E1'. cbn [bind]. apply vget_inv in E1. destruct HM as [l u f f' Hf]. cbn [m_l m_u] in *.
  destruct (Z.leb_spec l u).
  - destruct (IH (S i) ltac:(lia) b E) as (b' & E2 & <- & H2). exists b. split; [exact E2|]. split; [reflexivity|].
    intros Hb k m Hk Hkn Em. destruct (Nat.eq_dec k i) as [->|]; [|apply (H2 Hb k); auto; lia].
    rewrite E1 in Em. injection Em as <-. exact H0.
  - injection E as <-. exists false. split; [reflexivity|]. split; [reflexivity|discriminate].
Qed.

Definition optR {A B} (P : A -> B -> Prop) (a : option A) (b : option B) : Prop :=
  match a, b with Some x, Some y => P x y | None, None => True | _, _ => False end.

Lemma check_omega_sim fuel n mus mus' o o' : musR mus mus' -> omR o o' ->
  sim (optR limR) (check_omega fuel n mus o) (check_omega fuel n mus' o').
Proof.
  intros HR [l u f f' i j Hf]. unfold check_omega. cbn [o_l o_u o_fn o_i o_j].
  destruct (negb ((1 <=? Z.of_nat i) && (Z.of_nat i <=? n))) eqn:Ei; [apply sim_ok; exact I|].
  destruct (negb ((1 <=? Z.of_nat j) && (Z.of_nat j <=? n))) eqn:Ej; [apply sim_ok; exact I|].
  destruct (Nat.eqb i j); [apply sim_ok; exact I|]. destruct (negb (l <=? u)) eqn:El; [apply sim_ok; exact I|].
  apply negb_false_iff, Z.leb_le in El. apply negb_false_iff, andb_true_iff in Ei. apply negb_false_iff, andb_true_iff in Ej.
  unfold pre_processing. cbn [o_l o_u o_fn o_i o_j].
  intros r E. apply bind_inv in E. destruct E as (it & E1 & E). apply bind_inv in E1. destruct E1 as (p & E1 & E2).
  destruct (search_sim fuel l u f f' El Hf p E1) as (p' & E1' & <- & Hp). rewrite E1'. cbn [bind]. injection E2 as <-.
  cbn [o_l o_u o_fn o_i o_j] in *.
  apply bind_inv in E. destruct E as (a & Ea & E). destruct (musR_get _ _ i HR ltac:(lia) a Ea) as (a' & Ea' & Ha).
  apply bind_inv in E. destruct E as (b & Eb & E). destruct (musR_get _ _ j HR ltac:(lia) b Eb) as (b' & Eb' & Hb).
  rewrite Ea'. cbn [bind]. rewrite Eb'. cbn [bind]. destruct Ha as [la ua fa fa' _]. destruct Hb as [lb ub fb fb' _].
  cbn [m_l m_u] in *. apply bind_inv in E. destruct E as (l0 & E0 & E). rewrite E0. cbn [bind].
  destruct (Z.leb_spec l0 u); injection E as <-; eexists; (split; [reflexivity|]); [|exact I].
  constructor; [assumption|]. intros x Hx. apply Hf. lia.
Qed.

Lemma check_omegas_sim fuel n mus mus' oms oms' : musR mus mus' -> Forall2 omR oms oms' ->
  sim (optR (Forall2 limR)) (check_omegas fuel n mus oms) (check_omegas fuel n mus' oms').
Proof.
  intros HR HF. induction HF as [|o o' oms oms' Ho HF IH]; cbn [check_omegas]; [apply sim_ok; constructor|].
  apply (sim_bind (optR limR)); [apply check_omega_sim; assumption|]. intros [x|] [y|] Hxy; try contradiction; [|apply sim_ok; exact I].
  apply (sim_bind (optR (Forall2 limR))); [exact IH|]. intros [xs|] [ys|] Hxs; try contradiction; [|apply sim_ok; exact I].
  apply sim_ok. constructor; assumption.
Qed.

Inductive solverR : solver D1 -> solver D2 -> Prop :=
| solverR_i n mus mus' oms oms' :
    musR mus mus' -> Forall2 limR oms oms' ->
    (forall i m, (1 <= i)%nat -> Z.of_nat i <= n -> nth_error mus i = Some m -> m_l m <= m_u m) ->
    solverR (mkSolver n mus oms) (mkSolver n mus' oms').

Lemma solver_new_sim fuel n mus mus' oms oms' : musR mus mus' -> Forall2 omR oms oms' ->
  sim solverR (solver_new fuel n mus oms) (solver_new fuel n mus' oms').
Proof.
  intros HR HF. unfold solver_new. rewrite (proj1 HR).
  assert (HI : solverR invalid invalid).
  { constructor; [|constructor|intros [|i] m _ _ E; discriminate].
    split; [reflexivity|]. intros [|i] m _ E; discriminate. }
  destruct (negb _); [apply sim_ok; exact HI|].
  eapply sim_bind; [apply check_mus_sim; [exact HR|lia]|]. intros b ? [<- Hb].
  destruct b; cbn [negb]; [|apply sim_ok; exact HI].
  apply (sim_bind (optR (Forall2 limR))); [apply check_omegas_sim; assumption|].
  intros [xs|] [ys|] Hxs; try contradiction; apply sim_ok; [|exact HI].
  constructor; [exact HR|exact Hxs|exact (Hb eq_refl)].
Qed.

(** ** Network *)
Definition entryR (a : (nat * nat) * OmegaLimit D1) (b : (nat * nat) * OmegaLimit D2) : Prop :=
  fst a = fst b /\ limR (snd a) (snd b).
Definition mapR := Forall2 entryR.

Lemma map_find_sim mp mp' k : mapR mp mp' -> optR limR (map_find mp k) (map_find mp' k).
Proof.
  induction 1 as [|[k1 o] [k2 o'] mp mp' [E HR] HF IH]; cbn [map_find]; [exact I|]. cbn [fst snd] in *. subst k2.
  destruct (key_eqb k1 k); [exact HR|exact IH].
Qed.

Lemma map_set_sim mp mp' k o o' : mapR mp mp' -> limR o o' -> mapR (map_set mp k o) (map_set mp' k o').
Proof.
  intros HM Ho. induction HM as [|[k1 a] [k2 b] mp mp' [E HR] HF IH]; cbn [map_set].
  - constructor; [split; [reflexivity|exact Ho]|constructor].
  - cbn [fst snd] in *. subst k2. destruct (key_eqb k1 k).
    + constructor; [split; [reflexivity|exact Ho]|exact HF].
    + destruct (key_ltb k k1).
      * constructor; [split; [reflexivity|exact Ho]|]. constructor; [split; [reflexivity|exact HR]|exact HF].
      * constructor; [split; [reflexivity|exact HR]|exact IH].
Qed.

Lemma merge_loop_sim oms oms' : Forall2 limR oms oms' -> forall mp mp', mapR mp mp' ->
  sim (optR mapR) (merge_loop_chk okd oms mp) (merge_loop oms' mp').
Proof.
  induction 1 as [|it it' oms oms' Hit HF IH]; intros mp mp' HM; cbn [merge_loop_chk merge_loop]; [apply sim_ok; exact HM|].
  apply (sim_bind limR).
  { assert (Ei : o_i it = o_i it') by (destruct Hit; reflexivity). assert (Ej : o_j it = o_j it') by (destruct Hit; reflexivity).
    rewrite Ei, Ej. destruct (o_i it' <? o_j it')%nat; [apply reverse_sim; exact Hit|apply sim_ok; exact Hit]. }
  intros x y Hxy.
  assert (Ei : o_i x = o_i y) by (destruct Hxy; reflexivity). assert (Ej : o_j x = o_j y) by (destruct Hxy; reflexivity).
  rewrite Ei, Ej. set (k := (o_i y, o_j y)). assert (HFi := map_find_sim mp mp' k HM). cbv zeta.
  destruct (map_find mp k) as [o|], (map_find mp' k) as [o'|]; try contradiction; [|apply IH; apply map_set_sim; assumption].
  eapply sim_bind; [apply merge_sim; eassumption|]. intros [a e] [b e']. cbn [fst snd]. intros [<- Hab].
  destruct e; [apply sim_ok; exact I|]. apply IH. apply map_set_sim; auto.
Qed.

Lemma mapR_snd mp mp' : mapR mp mp' -> Forall2 limR (map snd mp) (map snd mp').
Proof. induction 1 as [|a b mp mp' [_ H] _ IH]; cbn [map]; constructor; auto. Qed.

Lemma mu_limits_sim n mus mus' : musR mus mus' ->
  (forall i m, (1 <= i)%nat -> Z.of_nat i <= n -> nth_error mus i = Some m -> m_l m <= m_u m) ->
  forall L r r', (forall i, In i L -> (1 <= i)%nat /\ Z.of_nat i <= n) -> Forall2 limR r r' ->
  sim (Forall2 limR)
    (for_each L r (fun ret i => m <- vget mus i ;; Ok (ret ++ [mkOm (m_l m) (m_u m) (m_fn m) i 0])))
    (for_each L r' (fun ret i => m <- vget mus' i ;; Ok (ret ++ [mkOm (m_l m) (m_u m) (m_fn m) i 0]))).
Proof.
  intros HR Hlu. induction L as [|i L IH]; intros r r' HL H0; cbn [for_each]; [apply sim_ok; exact H0|].
  destruct (HL i (or_introl eq_refl)) as [Hi Hin].
  apply (sim_bind (Forall2 limR)); [|intros; apply IH; [intros; apply HL; right; assumption|assumption]].
  intros rr E. apply bind_inv in E. destruct E as (m & E1 & E). destruct (musR_get _ _ _ HR Hi m E1) as (m' & E1' & HM').
  rewrite E1'. cbn [bind]. injection E as <-. eexists. split; [reflexivity|].
  apply vget_inv in E1. assert (X := Hlu i m Hi Hin E1). destruct HM' as [l u f f' Hf]. cbn [m_l m_u m_fn] in *.
  apply Forall2_app; [exact H0|]. constructor; [|constructor]. constructor; assumption.
Qed.

Lemma merge_limits_sim s s' : solverR s s' -> sim (optR (Forall2 limR)) (merge_limits_chk okd s) (merge_limits s').
Proof.
  intros [n mus mus' oms oms' HR HF Hlu]. unfold merge_limits_chk, merge_limits. cbn [s_n s_mus s_oms].
  apply (sim_bind (optR mapR)); [apply merge_loop_sim; [exact HF|constructor]|].
  intros [mp|] [mp'|] HM; try contradiction; [|apply sim_ok; exact I].
  apply (sim_bind (Forall2 limR)).
  - apply (mu_limits_sim n); auto. intros i Hi. apply in_seq in Hi. lia.
  - intros ms ms' Hms. apply sim_ok. apply Forall2_app; [apply mapR_snd; exact HM|exact Hms].
Qed.

Inductive calcR : D1 * D1 * Z -> D2 * D2 * Z -> Prop :=
| calcR_i a a' b b' u : R a a' -> R b b' -> calcR (a, b, u) (a', b', u).

Lemma for_each_sim2 {X Y A B} (P : A -> B -> Prop) (Q : X -> Y -> Prop) l l' f g :
  Forall2 Q l l' -> (forall a b x y, P a b -> Q x y -> sim P (f a x) (g b y)) ->
  forall a b, P a b -> sim P (for_each l a f) (for_each l' b g).
Proof.
  intros HQ H. induction HQ as [|x y l l' Hxy _ IH]; intros a b Hab; cbn [for_each]; [apply sim_ok; exact Hab|].
  apply (sim_bind P); [apply H; assumption|exact IH].
Qed.

Lemma calc_sim fuel L L' : Forall2 limR L L' -> sim calcR (calc_chk okd fuel L) (calc fuel L').
Proof.
  intros HL. unfold calc_chk, calc. apply sim_ckd; intros E1.
  eapply for_each_sim2; [exact HL| |constructor; auto].
  intros _ _ it it' [v v' M M' U Hv HM] Hit.
  assert (El : o_l it = o_l it') by (destruct Hit; reflexivity). assert (Eu : o_u it = o_u it') by (destruct Hit; reflexivity).
  rewrite El, Eu. apply (sim_bind R).
  { destruct Hit as [l u f f' i j Hlu Hf]. apply Hf. cbn [o_l o_u]. lia. } intros a a' Ha. apply (sim_bind R).
  { destruct Hit as [l u f f' i j Hlu Hf]. apply Hf. cbn [o_l o_u]. lia. } intros b b' Hb.
  assert (Hm : R (dmax a b) (dmax a' b')) by (apply dmax_R; assumption).
  apply sim_ckd; intros F1. apply (sim_bind R); [apply limit_min_sim; exact Hit|]. intros mi mi' Hmi.
  apply sim_ckd; intros F2. apply sim_ckd; intros F3. apply sim_bind_eq; intros d. apply sim_ok. constructor.
  - apply Radd; assumption.
  - apply Radd; [exact HM|apply Rsub; assumption|exact F3].
Qed.

(** ** Flow *)
Lemma double_edges_sim k : forall es es', Forall2 limR es es' -> sim (Forall2 limR) (double_edges k es) (double_edges k es').
Proof.
  induction k as [|k IH]; intros es es' H; cbn [double_edges]; [apply sim_ok; exact H|].
  apply (sim_bind limR); [apply sim_vget; exact H|]. intros e e' He.
  apply (sim_bind (Forall2 limR)); [apply sim_vset; assumption|]. intros es1 es1' H1.
  apply (sim_bind (Forall2 limR)); [apply sim_vset; assumption|]. intros es2 es2' H2.
  apply (sim_bind limR); [apply reverse_sim; exact He|]. intros r r' Hr.
  apply (sim_bind (Forall2 limR)); [apply sim_vset; assumption|]. intros es3 es3' H3. apply IH; exact H3.
Qed.

Lemma build_G_sim es es' G : Forall2 limR es es' -> sim eq (build_G es G) (build_G es' G).
Proof.
  intros H. unfold build_G. rewrite (Forall2_len _ _ _ H). apply sim_for_each; [|reflexivity].
  intros g ? e <-. apply (sim_bind limR); [apply sim_vget; exact H|]. intros _ _ []. cbn [o_i]. apply sim_eq.
Qed.

Lemma flow_new_sim fuel n M M' U L L' : R M M' -> Forall2 limR L L' -> sim flowR (flow_new fuel n M U L) (flow_new fuel n M' U L').
Proof.
  intros HM HL. unfold flow_new. apply sim_bind_eq; intros eps. apply sim_bind_eq; intros _.
  rewrite (Forall2_len _ _ _ HL). apply (sim_bind (Forall2 limR)).
  { apply double_edges_sim. apply Forall2_app; [exact HL|]. apply Forall2_repeat. constructor; [lia|]. intros; apply sim_err. }
  intros es es' Hes. apply (sim_bind eq); [apply build_G_sim; exact Hes|]. intros G ? <-. apply sim_ok.
  rewrite (Forall2_len _ _ _ Hes). constructor; auto; apply Forall2_repeat; auto.
  constructor; auto. constructor; exact R0.
Qed.

Lemma tilt_sim e e' x x' : limR e e' -> R x x' -> limR (tilt_chk okd e x) (tilt e' x').
Proof.
  intros [l u f f' i j Hlu Hf] Hx. unfold tilt_chk, tilt. cbn [o_l o_u o_fn o_i o_j] in *. constructor; [exact Hlu|].
  intros w Hw v Ev. apply bind_inv in Ev. destruct Ev as (w' & Ew & Ev). apply ck_inv in Ew. destruct Ew as [-> Ew].
  revert v Ev. change (sim R (a <- f w ;; y <- ckd okd (dmuli x w) ;; ckd okd (dsub a y)) (a <- f' w ;; Ok (dsub a (dmuli x' w)))).
  apply (sim_bind R); [apply Hf; exact Hw|]. intros a a' Ha. apply sim_ckd; intros E1.
  intros v Ev. apply ckd_inv in Ev. destruct Ev as [-> Ev]. eexists. split; [reflexivity|].
  apply Rsub; [exact Ha|apply Rmul; auto|exact Ev].
Qed.

Inductive sumR : flow D1 * D1 -> flow D2 * D2 -> Prop :=
| sumR_i s s' a a' : flowR s s' -> R a a' -> sumR (s, a) (s', a').

Lemma sum_answer_sim fuel s s' : flowR s s' -> sim sumR (sum_answer_chk okd fuel s) (sum_answer fuel s').
Proof.
  intros H. unfold sum_answer_chk, sum_answer.
  assert (EL : length (f_edges s) = length (f_edges s')) by (destruct H; cbn [f_edges]; eapply Forall2_len; eassumption).
  rewrite EL. apply sim_for_each; [|constructor; auto]. clear s s' H EL.
  intros _ _ e [s s' a a' Hs Ha].
  destruct Hs as [n M M' eps h h' im im' cur uq fa es es' fl fl' G sc HM Hh Him Hes Hfl]. cbn [f_edges f_flows with_edges].
  apply (sim_bind limR); [apply sim_vget; exact Hes|]. intros o o' Ho.
  apply (sim_bind R); [apply sim_vget; exact Hfl|]. intros x x' Hx. cbv zeta.
  assert (HT : limR (tilt_chk okd o x) (tilt o' x')) by (apply tilt_sim; assumption).
  apply (sim_bind (Forall2 limR)); [apply sim_vset; assumption|]. intros es2 es2' Hes2. cbn [with_edges].
  apply (sim_bind R); [apply limit_min_sim; exact HT|]. intros mi mi' Hmi. apply sim_ckd; intros E.
  apply sim_ok. constructor; [constructor; assumption|apply Radd; assumption].
Qed.

Lemma min_cost_sim fuel s s' : flowR s s' -> sim sumR (min_cost_chk okd fuel s) (min_cost fuel s').
Proof.
  intros H. unfold min_cost_chk, min_cost.
  apply (sim_bind flowR); [apply scaling_loop_sim; assumption|]. intros s1 s1' H1.
  apply (sim_bind sumR); [apply sum_answer_sim; exact H1|]. intros _ _ [s2 s2' a a' H2 Ha].
  destruct (deq (dadd (dhalf a) (dhalf a)) a) eqn:E; cbn [assert_ bind]; [|apply sim_err].
  apply sim_ok. constructor; auto.
Qed.

(** ** The library *)
Lemma solve_sim fuel s s' : solverR s s' -> sim (optR R) (solve_chk okd fuel s) (solve fuel s').
Proof.
  intros H. unfold solve_chk, solve. assert (En : s_n s = s_n s') by (destruct H; reflexivity). rewrite En.
  destruct (s_n s' =? SIZE_MAX); [apply sim_ok; exact I|].
  apply (sim_bind (optR (Forall2 limR))); [apply merge_limits_sim; exact H|].
  intros [L|] [L'|] HL; try contradiction; [|apply sim_ok; exact I].
  apply (sim_bind calcR); [apply calc_sim; exact HL|]. intros _ _ [v v' M M' U Hv HM].
  apply (sim_bind flowR); [apply flow_new_sim; assumption|]. intros fl fl' Hfl.
  apply (sim_bind sumR); [apply min_cost_sim; exact Hfl|]. intros _ _ [s2 s2' a a' H2 Ha].
  rewrite (Rlt _ _ _ _ Hv Ha). destruct (dlt v' a'); apply sim_ok; [exact I|exact Ha].
Qed.

Theorem run_solver_sim fuel n mus mus' oms oms' : musR mus mus' -> Forall2 omR oms oms' ->
  sim (optR R) (run_solver_chk okd fuel n mus oms) (run_solver fuel n mus' oms').
Proof.
  intros HR HF. unfold run_solver_chk, run_solver. apply (sim_bind solverR); [apply solver_new_sim; assumption|].
  intros; apply solve_sim; assumption.
Qed.

End SolverSim.
