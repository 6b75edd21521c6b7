(** * Bounds on the loop turns of a whole run *)
From Verif Require Import Base BaseLemmas Data UniqueQueue LCT ProblemDefine Flow ProblemSolver Spec FlowSpec.
From Verif Require Import SolverNet SolverProof PrimalSolve WorkSpec FlowSteps LCTTime FlowTime FlowCount SolverTime TimeSpec TimeTotal.
Local Open Scope Z_scope.

Tactic Notation "step" hyp(H) ident(a) ident(i) ident(E) :=
  apply cbind_inv in H; let jj := fresh "jj" in destruct H as (a & i & jj & E & H & ->).
Tactic Notation "fstep" hyp(H) ident(a) ident(E) :=
  apply cbind_inv in H; let ii := fresh "ii" in let jj := fresh "jj" in destruct H as (a & ii & jj & E & H & ->);
  apply free_inv in E; destruct E as [E ->].

Section Count.
Context {D : Type} {ops : DataOps D}.

Lemma search_time fuel l r pred x c : l <= r -> partition_point_t fuel l r pred = Ok (x, c) -> (c <= 32)%nat.
Proof.
  intros Hlr H. destruct (Z.le_gt_cases (r - l) INT_MAX) as [Hw|Hw].
  - apply (partition_point_time 31 _ _ _ _ _ _) in H; [lia|]. unfold INT_MAX in Hw. change (2 ^ Z.of_nat 31) with 2147483648. lia.
  - destruct fuel as [|fuel]; [discriminate|]. cbn [partition_point_t] in H. apply turn_inv in H. destruct H as (i & H & ->).
    destruct (Z.eqb_spec l r) as [->|Hn]; [apply free_inv in H; destruct H as [_ ->]; lia|].
    fstep H d E. apply ck_inv in E. destruct E as [_ E]. unfold PDProof.int_range in E. lia.
Qed.

Lemma for_each_time {A S} (l : list A) (f : S -> A -> counted S) b : (forall s x s' c, In x l -> f s x = Ok (s', c) -> (c <= b)%nat) ->
  forall s s' c, for_each_t l s f = Ok (s', c) -> (c <= (b + 1) * length l)%nat.
Proof.
  induction l as [|x l IH]; intros Hf s s' c H; cbn [for_each_t] in H.
  - apply free_inv in H. destruct H as [_ ->]. lia.
  - apply turn_inv in H. destruct H as (i & H & ->). step H s1 i1 E. apply Hf in E; [|left; reflexivity]. apply IH in H; [|intros; eapply Hf; [right|]; eauto].
    cbn [length]. lia.
Qed.

Lemma check_mus_time n (mus : list (MuLimit D)) : forall fuel i b c, check_mus_t fuel n mus i = Ok (b, c) -> Z.of_nat c <= Z.max 0 (n + 1 - Z.of_nat i).
Proof.
  induction fuel as [|fuel IH]; intros i b c H; cbn [check_mus_t] in H; (destruct (Z.ltb_spec n (Z.of_nat i)); [apply free_inv in H; destruct H as [_ ->]; lia|]); [discriminate|].
  apply turn_inv in H. destruct H as (c1 & H & ->). fstep H m E. destruct (m_l m <=? m_u m); [apply IH in H; lia|apply free_inv in H; destruct H as [_ ->]; lia].
Qed.

Lemma check_omega_time fuel n (mus : list (MuLimit D)) it r c : check_omega_t fuel n mus it = Ok (r, c) -> (c <= 32)%nat.
Proof.
  unfold check_omega_t. intro H.
  do 2 (destruct (negb (_ && _)); [apply free_inv in H; destruct H as [_ ->]; lia|]). destruct (Nat.eqb _ _); [apply free_inv in H; destruct H as [_ ->]; lia|].
  destruct (Z.leb_spec (o_l it) (o_u it)) as [Hlu|]; cbn [negb] in H; [|apply free_inv in H; destruct H as [_ ->]; lia].
  step H o i E. fstep H a E1. fstep H b E2. fstep H l E3. cbv zeta in H. unfold pre_processing_t in E. step E mp i1 E4. apply free_inv in E. destruct E as [_ ->].
  apply search_time in E4; [|exact Hlu]. destruct (_ <=? _); apply free_inv in H; destruct H as [_ ->]; lia.
Qed.

Lemma check_omegas_time fuel n (mus : list (MuLimit D)) : forall oms r c, check_omegas_t fuel n mus oms = Ok (r, c) ->
  (c <= 33 * length oms)%nat.
Proof.
  induction oms as [|it oms IH]; intros r c H; cbn [check_omegas_t] in H.
  - apply free_inv in H. destruct H as [_ ->]. lia.
  - apply turn_inv in H. destruct H as (c1 & H & ->). step H o i E. apply check_omega_time in E. cbn [length].
    destruct o as [o|]; [|apply free_inv in H; destruct H as [_ ->]; lia].
    step H l i1 E1. apply IH in E1. destruct l; apply free_inv in H; destruct H as [_ ->]; lia.
Qed.

Lemma check_omegas_length fuel n (mus : list (MuLimit D)) : forall oms l, check_omegas fuel n mus oms = Ok (Some l) -> length l = length oms.
Proof.
  induction oms as [|it oms IH]; intros l H; cbn [check_omegas] in H; [inversion H; reflexivity|].
  destruct (check_omega fuel n mus it) as [[o|]|]; cbn [bind] in H; try discriminate.
  destruct (check_omegas fuel n mus oms) as [[l1|]|]; cbn [bind] in H; try discriminate. inversion H. cbn [length]. rewrite (IH _ eq_refl). reflexivity.
Qed.

Lemma solver_new_length fuel n (mus : list (MuLimit D)) oms sv : solver_new fuel n mus oms = Ok sv -> (length (s_oms sv) <= length oms)%nat.
Proof.
  unfold solver_new. destruct (negb _); [intro H; inversion H; cbn; lia|]. destruct (check_mus fuel n mus 1) as [[|]|]; cbn [bind negb]; try discriminate.
  2:{ intro H; inversion H; cbn; lia. }
  destruct (check_omegas fuel n mus oms) as [[l|]|] eqn:E; cbn [bind]; intro H; inversion H; cbn [s_oms invalid length]; [|lia].
  apply check_omegas_length in E. lia.
Qed.

Lemma solver_new_time fuel n (mus : list (MuLimit D)) oms sv c : 0 <= n -> solver_new_t fuel n mus oms = Ok (sv, c) ->
  Z.of_nat c <= n + 33 * Z.of_nat (length oms).
Proof.
  unfold solver_new_t. intros Hn H. destruct (negb _); [apply free_inv in H; destruct H as [_ ->]; lia|].
  step H b i E. apply check_mus_time in E. destruct (negb b); [apply free_inv in H; destruct H as [_ ->]; lia|].
  step H r i1 E1. apply check_omegas_time in E1. destruct r; apply free_inv in H; destruct H as [_ ->]; lia.
Qed.

Lemma map_set_length (m : @lmap D) k v : (length (map_set m k v) <= length m + 1)%nat.
Proof.
  induction m as [|[k' v'] m IH]; cbn [map_set length]; [lia|]. destruct (key_eqb k' k); [cbn [length]; lia|]. destruct (key_ltb k k'); cbn [length]; lia.
Qed.

Lemma merge_loop_time : forall (oms : list (OmegaLimit D)) mp r c, merge_loop_t oms mp = Ok (r, c) ->
  (c <= length oms * (1 + 2 * (length mp + length oms)))%nat /\
  (forall m, r = Some m -> (length m <= length mp + length oms)%nat).
Proof.
  induction oms as [|it oms IH]; intros mp r c H; cbn [merge_loop_t] in H.
  - apply free_inv in H. destruct H as [H ->]. inversion H; subst r. cbn [length]. split; [lia|]. intros m E. inversion E. lia.
  - apply turn_inv in H. destruct H as (c1 & H & ->). fstep H o E. cbv zeta in H. step H u i E1. unfold turns in E1. inversion E1; subst i. clear E1.
    cbn [length]. destruct (map_find mp _) as [o1|].
    + fstep H p E2. destruct p as [o' [|]].
      * apply free_inv in H. destruct H as [H ->]. inversion H; subst r. split; [nia|]. discriminate.
      * apply IH in H. destruct H as [X1 X2]. assert (L := map_set_length mp (o_i o, o_j o) o'). split; [nia|]. intros m Em. specialize (X2 m Em). lia.
    + apply IH in H. destruct H as [X1 X2]. assert (L := map_set_length mp (o_i o, o_j o) o). split; [nia|]. intros m Em. specialize (X2 m Em). lia.
Qed.

Lemma merge_limits_time (s : solver D) r c : merge_limits_t s = Ok (r, c) ->
  (c <= length (s_oms s) * (1 + 2 * length (s_oms s)) + length (s_oms s) + Z.to_nat (s_n s))%nat.
Proof.
  unfold merge_limits_t. intro H. step H mp i E. apply merge_loop_time in E. destruct E as [E1 E2]. cbn [length Nat.add] in *.
  destruct mp as [mp|]; [|apply free_inv in H; destruct H as [_ ->]; lia]. specialize (E2 _ eq_refl).
  step H u i1 T1. unfold turns in T1. inversion T1; subst i1. clear T1. step H ms i2 T2. apply free_inv in H. destruct H as [_ ->].
  apply (for_each_time _ _ 0) in T2; [rewrite seq_length in T2; lia|]. intros s1 x s' c' _ T. apply free_inv in T. destruct T as [_ ->]. lia.
Qed.

Lemma calc_time fuel (limits : list (OmegaLimit D)) r c : (forall o, In o limits -> o_l o <= o_u o) -> calc_t fuel limits = Ok (r, c) -> (c <= 33 * length limits)%nat.
Proof.
  intros Hl H. unfold calc_t in H. apply (for_each_time _ _ 32) in H; [lia|]. intros [[vmax M] U] o s' c' Ho T. fstep T a E. fstep T b E1. cbv zeta in T.
  step T mi i E2. unfold limit_min_t in E2. step E2 mp i1 E3. apply free_inv in E2. destruct E2 as [_ ->]. apply search_time in E3; [|auto].
  fstep T d E4. apply free_inv in T. destruct T as [_ ->]. lia.
Qed.

Lemma eps_loop_time n U : forall fuel eps r c, 0 < eps -> eps_loop_t fuel n U eps = Ok (r, c) -> eps * 2 ^ Z.of_nat c <= Z.max eps INT_MAX.
Proof.
  induction fuel as [|fuel IH]; intros eps r c He H; [discriminate|]. cbn [eps_loop_t] in H. fstep H a E1. fstep H b E2. fstep H d E3.
  destruct (eps <? d); [|apply free_inv in H; destruct H as [_ ->]; change (2 ^ Z.of_nat 0) with 1; lia].
  apply turn_inv in H. destruct H as (c1 & H & ->). fstep H e E4. apply ck_inv in E4. destruct E4 as [-> E4]. unfold PDProof.int_range in E4. fstep H u E5.
  apply IH in H; [|lia].
  match type of H with context [2 ^ Z.of_nat ?j] => match goal with |- context [2 ^ Z.of_nat ?t] => replace (Z.of_nat t) with (Z.succ (Z.of_nat j)) by lia end end.
  rewrite Z.pow_succ_r by lia. lia.
Qed.

Lemma double_edges_time : forall k (edges r : list (OmegaLimit D)) c, double_edges_t k edges = Ok (r, c) -> (c <= k)%nat.
Proof.
  induction k as [|k IH]; intros edges r c H; cbn [double_edges_t] in H; [apply free_inv in H; destruct H as [_ ->]; lia|].
  apply turn_inv in H. destruct H as (c1 & H & ->). cbv zeta in H. fstep H e E. fstep H e1 E1. fstep H e2 E2. fstep H e3 E3. fstep H e4 E4. apply IH in H. lia.
Qed.

Lemma double_edges_length : forall k (edges r : list (OmegaLimit D)), double_edges k edges = Ok r -> length r = length edges.
Proof.
  induction k as [|k IH]; intros edges r H; cbn [double_edges] in H; [inversion H; reflexivity|].
  destruct (vget edges k) as [e|]; cbn [bind] in H; [|discriminate]. cbv zeta in H.
  destruct (vset edges _ _) as [e1|] eqn:E1; cbn [bind] in H; [|discriminate]. destruct (vset e1 _ _) as [e2|] eqn:E2; cbn [bind] in H; [|discriminate].
  destruct (reverse e) as [e'|]; cbn [bind] in H; [|discriminate]. destruct (vset e2 _ e') as [e3|] eqn:E3; cbn [bind] in H; [|discriminate].
  apply IH in H. apply vset_inv in E1. apply vset_inv in E2. apply vset_inv in E3. destruct E1 as [_ ->]. destruct E2 as [_ ->]. destruct E3 as [_ ->].
  rewrite !upd_length in H. exact H.
Qed.

Lemma flow_new_time fuel n M U (limits : list (OmegaLimit D)) s c : flow_new_t fuel n M U limits = Ok (s, c) -> (c <= 7 * (n + 1) + 8 * length limits + 30)%nat.
Proof.
  unfold flow_new_t. intro H. step H u i E. unfold turns in E. inversion E; subst i. clear E. step H eps i1 E1. apply eps_loop_time in E1; [|lia].
  fstep H u1 E2. step H es i3 E3. assert (L := erased _ _ _ E3). rewrite double_edges_erase in L. apply double_edges_length in L. rewrite app_length, repeat_length in L.
  apply double_edges_time in E3. step H G i4 E4. apply free_inv in H. destruct H as [_ ->].
  unfold build_G_t in E4. apply (for_each_time _ _ 0) in E4; [|intros s1 x s' c' _ T; apply free_inv in T; destruct T as [_ ->]; lia]. rewrite seq_length in E4.
  enough (i1 <= 30)%nat by lia. destruct (Nat.le_gt_cases i1 30) as [|Hi]; [assumption|exfalso].
  assert (P := Z.pow_le_mono_r 2 31 (Z.of_nat i1) ltac:(lia) ltac:(lia)). change (2 ^ 31) with 2147483648 in P. unfold INT_MAX in E1. lia.
Qed.
End Count.

(** ** The bound grows with the number of limits, the rounds and 1 / U *)
Lemma div_worst n K U : 0 <= K -> 1 <= U -> 0 <= Z.of_nat n * (K + U) / U <= Z.of_nat n * (K + 1) / 1.
Proof.
  intros HK HU. rewrite Z.div_1_r. replace (Z.of_nat n * (K + U)) with (Z.of_nat n * K + Z.of_nat n * U) by ring. rewrite Z.div_add by lia.
  assert (0 <= Z.of_nat n * K) by nia. assert (Z.of_nat n * K / U <= Z.of_nat n * K) by (apply Z.div_le_upper_bound; nia).
  assert (0 <= Z.of_nat n * K / U) by (apply Z.div_pos; lia). nia.
Qed.

Lemma first_worst n m m' K U : 0 <= K -> 1 <= U -> (m <= m')%nat -> 0 <= first_round_steps n m K U <= first_round_steps n m' K 1.
Proof.
  intros HK HU Hm. unfold first_round_steps, step_bound, phase_iterations. assert (D := div_worst n (2 * K) U ltac:(lia) HU).
  set (a := Z.of_nat n * (2 * K + U) / U) in *. set (b := Z.of_nat n * (2 * K + 1) / 1) in *. clearbody a b.
  assert (0 <= Z.of_nat m * a <= Z.of_nat m' * b) by nia.
  assert (0 <= a * (8 * Z.of_nat m + 3 * Z.of_nat (n + 1)) <= b * (8 * Z.of_nat m' + 3 * Z.of_nat (n + 1))) by nia. nia.
Qed.

Lemma steps_worst n m m' : (m <= m')%nat -> 0 <= round_steps n m <= round_steps n m'.
Proof.
  intro Hm. unfold round_steps, step_bound, round_iterations. cbv zeta.
  set (a := 3 * Z.of_nat n). assert (0 <= a) by lia. clearbody a. nia.
Qed.

Lemma cost_worst n m m' a a' : (m <= m')%nat -> 0 <= a <= a' -> 0 <= round_cost n m a <= round_cost n m' a'.
Proof. intros Hm Ha. unfold round_cost, step_cost, tree_turns. nia. Qed.

Lemma turns_worst n m m' K U r r' : 0 <= K -> 1 <= U \/ r = 0%nat -> (m <= m')%nat -> (r <= r')%nat -> min_cost_turns n m K U r <= min_cost_turns n m' K 1 r'.
Proof.
  intros HK HU Hm Hr. unfold min_cost_turns. enough (rounds_cost n m K U r <= rounds_cost n m' K 1 r') by lia.
  assert (X := cost_worst n m m' _ _ Hm (steps_worst n m m' Hm)).
  unfold rounds_cost. destruct r' as [|r']; [replace r with 0%nat by lia; lia|].
  destruct r as [|r].
  - assert (Y := cost_worst n m m' _ _ Hm (first_worst n m m' K 1 HK ltac:(lia) Hm)). nia.
  - destruct HU as [HU|]; [|discriminate]. assert (Y := cost_worst n m m' _ _ Hm (first_worst n m m' K U HK HU Hm)). nia.
Qed.

Lemma turns_nonneg n m K r : 0 <= K -> 0 <= min_cost_turns n m K 1 r.
Proof. intro HK. assert (X := turns_worst n 0 m K 1 0 r HK ltac:(lia) ltac:(lia) ltac:(lia)). unfold min_cost_turns at 1 in X. cbn [rounds_cost] in X. lia. Qed.

Theorem run_solver_time (one : Z) n mus oms K fuel :
  0 < one -> admissible n mus oms K -> solver_fuel n (length oms) K <= Z.of_nat fuel ->
  exists v t, @run_solver_t Z (exact_ops one) fuel (Z.of_nat n) mus oms = Ok (v, t) /\
    @run_solver Z (exact_ops one) fuel (Z.of_nat n) mus oms = Ok v /\
    Z.of_nat t <= solver_turns n (length oms) K.
Proof.
  intros H1 HA Hfuel. pose proof HA as (HWf & HB & HK & HI).
  destruct (run_solver_ok one n mus oms K fuel H1 HWf HB HK HI Hfuel) as (v & ER & _).
  destruct (erase_inv (@run_solver_t Z (exact_ops one) fuel (Z.of_nat n) mus oms) v) as [t HT]; [rewrite run_solver_erase; exact ER|].
  exists v, t. split; [exact HT|]. split; [exact ER|].
  unfold solver_turns. set (R := Z.to_nat (Z.log2 (12 * Z.of_nat (n + 1) * K))).
  assert (HNN := turns_nonneg n (length oms + n) (2 * K) R ltac:(lia)).
  unfold run_solver_t in HT. step HT sv i1 T1. assert (EN := erased _ _ _ T1). rewrite solver_new_erase in EN.
  apply solver_new_time in T1; [|lia]. assert (HL := solver_new_length _ _ _ _ _ EN). unfold setup_turns.
  unfold solve_t in HT. destruct (Z.eqb_spec (s_n sv) SIZE_MAX) as [Hn|Hn]; [apply free_inv in HT; destruct HT as [_ ->]; nia|].
  step HT lo i2 T2. assert (EM := erased _ _ _ T2). rewrite merge_limits_erase in EM. apply merge_limits_time in T2.
  assert (Esn : s_n sv = Z.of_nat n).
  { unfold solver_new in EN. destruct (negb _); [inversion EN; subst sv; cbn in Hn; congruence|].
    destruct (check_mus fuel (Z.of_nat n) mus 1) as [[|]|]; cbn [bind negb] in EN; try discriminate; [|inversion EN; subst sv; cbn in Hn; congruence].
    destruct (check_omegas fuel (Z.of_nat n) mus oms) as [[l|]|]; cbn [bind] in EN; inversion EN; subst sv; [reflexivity|cbn in Hn; congruence]. }
  rewrite Esn, Nat2Z.id in *.
  assert (T2' : Z.of_nat i2 <= 2 * Z.of_nat (length oms) * Z.of_nat (length oms) + 2 * Z.of_nat (length oms) + Z.of_nat n) by nia. clear T2.
  destruct lo as [limits|]; [|apply free_inv in HT; destruct HT as [_ ->]; nia].
  destruct (solver_limits one n mus oms K fuel sv limits HA Hfuel EN ltac:(rewrite Esn; exact Hn) EM) as (_ & Hlen & HG).
  destruct (solve_turns one n mus oms K fuel sv limits H1 HA Hfuel EN ltac:(rewrite Esn; exact Hn) EM) as (vmax & M & U & s & s' & w & t & r & EC & EF & ET & _ & _ & Hr & HU & HB2).
  step HT c i3 T3. assert (EC' := erased _ _ _ T3). rewrite calc_erase in EC'. assert (c = (vmax, M, U)) by congruence. subst c.
  apply calc_time in T3; [|intros o Ho; apply (lg_lu _ _ _ _ (HG o Ho))].
  step HT fl i4 T4. assert (EF' := erased _ _ _ T4). rewrite flow_new_erase in EF'. assert (fl = s) by congruence. subst fl. apply flow_new_time in T4.
  step HT p i5 T5. rewrite ET in T5. inversion T5; subst p i5. clear T5.
  destruct (dlt vmax w); apply free_inv in HT; destruct HT as [_ ->].
  all: assert (HX : min_cost_turns n (length limits) (2 * K) U r <= min_cost_turns n (length oms + n) (2 * K) 1 R).
  1,3: apply turns_worst; [lia| |exact Hlen|]; [destruct Hr as [|Hr]; [auto|left; assert (Hp := Z.pow_pos_nonneg 2 (Z.of_nat r) ltac:(lia) ltac:(lia)); nia]|];
    unfold R; destruct Hr as [->|Hr]; [lia|]; apply Nat2Z.inj_le; rewrite Z2Nat.id by apply Z.log2_nonneg;
    apply Z.log2_le_pow2; nia.
  all: nia.
Qed.
