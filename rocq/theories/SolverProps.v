(** * Consequences of the correctness of [solve()] *)
From Coq Require Import Sorting.Permutation.
From Verif Require Import Base BaseLemmas Data ProblemDefine Flow ProblemSolver Oracles.
From Verif Require Import Sums Spec SpecLemmas Convex FlowNet PDProof FlowOpt SolverNet SolverProof OracleProof.
Local Open Scope Z_scope.

(** ** Costs of modified callbacks *)
Lemma add_const_def c fn l u : defined_on fn l u -> defined_on (add_const c fn) l u /\
  forall x, l <= x <= u -> cost (add_const c fn) x = cost fn x + c.
Proof.
  intros H. split; intros x Hx; destruct (H x Hx) as [v E]; unfold add_const, cost; rewrite E; cbn [bind]; eauto.
Qed.

Lemma guard_def fn l u : defined_on fn l u -> defined_on (guard l u fn) l u.
Proof.
  intros H x Hx. unfold guard. destruct (H x Hx) as [v E]. exists v.
  destruct (Z.leb_spec l x), (Z.leb_spec x u); try lia. auto.
Qed.

Lemma guard_cost fn l u x : l <= x <= u -> cost (guard l u fn) x = cost fn x.
Proof. intros H. unfold cost, guard. destruct (Z.leb_spec l x), (Z.leb_spec x u); try lia. reflexivity. Qed.

Lemma convex_same F G l u : convex_on F l u -> (forall x, l <= x <= u -> G x = F x) -> convex_on G l u.
Proof. intros H E x Hx. rewrite !E by lia. apply H. auto. Qed.

Lemma convex_shift_val F G l u c : convex_on F l u -> (forall x, l <= x <= u -> G x = F x + c) -> convex_on G l u.
Proof. intros H E x Hx. rewrite !E by lia. specialize (H x Hx). lia. Qed.

Lemma nth_error_upd {A} (l : list A) i k a : (i < length l)%nat ->
  nth_error (upd l i a) k = if Nat.eqb k i then Some a else nth_error l k.
Proof.
  intros H. destruct (Nat.eqb_spec k i) as [->|]; [apply nth_error_upd_eq; auto|apply nth_error_upd_neq; auto].
Qed.

(** ** Mu limits changed one by one *)
Lemma attains_mus n mus mus' oms (c : Z) (f : Z -> Z) v :
  (forall mu, mu_ok n mus mu -> mu_ok n mus' (fun i => f (mu i)) /\ mu_part n mus' (fun i => f (mu i)) = mu_part n mus mu + c) ->
  (forall x y, f x - f y = x - y) ->
  attains n mus oms v -> attains n mus' oms (v + c).
Proof.
  intros H Hf. rewrite !attains_iff. intros (mu & v' & H1 & H2 & ->). destruct (H mu H1) as [A1 A2].
  exists (fun i => f (mu i)), v'. split; auto. split; [|lia].
  clear - Hf H2. revert v' H2. induction oms as [|o oms IH]; intros v'; cbn [om_val]; auto.
  intros (w & v2 & W1 & W2 & H & ->). exists w, v2. rewrite Hf. auto.
Qed.

(** ** Omega limits changed one by one *)
Lemma om_val_upd oms k o o' mu v c :
  nth_error oms k = Some o -> o_i o' = o_i o -> o_j o' = o_j o -> o_l o' = o_l o -> o_u o' = o_u o ->
  (forall x, o_l o <= x <= o_u o -> cost (o_fn o') x = cost (o_fn o) x + c) ->
  om_val oms mu v -> om_val (upd oms k o') mu (v + c).
Proof.
  intros Hk E1 E2 E3 E4 HC. revert k v Hk. induction oms as [|a oms IH]; intros [|k] v Hk; cbn [om_val upd]; try discriminate.
  - inversion Hk; subst. intros (w & v' & W1 & W2 & H & ->). exists w, v'. rewrite E1, E2, E3, E4, HC by auto. split; auto. split; auto. split; auto. lia.
  - intros (w & v' & W1 & W2 & H & ->). exists w, (v' + c). split; auto. split; auto. split; [apply (IH k); auto|lia].
Qed.

Lemma upd_upd {A} (l : list A) k a b : upd (upd l k a) k b = upd l k b.
Proof. revert k. induction l as [|x l IH]; intros [|k]; cbn [upd]; auto. f_equal. auto. Qed.
Lemma upd_same {A} (l : list A) k a : nth_error l k = Some a -> upd l k a = l.
Proof. revert k. induction l as [|x l IH]; intros [|k]; cbn [upd]; intros H; try discriminate; [inversion H; auto|]. f_equal. auto. Qed.

Lemma NoDup_map_in {A B} (f : A -> B) l : (forall x y, In x l -> In y l -> f x = f y -> x = y) -> NoDup l -> NoDup (map f l).
Proof.
  intros H N. induction N as [|a l Ha _ IH]; cbn [map]; constructor.
  - intros Hi. apply in_map_iff in Hi. destruct Hi as (b & E & Hb). apply Ha. rewrite <- (H b a); simpl; auto.
  - apply IH. intros; apply H; simpl; auto.
Qed.

Section Props.
Variable one : Z.
#[local] Hint Extern 0 (DataOps Z) => exact (exact_ops one) : typeclass_instances.
Hypothesis H1 : 0 < one.

Lemma solve_solution n mus oms K fuel : admissible n mus oms K -> solver_fuel n (length oms) K <= Z.of_nat fuel ->
  exists r, run_solver fuel (Z.of_nat n) mus oms = Ok r /\ solution n mus oms r.
Proof. intros (A & B & C & D) F. apply (run_solver_ok one n mus oms K fuel); auto. Qed.

Lemma solve_optimum n mus oms K fuel v : admissible n mus oms K -> solver_fuel n (length oms) K <= Z.of_nat fuel ->
  run_solver fuel (Z.of_nat n) mus oms = Ok (Some v) -> optimum n mus oms v.
Proof. intros A F E. destruct (solve_solution n mus oms K fuel A F) as (r & E' & S). rewrite E in E'. inversion E'; subst. exact S. Qed.

Lemma solve_nullopt n mus oms K fuel : admissible n mus oms K -> solver_fuel n (length oms) K <= Z.of_nat fuel ->
  (run_solver fuel (Z.of_nat n) mus oms = Ok None <-> infeasible n mus oms).
Proof.
  intros A F. destruct (solve_solution n mus oms K fuel A F) as (r & E & S). rewrite E. split.
  - intros X. inversion X; subst. exact S.
  - intros HI. destruct r as [v|]; auto. destruct S as [(mu & om & Hf & _) _]. destruct (HI mu om Hf).
Qed.

Lemma solve_returns n mus oms K fuel : admissible n mus oms K -> solver_fuel n (length oms) K <= Z.of_nat fuel ->
  exists r, run_solver fuel (Z.of_nat n) mus oms = Ok r.
Proof. intros A F. destruct (solve_solution n mus oms K fuel A F) as (r & E & _). eauto. Qed.

Lemma solve_no_error n mus oms K fuel e : admissible n mus oms K -> solver_fuel n (length oms) K <= Z.of_nat fuel ->
  run_solver fuel (Z.of_nat n) mus oms <> Err e.
Proof. intros A F. destruct (solve_solution n mus oms K fuel A F) as (r & E & _). congruence. Qed.

(** two problems with the same attained values *)
Lemma solve_same n mus oms K n' mus' oms' K' fuel fuel' :
  admissible n mus oms K -> solver_fuel n (length oms) K <= Z.of_nat fuel ->
  admissible n' mus' oms' K' -> solver_fuel n' (length oms') K' <= Z.of_nat fuel' ->
  (forall v, attains n mus oms v <-> attains n' mus' oms' v) ->
  exists r, run_solver fuel (Z.of_nat n) mus oms = Ok r /\ run_solver fuel' (Z.of_nat n') mus' oms' = Ok r.
Proof.
  intros A F A' F' H. destruct (solve_solution n mus oms K fuel A F) as (r & E & S).
  destruct (solve_solution n' mus' oms' K' fuel' A' F') as (r' & E' & S'). exists r. split; auto.
  rewrite E'. f_equal. eapply solution_same; [exact H|exact S|exact S'].
Qed.

Lemma solve_shift n mus oms K n' mus' oms' K' fuel fuel' c :
  admissible n mus oms K -> solver_fuel n (length oms) K <= Z.of_nat fuel ->
  admissible n' mus' oms' K' -> solver_fuel n' (length oms') K' <= Z.of_nat fuel' ->
  (forall v, attains n mus oms v -> attains n' mus' oms' (v + c)) ->
  (forall v, attains n' mus' oms' v -> attains n mus oms (v - c)) ->
  exists r, run_solver fuel (Z.of_nat n) mus oms = Ok r /\
            run_solver fuel' (Z.of_nat n') mus' oms' = Ok (option_map (fun v => v + c) r).
Proof.
  intros A F A' F' Ha Hb. destruct (solve_solution n mus oms K fuel A F) as (r & E & S).
  destruct (solve_solution n' mus' oms' K' fuel' A' F') as (r' & E' & S'). exists r. split; auto.
  rewrite E'. f_equal. eapply solution_shift; eauto.
Qed.

Lemma solve_le n mus oms K n' mus' oms' K' fuel fuel' :
  admissible n mus oms K -> solver_fuel n (length oms) K <= Z.of_nat fuel ->
  admissible n' mus' oms' K' -> solver_fuel n' (length oms') K' <= Z.of_nat fuel' ->
  (forall v, attains n mus oms v -> exists v', attains n' mus' oms' v' /\ v' <= v) ->
  exists r r', run_solver fuel (Z.of_nat n) mus oms = Ok r /\ run_solver fuel' (Z.of_nat n') mus' oms' = Ok r' /\
    forall v, r = Some v -> exists v', r' = Some v' /\ v' <= v.
Proof.
  intros A F A' F' H. destruct (solve_solution n mus oms K fuel A F) as (r & E & S).
  destruct (solve_solution n' mus' oms' K' fuel' A' F') as (r' & E' & S'). exists r, r'. split; auto. split; auto.
  intros v Ev. destruct (solution_le n mus oms r n' mus' oms' r' 0) with (v := v) as (v' & X & Y); auto.
  - intros w Hw. destruct (H w Hw) as (w' & P & Q). exists w'. split; auto. lia.
  - exists v'. split; auto. lia.
Qed.

Lemma solve_equiv n mus oms K n' mus' oms' K' fuel fuel' :
  admissible n mus oms K -> solver_fuel n (length oms) K <= Z.of_nat fuel ->
  admissible n' mus' oms' K' -> solver_fuel n' (length oms') K' <= Z.of_nat fuel' ->
  (forall v, attains n mus oms v -> exists v', attains n' mus' oms' v' /\ v' <= v) ->
  (forall v, attains n' mus' oms' v -> exists v', attains n mus oms v' /\ v' <= v) ->
  exists r, run_solver fuel (Z.of_nat n) mus oms = Ok r /\ run_solver fuel' (Z.of_nat n') mus' oms' = Ok r.
Proof.
  intros A F A' F' Ha Hb.
  destruct (solve_le n mus oms K n' mus' oms' K' fuel fuel' A F A' F' Ha) as (r & r' & E & E' & L).
  destruct (solve_le n' mus' oms' K' n mus oms K fuel' fuel A' F' A F Hb) as (s' & s & G' & G & L').
  rewrite E in G. inversion G; subst s. rewrite E' in G'. inversion G'; subst s'. clear G G'.
  exists r. split; auto. rewrite E'. f_equal. destruct r as [v|], r' as [v'|]; auto.
  - destruct (L v eq_refl) as (x & X & Y). destruct (L' v' eq_refl) as (x' & X' & Y'). inversion X. inversion X'. subst. f_equal. lia.
  - destruct (L v eq_refl) as (x & X & _). discriminate.
  - destruct (L' v' eq_refl) as (x & X & _). discriminate.
Qed.

(** *** C07 *)
Lemma guard_admissible n mus oms K : admissible n mus oms K -> admissible n (map guard_mu mus) (map guard_om oms) K.
Proof.
  intros ((L & M & O) & (BM & BO) & I). split; [|split; auto].
  - split; [rewrite map_length; auto|]. split.
    + intros i m Hi Em. rewrite nth_error_map in Em. destruct (nth_error mus i) as [m0|] eqn:E; [|discriminate].
      inversion Em; subst m. destruct (M i m0 Hi E) as (A & B & C). unfold mu_wf. cbn [guard_mu m_l m_u m_fn].
      split; auto. split; [apply guard_def; auto|]. eapply convex_same; [exact C|]. intros x Hx. apply guard_cost. auto.
    + intros o Ho. apply in_map_iff in Ho. destruct Ho as (o0 & <- & Ho). destruct (O o0 Ho) as (A & B & C & D).
      unfold om_wf. cbn [guard_om o_l o_u o_fn o_i o_j]. split; auto. split; [apply guard_def; auto|]. split; auto.
      eapply convex_same; [exact C|]. intros x Hx. apply guard_cost. auto.
  - split.
    + intros i m Hi Em. rewrite nth_error_map in Em. destruct (nth_error mus i) as [m0|] eqn:E; [|discriminate].
      inversion Em; subst m. apply (BM i m0 Hi E).
    + intros o Ho. apply in_map_iff in Ho. destruct Ho as (o0 & <- & Ho). apply (BO o0 Ho).
Qed.

Lemma guard_attains n mus oms v : attains n mus oms v <-> attains n (map guard_mu mus) (map guard_om oms) v.
Proof.
  rewrite !attains_iff.
  assert (EB : forall mu, mu_ok n mus mu <-> mu_ok n (map guard_mu mus) mu).
  { intros mu. unfold mu_ok, mu_bound. split; intros H i Hi; destruct (H i Hi) as (m & Em & Bm).
    - exists (guard_mu m). rewrite nth_error_map, Em. auto.
    - rewrite nth_error_map in Em. destruct (nth_error mus i) as [m0|]; [|discriminate]. inversion Em; subst. exists m0. auto. }
  assert (EC : forall mu, mu_ok n mus mu -> mu_part n (map guard_mu mus) mu = mu_part n mus mu).
  { intros mu H. unfold mu_part. f_equal. apply map_ext_in. intros i Hi. apply in_seq in Hi.
    destruct (H i ltac:(lia)) as (m & Em & Bm). unfold mu_cost. rewrite nth_error_map, Em. cbn [option_map guard_mu m_fn].
    apply guard_cost. auto. }
  assert (EO : forall l mu w, om_val l mu w <-> om_val (map guard_om l) mu w).
  { clear. induction l as [|o l IH]; intros mu w; cbn [om_val map]; [reflexivity|]. cbn [guard_om o_l o_u o_fn o_i o_j].
    split; intros (x & y & A & B & C & E); exists x, y; rewrite guard_cost in * by auto;
      (split; [exact A|split; [exact B|split; [apply IH; exact C|exact E]]]). }
  split; intros (mu & v' & A & B & ->); exists mu, v'.
  - rewrite EC by auto. split; [apply (proj1 (EB _)); auto|]. split; [apply (proj1 (EO _ _ _)); auto|auto].
  - apply EB in A. rewrite EC by auto. split; auto. split; [apply (proj2 (EO _ _ _)); auto|auto].
Qed.

Lemma solve_guarded n mus oms K fuel : admissible n mus oms K -> solver_fuel n (length oms) K <= Z.of_nat fuel ->
  exists r, run_solver fuel (Z.of_nat n) mus oms = Ok r /\
            run_solver fuel (Z.of_nat n) (map guard_mu mus) (map guard_om oms) = Ok r.
Proof.
  intros A F. apply (solve_same n mus oms K n (map guard_mu mus) (map guard_om oms) K); auto.
  - apply guard_admissible; auto.
  - rewrite map_length. auto.
  - intros v. apply guard_attains.
Qed.

(** *** C08 *)
Lemma admissible_perm n mus oms oms' K : Permutation oms oms' -> admissible n mus oms K -> admissible n mus oms' K.
Proof.
  intros P ((L & M & O) & (BM & BO) & I).
  split; [split; [auto|split; [auto|]]|split; [split; [auto|]|auto]]; intros o Ho;
  [apply O|apply BO]; (eapply Permutation_in; [apply Permutation_sym; exact P|auto]).
Qed.

Lemma solve_perm n mus oms oms' K fuel : admissible n mus oms K -> Permutation oms oms' ->
  solver_fuel n (length oms) K <= Z.of_nat fuel ->
  exists r, run_solver fuel (Z.of_nat n) mus oms = Ok r /\ run_solver fuel (Z.of_nat n) mus oms' = Ok r.
Proof.
  intros A P F. apply (solve_same n mus oms K n mus oms' K); auto.
  - eapply admissible_perm; eauto.
  - rewrite <- (Permutation_length P). auto.
  - intros v. apply attains_perm; auto.
Qed.

(** *** C10 *)
Lemma solve_add_mu n mus oms K fuel i m c : admissible n mus oms K -> solver_fuel n (length oms) K <= Z.of_nat fuel ->
  (1 <= i <= n)%nat -> nth_error mus i = Some m ->
  exists r, run_solver fuel (Z.of_nat n) mus oms = Ok r /\
    run_solver fuel (Z.of_nat n) (upd mus i (mu_add c m)) oms = Ok (option_map (fun v => v + c) r).
Proof.
  intros A F Hi Em.
  assert (Hlen : length mus = (n + 1)%nat) by apply A.
  assert (EN : forall k, nth_error (upd mus i (mu_add c m)) k = if Nat.eqb k i then Some (mu_add c m) else nth_error mus k)
    by (intros k; apply nth_error_upd; lia).
  assert (Wm : mu_wf m) by (destruct A as ((_ & M & _) & _); apply (M i m); auto). destruct Wm as (W1 & W2 & W3).
  destruct (add_const_def c _ _ _ W2) as [D1 D2].
  assert (EB : forall mu, mu_ok n mus mu <-> mu_ok n (upd mus i (mu_add c m)) mu).
  { intros mu. unfold mu_ok, mu_bound. split; intros H k Hk; destruct (H k Hk) as (x & Ex & Bx).
    - rewrite EN. destruct (Nat.eqb_spec k i) as [->|]; [|eauto]. exists (mu_add c m). rewrite Em in Ex. inversion Ex; subst. auto.
    - rewrite EN in Ex. destruct (Nat.eqb_spec k i) as [->|]; [|eauto]. exists m. inversion Ex; subst. auto. }
  assert (EC : forall mu, mu_ok n mus mu -> mu_part n (upd mus i (mu_add c m)) mu = mu_part n mus mu + c).
  { intros mu H. rewrite (mu_part_ext n mus (upd mus i (mu_add c m)) mu mu (fun k => if Nat.eqb k i then c else 0)).
    - rewrite sum_delta by auto. reflexivity.
    - intros k Hk. unfold mu_cost. rewrite EN. destruct (Nat.eqb_spec k i) as [->|]; [|lia]. rewrite Em.
      cbn [mu_add m_fn]. apply D2. destruct (H i Hi) as (x & Ex & Bx). congruence. }
  apply (solve_shift n mus oms K n _ oms K); auto.
  - destruct A as ((L & M & O) & (BM & BO) & I). split; [|split; auto]; split; auto; try rewrite upd_length; auto.
    + split; auto. intros k x Hk Ex. rewrite EN in Ex. destruct (Nat.eqb_spec k i) as [->|]; [|eauto].
      inversion Ex; subst. split; [exact W1|]. split; [exact D1|]. eapply convex_shift_val; [exact W3|exact D2].
    + intros k x Hk Ex. rewrite EN in Ex. destruct (Nat.eqb_spec k i) as [->|]; [|eauto]. inversion Ex; subst. apply (BM i m); auto.
  - intros v. rewrite !attains_iff. intros (mu & v' & X1 & X2 & ->). exists mu, v'. split; [apply EB; auto|]. split; auto.
    rewrite EC by auto. lia.
  - intros v. rewrite !attains_iff. intros (mu & v' & X1 & X2 & ->). exists mu, v'. apply EB in X1. split; auto. split; auto.
    rewrite EC by auto. lia.
Qed.

Lemma solve_add_om n mus oms K fuel k o c : admissible n mus oms K -> solver_fuel n (length oms) K <= Z.of_nat fuel ->
  nth_error oms k = Some o ->
  exists r, run_solver fuel (Z.of_nat n) mus oms = Ok r /\
    run_solver fuel (Z.of_nat n) mus (upd oms k (om_add c o)) = Ok (option_map (fun v => v + c) r).
Proof.
  intros A F Ek.
  assert (Hk : (k < length oms)%nat) by (apply nth_error_Some; congruence).
  assert (Wo : om_wf n o) by (destruct A as ((_ & _ & O) & _); apply (O o); apply nth_error_In with k; auto).
  destruct Wo as (W1 & W2 & W3 & W4 & W5 & W6). destruct (add_const_def c _ _ _ W2) as [D1 D2].
  assert (EI : forall x, In x (upd oms k (om_add c o)) -> x = om_add c o \/ In x oms).
  { intros x Hx. apply In_nth_error in Hx. destruct Hx as [j Hj]. rewrite nth_error_upd in Hj by auto.
    destruct (Nat.eqb_spec j k); [left; congruence|right; apply nth_error_In with j; auto]. }
  apply (solve_shift n mus oms K n mus _ K); auto.
  - destruct A as ((L & M & O) & (BM & BO) & I). split; [|split; auto].
    + split; [auto|split; [auto|]]. intros x Hx. destruct (EI x Hx) as [->|]; auto.
      split; [exact W1|]. split; [exact D1|]. split; [eapply convex_shift_val; [exact W3|exact D2]|]. auto.
    + split; [auto|]. intros x Hx. destruct (EI x Hx) as [->|]; auto. apply (BO o). apply nth_error_In with k; auto.
  - rewrite upd_length. auto.
  - intros v. rewrite !attains_iff. intros (mu & v' & X1 & X2 & ->). exists mu, (v' + c). split; auto. split; [|lia].
    apply om_val_upd with (o := o); auto.
  - intros v. rewrite !attains_iff. intros (mu & v' & X1 & X2 & ->). exists mu, (v' - c). split; auto. split; [|lia].
    rewrite <- (upd_same oms k o Ek). rewrite <- (upd_upd oms k (om_add c o) o).
    apply om_val_upd with (o := om_add c o) (c := - c); auto.
    + rewrite nth_error_upd by auto. rewrite Nat.eqb_refl. auto.
    + intros x Hx. cbn [om_add o_l o_u o_fn] in Hx |- *. rewrite D2 by auto. lia.
Qed.

(** *** C11 *)
Lemma solve_drop n mus l1 o l2 K fuel : admissible n mus (l1 ++ o :: l2) K ->
  solver_fuel n (length (l1 ++ o :: l2)) K <= Z.of_nat fuel ->
  (forall x, o_l o <= x <= o_u o -> 0 <= cost (o_fn o) x) ->
  exists r r', run_solver fuel (Z.of_nat n) mus (l1 ++ o :: l2) = Ok r /\ run_solver fuel (Z.of_nat n) mus (l1 ++ l2) = Ok r' /\
    forall v, r = Some v -> exists v', r' = Some v' /\ v' <= v.
Proof.
  intros A F HC. apply (solve_le n mus _ K n mus _ K); auto.
  - destruct A as ((L & M & O) & (BM & BO) & I).
    assert (S : forall x, In x (l1 ++ l2) -> In x (l1 ++ o :: l2)) by (intros x Hx; apply in_app_or in Hx; apply in_or_app; simpl; tauto).
    split; [split; [auto|split; auto]|split; [split; auto|auto]].
  - destruct A as (_ & _ & I & _). unfold solver_fuel in *. eapply Z.le_trans; [|exact F]. apply flow_fuel_mono; [lia|].
    rewrite !app_length. simpl. lia.
  - intros v. rewrite !attains_iff. intros (mu & v' & X1 & X2 & ->). apply om_val_app in X2.
    destruct X2 as (a & b & Y1 & Y2 & ->). cbn [om_val] in Y2. destruct Y2 as (w & c & W1 & W2 & W3 & ->).
    exists (mu_part n mus mu + (a + c)). split; [|specialize (HC w W1); lia]. apply attains_iff.
    exists mu, (a + c). split; auto. split; auto. apply om_val_app. eauto.
Qed.

Lemma solve_relax n mus oms mus' oms' K K' fuel fuel' :
  admissible n mus oms K -> solver_fuel n (length oms) K <= Z.of_nat fuel ->
  admissible n mus' oms' K' -> solver_fuel n (length oms') K' <= Z.of_nat fuel' ->
  Forall2 mu_relaxed mus mus' -> Forall2 om_relaxed oms oms' ->
  exists r r', run_solver fuel (Z.of_nat n) mus oms = Ok r /\ run_solver fuel' (Z.of_nat n) mus' oms' = Ok r' /\
    forall v, r = Some v -> exists v', r' = Some v' /\ v' <= v.
Proof.
  intros A F A' F' RM RO. apply (solve_le n mus oms K n mus' oms' K'); auto.
  assert (RMi : forall i m, nth_error mus i = Some m -> exists m', nth_error mus' i = Some m' /\ mu_relaxed m m').
  { clear - RM. induction RM as [|a b l l' H _ IH]; intros [|i] m E; try discriminate; [|apply (IH i m E)].
    cbn [nth_error] in *. inversion E; subst. eauto. }
  intros v. rewrite attains_iff. intros (mu & v' & X1 & X2 & ->).
  destruct (om_val_le oms oms' mu v') as (v2 & Y1 & Y2); auto.
  { clear - RO. induction RO as [|o o' l l' (E1 & E2 & E3 & E4 & E5) _ IH]; constructor; auto.
    intros mu w W1 W2. exists w. rewrite E1, E2. specialize (E5 w W1). lia. }
  exists (mu_part n mus' mu + v2). split.
  - apply attains_iff. exists mu, v2. split; auto. intros i Hi. destruct (X1 i Hi) as (m & Em & Bm).
    destruct (RMi i m Em) as (m' & Em' & R1 & R2 & _). exists m'. split; auto. lia.
  - enough (mu_part n mus' mu <= mu_part n mus mu) by lia. unfold mu_part.
    assert (G : forall L, (forall i, In i L -> (1 <= i <= n)%nat) -> sumZ (map (mu_cost mus' mu) L) <= sumZ (map (mu_cost mus mu) L)).
    { induction L as [|i L IH]; intros HL; cbn [map sumZ]; [lia|].
      assert (IH' := IH (fun x Hx => HL x (or_intror Hx))). destruct (X1 i (HL i (or_introl eq_refl))) as (m & Em & Bm).
      destruct (RMi i m Em) as (m' & Em' & _ & _ & R3). unfold mu_cost at 1 3. rewrite Em, Em'. specialize (R3 _ Bm). lia. }
    apply G. intros i Hi. apply in_seq in Hi. lia.
Qed.

(** *** C09 *)
Lemma om_sum_cost a b x va vb : o_fn a x = Ok va -> o_fn b x = Ok vb -> o_fn (om_sum a b) x = Ok (va + vb).
Proof. intros Ea Eb. unfold om_sum. cbn [o_fn]. rewrite Ea. cbn [bind]. rewrite Eb. reflexivity. Qed.

Lemma solve_om_sum n mus a b oms K fuel : admissible n mus (a :: b :: oms) K ->
  solver_fuel n (length (a :: b :: oms)) K <= Z.of_nat fuel ->
  o_i a = o_i b -> o_j a = o_j b -> o_l a = o_l b -> o_u a = o_u b ->
  nondecreasing_on (cost (o_fn a)) (o_l a) (o_u a) -> nondecreasing_on (cost (o_fn b)) (o_l b) (o_u b) ->
  exists r, run_solver fuel (Z.of_nat n) mus (a :: b :: oms) = Ok r /\
            run_solver fuel (Z.of_nat n) mus (om_sum a b :: oms) = Ok r.
Proof.
  intros A F E1 E2 E3 E4 NA NB.
  destruct A as ((L & M & O) & (BM & BO) & I).
  destruct (O a (or_introl eq_refl)) as (A1 & A2 & A3 & A4). destruct (O b (or_intror (or_introl eq_refl))) as (B1 & B2 & B3 & _).
  assert (HS : forall x, o_l a <= x <= o_u a -> o_fn (om_sum a b) x = Ok (cost (o_fn a) x + cost (o_fn b) x)).
  { intros x Hx. apply om_sum_cost; [apply (cost_ok _ _ _ x A2); auto|apply (cost_ok _ _ _ x B2); lia]. }
  assert (HC : forall x, o_l a <= x <= o_u a -> cost (o_fn (om_sum a b)) x = cost (o_fn a) x + cost (o_fn b) x).
  { intros x Hx. unfold cost at 1. rewrite HS by auto. reflexivity. }
  apply (solve_equiv n mus _ K n mus _ K); auto.
  - split; [split; auto|split; [split; auto|auto]].
  - split; [split; [auto|split; [auto|]]|split; [split; [auto|]|auto]].
    + intros o [<-|Ho]; [|apply O; simpl; auto]. split; [exact A1|]. split; [|split; [|exact A4]].
      * intros x Hx. exists (cost (o_fn a) x + cost (o_fn b) x). apply HS. exact Hx.
      * intros x Hx. cbn [om_sum o_l o_u] in Hx. rewrite !HC by lia. specialize (A3 x Hx). specialize (B3 x ltac:(lia)). lia.
    + intros o [<-|Ho]; [|apply BO; simpl; auto]. apply (BO a). simpl. auto.
  - unfold solver_fuel in *. eapply Z.le_trans; [|exact F]. apply flow_fuel_mono; [destruct I; lia|]. simpl. lia.
  - intros v. rewrite attains_iff.
    intros (mu & v' & X1 & (w1 & y1 & P1 & P2 & (w2 & y2 & Q1 & Q2 & R & ->) & ->) & ->).
    set (w := Z.min w1 w2). exists (mu_part n mus mu + (cost (o_fn (om_sum a b)) w + y2)). split.
    + apply attains_iff. exists mu, (cost (o_fn (om_sum a b)) w + y2). split; auto. split; auto.
      exists w, y2. cbn [om_sum o_l o_u o_i o_j]. rewrite <- E1, <- E2 in Q2. split; [lia|]. split; [lia|]. auto.
    + rewrite HC by lia. assert (cost (o_fn a) w <= cost (o_fn a) w1) by (apply NA; lia).
      assert (cost (o_fn b) w <= cost (o_fn b) w2) by (apply NB; lia). lia.
  - intros v. rewrite attains_iff. intros (mu & v' & X1 & (w & y & P1 & P2 & R & ->) & ->).
    cbn [om_sum o_l o_u o_i o_j] in P1, P2. fold (om_sum a b).
    exists (mu_part n mus mu + (cost (o_fn a) w + (cost (o_fn b) w + y))). split; [|rewrite HC by auto; lia].
    apply attains_iff. exists mu, (cost (o_fn a) w + (cost (o_fn b) w + y)). split; auto. split; auto.
    exists w, (cost (o_fn b) w + y). split; auto. split; auto. split; auto. exists w, y. rewrite <- E1, <- E2.
    split; [lia|]. auto.
Qed.

(** *** C29 *)
Lemma move_attains n mus oms c v : attains n mus oms v <-> attains n (map (mu_move c) mus) oms v.
Proof.
  assert (EN : forall i, nth_error (map (mu_move c) mus) i = option_map (mu_move c) (nth_error mus i)) by (intros; apply nth_error_map).
  split; intros H.
  - rewrite <- (Z.add_0_r v). revert H. apply attains_mus with (f := fun x => x + c); [|intros; lia].
    intros mu HB. split.
    + intros i Hi. destruct (HB i Hi) as (m & Em & Bm). exists (mu_move c m). rewrite EN, Em. split; auto. cbn [mu_move m_l m_u]. lia.
    + rewrite Z.add_0_r. unfold mu_part. f_equal. apply map_ext_in. intros i Hi. unfold mu_cost. rewrite EN.
      destruct (nth_error mus i) as [m|]; cbn [option_map mu_move m_fn]; auto. unfold cost. replace (mu i + c - c) with (mu i) by lia. auto.
  - rewrite <- (Z.add_0_r v). revert H. apply attains_mus with (f := fun x => x - c); [|intros; lia].
    intros mu HB. split.
    + intros i Hi. destruct (HB i Hi) as (m & Em & Bm). rewrite EN in Em. destruct (nth_error mus i) as [m0|] eqn:E0; [|discriminate].
      inversion Em; subst m. cbn [mu_move m_l m_u] in Bm. exists m0. split; auto. lia.
    + rewrite Z.add_0_r. unfold mu_part. f_equal. apply map_ext_in. intros i Hi. unfold mu_cost. rewrite EN.
      destruct (nth_error mus i) as [m|]; cbn [option_map mu_move m_fn]; auto.
Qed.

Lemma solve_move n mus oms K K' c fuel fuel' :
  admissible n mus oms K -> solver_fuel n (length oms) K <= Z.of_nat fuel ->
  bounded_by n (map (mu_move c) mus) oms K' -> int_fits n K' -> solver_fuel n (length oms) K' <= Z.of_nat fuel' ->
  exists r, run_solver fuel (Z.of_nat n) mus oms = Ok r /\ run_solver fuel' (Z.of_nat n) (map (mu_move c) mus) oms = Ok r.
Proof.
  intros A F B' I' F'. apply (solve_same n mus oms K n (map (mu_move c) mus) oms K'); auto.
  - split; [|split; auto]. destruct A as ((L & M & O) & _). split; [rewrite map_length; auto|]. split; auto.
    intros i m Hi Em. rewrite nth_error_map in Em. destruct (nth_error mus i) as [m0|] eqn:E0; [|discriminate]. inversion Em; subst.
    destruct (M i m0 Hi E0) as (A1 & A2 & A3). unfold mu_wf. cbn [mu_move m_l m_u m_fn]. split; [lia|]. split.
    + intros x Hx. apply A2. lia.
    + intros x Hx. unfold cost. specialize (A3 (x - c) ltac:(lia)). unfold cost in A3.
      replace (x - 1 - c) with (x - c - 1) by lia. replace (x + 1 - c) with (x - c + 1) by lia. exact A3.
  - intros v. apply move_attains.
Qed.

(** *** C12 *)
Lemma solve_bf n mus oms K fuel fuel' :
  admissible n mus oms K -> solver_fuel n (length oms) K <= Z.of_nat fuel -> 2 * K + 32 <= Z.of_nat fuel' ->
  exists r, run_solver fuel (Z.of_nat n) mus oms = Ok r /\ bf_solve fuel' n mus oms = Ok r.
Proof.
  intros A F F'. destruct (solve_solution n mus oms K fuel A F) as (r & E & S). exists r. split; auto.
  destruct A as (W & B & I1 & I2). destruct (bf_solve_ok one n mus oms K fuel') as (r' & E' & S'); auto; try lia.
  rewrite E'. f_equal. eapply solution_unique; eauto.
Qed.

(** *** Mus[0] *)
Lemma solve_mu0 n mus oms K m0 fuel : admissible n mus oms K -> solver_fuel n (length oms) K <= Z.of_nat fuel ->
  exists r, run_solver fuel (Z.of_nat n) mus oms = Ok r /\ run_solver fuel (Z.of_nat n) (upd mus 0 m0) oms = Ok r.
Proof.
  intros A F.
  assert (EN : forall i, (1 <= i <= n)%nat -> nth_error (upd mus 0 m0) i = nth_error mus i) by (intros; apply nth_error_upd_neq; lia).
  apply (solve_same n mus oms K n (upd mus 0 m0) oms K); auto.
  - destruct A as ((L & M & O) & (BM & BO) & I). split; [|split; auto].
    + split; [rewrite upd_length; auto|]. split; auto. intros i m Hi Em. rewrite EN in Em by auto. eauto.
    + split; auto. intros i m Hi Em. rewrite EN in Em by auto. eauto.
  - intros v. rewrite !attains_iff.
    assert (EB : forall mu, mu_ok n mus mu <-> mu_ok n (upd mus 0 m0) mu).
    { intros mu. unfold mu_ok, mu_bound. split; intros H i Hi; specialize (H i Hi); rewrite EN in * by auto; auto. }
    assert (EC : forall mu, mu_part n (upd mus 0 m0) mu = mu_part n mus mu).
    { intros mu. unfold mu_part. f_equal. apply map_ext_in. intros i Hi. apply in_seq in Hi. unfold mu_cost. rewrite EN by lia. auto. }
    split; intros (mu & v' & X1 & X2 & X3); exists mu, v'; rewrite EC in *; (split; [apply (EB mu); auto|auto]).
Qed.

(** *** Scaling *)
Lemma mul_const_def k fn l u : defined_on fn l u -> defined_on (mul_const k fn) l u /\
  forall x, l <= x <= u -> cost (mul_const k fn) x = k * cost fn x.
Proof.
  intros H. split; intros x Hx; destruct (H x Hx) as [v E]; unfold mul_const, cost; rewrite E; cbn [bind]; eauto.
Qed.

Lemma solution_scale n mus oms r mus' oms' r' k : 0 <= k ->
  (forall v, attains n mus oms v -> attains n mus' oms' (k * v)) ->
  (forall w, attains n mus' oms' w -> exists v, attains n mus oms v /\ w = k * v) ->
  solution n mus oms r -> solution n mus' oms' r' -> r' = option_map (Z.mul k) r.
Proof.
  intros Hk HA HB S S'. rewrite solution_iff in S, S'. destruct r as [v|], r' as [v'|]; cbn [option_map]; auto.
  - destruct S as [S1 S2], S' as [T1 T2]. destruct (HB _ T1) as (x & X1 & ->). f_equal. specialize (S2 _ X1).
    specialize (T2 _ (HA _ S1)). nia.
  - destruct S as [S1 _]. destruct (S' _ (HA _ S1)).
  - destruct S' as [T1 _]. destruct (HB _ T1) as (x & X1 & _). destruct (S _ X1).
Qed.

Lemma solve_scale n mus oms K k fuel : admissible n mus oms K -> solver_fuel n (length oms) K <= Z.of_nat fuel -> 0 <= k ->
  exists r, run_solver fuel (Z.of_nat n) mus oms = Ok r /\
    run_solver fuel (Z.of_nat n) (map (mu_scale k) mus) (map (om_scale k) oms) = Ok (option_map (Z.mul k) r).
Proof.
  intros A F Hk. destruct (solve_solution n mus oms K fuel A F) as (r & E & S). exists r. split; auto.
  destruct A as ((L & M & O) & (BM & BO) & I).
  assert (A' : admissible n (map (mu_scale k) mus) (map (om_scale k) oms) K).
  { split; [|split; auto].
    - split; [rewrite map_length; auto|]. split.
      + intros i m Hi Em. rewrite nth_error_map in Em. destruct (nth_error mus i) as [m0|] eqn:E0; [|discriminate]. inversion Em; subst.
        destruct (M i m0 Hi E0) as (A1 & A2 & A3). destruct (mul_const_def k _ _ _ A2) as [D1 D2].
        unfold mu_wf. cbn [mu_scale m_l m_u m_fn]. split; auto. split; auto.
        intros x Hx. rewrite !D2 by lia. specialize (A3 x Hx). nia.
      + intros o Ho. apply in_map_iff in Ho. destruct Ho as (o0 & <- & Ho). destruct (O o0 Ho) as (A1 & A2 & A3 & A4).
        destruct (mul_const_def k _ _ _ A2) as [D1 D2]. unfold om_wf. cbn [om_scale o_l o_u o_fn o_i o_j]. split; auto. split; auto. split; auto.
        intros x Hx. rewrite !D2 by lia. specialize (A3 x Hx). nia.
    - split.
      + intros i m Hi Em. rewrite nth_error_map in Em. destruct (nth_error mus i) as [m0|] eqn:E0; [|discriminate]. inversion Em; subst.
        apply (BM i m0 Hi E0).
      + intros o Ho. apply in_map_iff in Ho. destruct Ho as (o0 & <- & Ho). apply (BO o0 Ho). }
  destruct (solve_solution n _ _ K fuel A') as (r' & E' & S'); [rewrite map_length; auto|]. rewrite E'. f_equal.
  assert (EB : forall mu, mu_ok n mus mu <-> mu_ok n (map (mu_scale k) mus) mu).
  { intros mu. unfold mu_ok, mu_bound. split; intros H i Hi; destruct (H i Hi) as (m & Em & Bm).
    - exists (mu_scale k m). rewrite nth_error_map, Em. auto.
    - rewrite nth_error_map in Em. destruct (nth_error mus i) as [m0|]; [|discriminate]. inversion Em; subst. exists m0. auto. }
  assert (EC : forall mu, mu_ok n mus mu -> mu_part n (map (mu_scale k) mus) mu = k * mu_part n mus mu).
  { intros mu H. unfold mu_part.
    assert (G : forall Q, (forall i, In i Q -> (1 <= i <= n)%nat) ->
       sumZ (map (mu_cost (map (mu_scale k) mus) mu) Q) = k * sumZ (map (mu_cost mus mu) Q)).
    { induction Q as [|i Q IH]; intros HQ; cbn [map sumZ]; [lia|].
      rewrite IH by (intros; apply HQ; simpl; auto). assert (Hi := HQ i (or_introl eq_refl)).
      destruct (H i Hi) as (m & Em & Bm). unfold mu_cost at 1 3. rewrite nth_error_map, Em. cbn [option_map mu_scale m_fn].
      destruct (M i m Hi Em) as (_ & A2 & _). destruct (mul_const_def k _ _ _ A2) as [_ D2]. rewrite D2 by auto. lia. }
    apply G. intros i Hi. apply in_seq in Hi. lia. }
  assert (EO1 : forall l mu w, (forall o, In o l -> om_wf n o) -> om_val l mu w -> om_val (map (om_scale k) l) mu (k * w)).
  { clear. induction l as [|o l IH]; intros mu w HW; cbn [om_val map]; [lia|].
    destruct (HW o (or_introl eq_refl)) as (_ & A2 & _). destruct (mul_const_def k _ _ _ A2) as [_ D2].
    intros (x & y & A & B & C & ->). exists x, (k * y). cbn [om_scale o_l o_u o_fn o_i o_j]. rewrite D2 by auto.
    split; auto. split; auto. split; [apply IH; auto; intros; apply HW; simpl; auto|lia]. }
  assert (EO2 : forall l mu w, (forall o, In o l -> om_wf n o) -> om_val (map (om_scale k) l) mu w -> exists v, om_val l mu v /\ w = k * v).
  { clear. induction l as [|o l IH]; intros mu w HW; cbn [om_val map]; [intros ->; exists 0; split; [auto|lia]|].
    destruct (HW o (or_introl eq_refl)) as (_ & A2 & _). destruct (mul_const_def k _ _ _ A2) as [_ D2].
    cbn [om_scale o_l o_u o_fn o_i o_j]. intros (x & y & A & B & C & ->). rewrite D2 by auto.
    destruct (IH mu y (fun o Ho => HW o (or_intror Ho)) C) as (v & V1 & ->).
    exists (cost (o_fn o) x + v). split; [exists x, v; auto|lia]. }
  eapply (solution_scale n mus oms); [exact Hk| | |exact S|exact S'].
  - intros v. rewrite !attains_iff. intros (mu & v' & X1 & X2 & ->). exists mu, (k * v'). split; [apply (proj1 (EB mu)); auto|].
    split; [apply EO1; auto|]. rewrite EC by auto. lia.
  - intros w. rewrite attains_iff. intros (mu & v' & X1 & X2 & ->). apply EB in X1. destruct (EO2 _ _ _ O X2) as (v & V1 & ->).
    exists (mu_part n mus mu + v). split; [apply attains_iff; exists mu, v; auto|]. rewrite EC by auto. lia.
Qed.

(** *** Mirror *)
Lemma mirror_attains n mus oms v : attains n mus oms v -> attains n (map mu_mirror mus) (map om_mirror oms) v.
Proof.
  rewrite !attains_iff. intros (mu & v' & X1 & X2 & ->). exists (fun i => - mu i), v'. split; [|split].
  - intros i Hi. destruct (X1 i Hi) as (m & Em & Bm). exists (mu_mirror m). rewrite nth_error_map, Em. split; auto.
    cbn [mu_mirror m_l m_u]. lia.
  - clear X1. revert v' X2. induction oms as [|o oms IH]; intros v'; cbn [om_val map]; auto.
    intros (w & y & A & B & C & ->). exists w, y. cbn [om_mirror o_l o_u o_fn o_i o_j]. split; auto. split; [lia|]. auto.
  - f_equal. unfold mu_part. f_equal. apply map_ext_in. intros i Hi. unfold mu_cost. rewrite nth_error_map.
    destruct (nth_error mus i) as [m|]; cbn [option_map mu_mirror m_fn]; auto. unfold cost. rewrite Z.opp_involutive. auto.
Qed.

Lemma mirror_mirror_attains n mus oms v :
  attains n (map mu_mirror (map mu_mirror mus)) (map om_mirror (map om_mirror oms)) v -> attains n mus oms v.
Proof.
  rewrite !attains_iff. intros (mu & v' & X1 & X2 & ->). exists mu, v'. split; [|split].
  - intros i Hi. destruct (X1 i Hi) as (m & Em & Bm). rewrite !nth_error_map in Em. destruct (nth_error mus i) as [m0|] eqn:E0; [|discriminate].
    cbn [option_map] in Em. injection Em as <-. unfold mu_mirror in Bm. cbn [m_l m_u] in Bm. exists m0. split; auto.
    lia.
  - clear X1. revert v' X2. induction oms as [|o oms IH]; intros v'; cbn [om_val map]; auto.
    intros (w & y & A & B & C & ->). exists w, y. auto.
  - f_equal. unfold mu_part. f_equal. apply map_ext_in. intros i Hi. unfold mu_cost. rewrite !nth_error_map.
    destruct (nth_error mus i) as [m|]; cbn [option_map mu_mirror m_fn]; auto. unfold cost. rewrite Z.opp_involutive. auto.
Qed.

Lemma solve_mirror n mus oms K fuel : admissible n mus oms K -> solver_fuel n (length oms) K <= Z.of_nat fuel ->
  exists r, run_solver fuel (Z.of_nat n) mus oms = Ok r /\
    run_solver fuel (Z.of_nat n) (map mu_mirror mus) (map om_mirror oms) = Ok r.
Proof.
  intros A F. apply (solve_same n mus oms K n _ _ K); auto.
  - destruct A as ((L & M & O) & (BM & BO) & I). split; [|split; auto].
    + split; [rewrite map_length; auto|]. split.
      * intros i m Hi Em. rewrite nth_error_map in Em. destruct (nth_error mus i) as [m0|] eqn:E0; [|discriminate]. inversion Em; subst.
        destruct (M i m0 Hi E0) as (A1 & A2 & A3). unfold mu_wf. cbn [mu_mirror m_l m_u m_fn]. split; [lia|]. split.
        -- intros x Hx. apply A2. lia.
        -- apply (convex_opp _ _ _ A3).
      * intros o Ho. apply in_map_iff in Ho. destruct Ho as (o0 & <- & Ho). destruct (O o0 Ho) as (A1 & A2 & A3 & A4 & A5 & A6).
        unfold om_wf. cbn [om_mirror o_l o_u o_fn o_i o_j]. auto 10.
    + split.
      * intros i m Hi Em. rewrite nth_error_map in Em. destruct (nth_error mus i) as [m0|] eqn:E0; [|discriminate]. inversion Em; subst.
        destruct (BM i m0 Hi E0). cbn [mu_mirror m_l m_u]. lia.
      * intros o Ho. apply in_map_iff in Ho. destruct Ho as (o0 & <- & Ho). apply (BO o0 Ho).
  - rewrite map_length. auto.
  - intros v. split; [apply mirror_attains|]. intros H. apply mirror_attains in H. apply mirror_mirror_attains; auto.
Qed.

(** *** Renaming the nodes *)
Lemma solve_rename n mus mus' oms K fuel (f g : nat -> nat) :
  admissible n mus oms K -> solver_fuel n (length oms) K <= Z.of_nat fuel ->
  (forall i, (1 <= i <= n)%nat -> (1 <= f i <= n)%nat /\ g (f i) = i) ->
  (forall i, (1 <= i <= n)%nat -> (1 <= g i <= n)%nat /\ f (g i) = i) ->
  length mus' = (n + 1)%nat -> (forall i, (1 <= i <= n)%nat -> nth_error mus' (f i) = nth_error mus i) ->
  exists r, run_solver fuel (Z.of_nat n) mus oms = Ok r /\
    run_solver fuel (Z.of_nat n) mus' (map (om_rename f) oms) = Ok r.
Proof.
  intros A F Hf Hg HL HN.
  assert (HN' : forall i, (1 <= i <= n)%nat -> nth_error mus' i = nth_error mus (g i)).
  { intros i Hi. destruct (Hg i Hi) as [G1 G2]. rewrite <- (HN (g i) G1), G2. auto. }
  assert (HP : forall (h : nat -> Z), sumZ (map (fun i => h (g i)) (seq 1 n)) = sumZ (map h (seq 1 n))).
  { intros h. rewrite <- (map_map g h).
    assert (P : Permutation (map g (seq 1 n)) (seq 1 n)).
    { apply NoDup_Permutation_bis.
      - apply NoDup_map_in; [|apply seq_NoDup]. intros x y Hx Hy E. apply in_seq in Hx, Hy.
        destruct (Hg x ltac:(lia)) as [_ Gx]. destruct (Hg y ltac:(lia)) as [_ Gy]. congruence.
      - rewrite map_length. lia.
      - intros x Hx. apply in_map_iff in Hx. destruct Hx as (y & <- & Hy). apply in_seq in Hy. destruct (Hg y ltac:(lia)) as [G _]. apply in_seq. lia. }
    assert (Q := Permutation_map h P). clear - Q. induction Q; cbn [sumZ]; lia. }
  apply (solve_same n mus oms K n mus' (map (om_rename f) oms) K); auto.
  - destruct A as ((L & M & O) & (BM & BO) & I). split; [|split; auto].
    + split; [auto|]. split.
      * intros i m Hi Em. rewrite HN' in Em by auto. apply (M (g i) m); auto. apply Hg; auto.
      * intros o Ho. apply in_map_iff in Ho. destruct Ho as (o0 & <- & Ho). destruct (O o0 Ho) as (A1 & A2 & A3 & A4 & A5 & A6).
        unfold om_wf. cbn [om_rename o_l o_u o_fn o_i o_j]. split; auto. split; auto. split; auto. split; [apply Hf; auto|]. split; [apply Hf; auto|].
        intros E. apply A6. destruct (Hf _ A4) as [_ X]. destruct (Hf _ A5) as [_ Y]. congruence.
    + split.
      * intros i m Hi Em. rewrite HN' in Em by auto. apply (BM (g i) m); auto. apply Hg; auto.
      * intros o Ho. apply in_map_iff in Ho. destruct Ho as (o0 & <- & Ho). apply (BO o0 Ho).
  - rewrite map_length. auto.
  - assert (O : forall o, In o oms -> om_wf n o) by apply A.
    intros v. rewrite !attains_iff. split; intros (mu & v' & X1 & X2 & ->).
    + exists (fun i => mu (g i)), v'. split; [|split].
      * intros i Hi. unfold mu_bound. rewrite HN' by auto. apply X1. apply Hg; auto.
      * clear - X2 O Hf. revert v' X2. induction oms as [|o l IH]; intros v'; cbn [om_val map]; auto.
        destruct (O o (or_introl eq_refl)) as (_ & _ & _ & A4 & A5 & _). destruct (Hf _ A4) as [_ E4]. destruct (Hf _ A5) as [_ E5].
        intros (w & y & A & B & C & ->). exists w, y. cbn [om_rename o_l o_u o_fn o_i o_j]. rewrite E4, E5. split; auto. split; auto. split; auto.
        apply IH; auto. intros; apply O; simpl; auto.
      * f_equal. unfold mu_part. rewrite <- (HP (mu_cost mus mu)). f_equal. apply map_ext_in. intros i Hi. apply in_seq in Hi.
        unfold mu_cost. rewrite HN' by lia. reflexivity.
    + exists (fun i => mu (f i)), v'. split; [|split].
      * intros i Hi. unfold mu_bound. rewrite <- HN by auto. apply X1. apply Hf; auto.
      * clear - X2 O. revert v' X2. induction oms as [|o l IH]; intros v'; cbn [om_val map]; auto.
        cbn [om_rename o_l o_u o_fn o_i o_j]. intros (w & y & A & B & C & ->). exists w, y. split; auto. split; auto. split; auto.
        apply IH; auto. intros; apply O; simpl; auto.
      * f_equal. unfold mu_part. rewrite <- (HP (mu_cost mus (fun i => mu (f i)))). f_equal. apply map_ext_in. intros i Hi. apply in_seq in Hi.
        unfold mu_cost. destruct (Hg i ltac:(lia)) as [_ E]. rewrite E. rewrite HN' by lia. reflexivity.
Qed.

(** *** A limit that is always satisfied *)
Lemma solve_redundant n mus oms o K fuel : admissible n mus (o :: oms) K -> solver_fuel n (length (o :: oms)) K <= Z.of_nat fuel ->
  (forall x, o_l o <= x <= o_u o -> cost (o_fn o) x = 0) ->
  (forall a b, nth_error mus (o_i o) = Some a -> nth_error mus (o_j o) = Some b -> m_u a - m_l b <= o_u o) ->
  exists r, run_solver fuel (Z.of_nat n) mus (o :: oms) = Ok r /\ run_solver fuel (Z.of_nat n) mus oms = Ok r.
Proof.
  intros A F HC HR.
  assert (O : om_wf n o) by (apply A; simpl; auto). destruct O as (O1 & _ & _ & O4 & O5 & _).
  apply (solve_same n mus (o :: oms) K n mus oms K); auto.
  - destruct A as ((L & M & O) & (BM & BO) & I). split; [|split; auto]; split; auto; [split; auto|]; intros; [apply O|apply BO]; simpl; auto.
  - destruct A as (_ & _ & I & _). unfold solver_fuel in *. eapply Z.le_trans; [|exact F]. apply flow_fuel_mono; [lia|]. simpl. lia.
  - intros v. rewrite !attains_iff. split.
    + intros (mu & v' & X1 & (w & y & W1 & W2 & W3 & ->) & ->). rewrite HC by auto. exists mu, y. auto.
    + intros (mu & v' & X1 & X2 & ->). exists mu, v'. split; auto. split; auto. exists (o_u o), v'. rewrite HC by lia.
      split; [lia|]. split; [|split; auto; lia]. destruct (X1 _ O4) as (a & Ea & Ba). destruct (X1 _ O5) as (b & Eb & Bb).
      specialize (HR a b Ea Eb). lia.
Qed.

End Props.
