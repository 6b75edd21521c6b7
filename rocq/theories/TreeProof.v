(** * Any forest will do; plain vectors are a forest *)
From Verif Require Import Base BaseLemmas Data UniqueQueue LCT LCTSpec LCTForest LCTRun ProblemDefine Flow ProblemSolver Spec FlowSpec SolverProof.
From Verif Require Import FlowLog CallSpec CallTotal TreeFlow TreeFollow LCTOps.
Local Open Scope Z_scope.

Theorem tree_min_cost (one : Z) (H : Type) (new : nat -> H) (call : H -> lct_op -> res (H * lct_out)) (fuel n : nat) (M K U : Z) (limits : list (OmegaLimit Z)) :
  implements_forest (n + 1) (new (n + 1)%nat) call ->
  network_wf n M K U limits ->
  flow_iterations n (length limits) K <= Z.of_nat fuel ->
  exists s s' v h,
    @flow_new Z (exact_ops one) fuel n M U limits = Ok s /\
    @min_cost Z (exact_ops one) fuel s = Ok (s', v) /\
    min_cost_t one call fuel (strip s) (new (n + 1)%nat) = Ok (strip s', h, v).
Proof.
  intros I HW HF.
  destruct (total_calls one fuel n M K U limits HW HF) as (s & s' & v & os & outs & f & c & r & E1 & E2 & E3 & E4 & E5 & E6 & _).
  destruct (I os f outs E4) as [h C].
  exists s, s', v, h. split; [exact E1|]. split; [exact E3|]. exact (min_cost_follows one fuel call _ _ _ _ _ _ _ _ E2 E6 C).
Qed.

Theorem tree_solve (one : Z) (H : Type) (new : nat -> H) (call : H -> lct_op -> res (H * lct_out)) (n : nat) mus oms K fuel :
  0 < one -> implements_forest (n + 1) (new (n + 1)%nat) call -> admissible n mus oms K -> solver_fuel n (length oms) K <= Z.of_nat fuel ->
  run_solver_t one call new fuel (Z.of_nat n) mus oms = @run_solver Z (exact_ops one) fuel (Z.of_nat n) mus oms.
Proof.
  intros H1 I HA HF. unfold run_solver_t, run_solver.
  destruct (@solver_new Z (exact_ops one) fuel (Z.of_nat n) mus oms) as [sv|e] eqn:EN; cbn [bind]; [|reflexivity].
  unfold solve_t, solve. destruct (s_n sv =? SIZE_MAX) eqn:ES; [reflexivity|]. apply Z.eqb_neq in ES.
  destruct (@merge_limits Z (exact_ops one) sv) as [[limits|]|] eqn:EM; cbn [bind]; try reflexivity.
  destruct (solve_calls one n mus oms K fuel sv limits H1 HA HF EN ES EM) as (vmax & M & U & s & s' & v & os & outs & f & c & r & E0 & E1 & E2 & E3 & E4 & E5 & E6 & _).
  assert (Sn : s_n sv = Z.of_nat n).
  { unfold solver_new in EN. destruct (negb _); [inversion EN; subst; contradiction|].
    apply bind_inv in EN. destruct EN as (b & _ & EN). destruct (negb b); [inversion EN; subst; contradiction|].
    apply bind_inv in EN. destruct EN as ([l|] & _ & EN); inversion EN; subst; [reflexivity|contradiction]. }
  rewrite Sn, Nat2Z.id. rewrite E0. cbn [bind]. rewrite E1. cbn [bind]. rewrite E3. cbn [bind].
  destruct (I os f outs E4) as [h C]. rewrite (min_cost_follows one fuel call _ _ _ _ _ _ _ _ E2 E6 C). reflexivity.
Qed.

(** ** The link-cut tree *)
Theorem lct_implements (one : Z) (fuel N : nat) : (N < fuel)%nat -> implements_forest N (repeat (@node0 Z (exact_ops one)) N) (lct_call one fuel).
Proof.
  intros Hf os f outs R. destruct (lct_program_ok one N fuel os f outs Hf R) as (h & E & _). exists h.
  assert (X : forall l g, tree_calls (lct_call one fuel) g l = lct_calls one fuel g l).
  { induction l as [|op l IH]; intro g; cbn [tree_calls lct_calls]; [reflexivity|].
    destruct (lct_call one fuel g op) as [[g1 o]|]; cbn [bind]; [|reflexivity]. rewrite IH. reflexivity. }
  rewrite X. exact E.
Qed.

(** ** Plain vectors *)
Definition pl (N : nat) (h : plain) (f : forest) : Prop :=
  length h = N /\ forall x, (x < N)%nat -> nth_error h x = Some (parent f x, value f x).

Lemma pl_get N h f x : pl N h f -> (x < N)%nat -> vget h x = Ok (parent f x, value f x).
Proof. intros [_ P] Hx. apply vget_ok. exact (P x Hx). Qed.

Lemma pl_set N h f f' x : pl N h f -> (x < N)%nat -> (forall y, y <> x -> parent f' y = parent f y /\ value f' y = value f y) ->
  exists h', vset h x (parent f' x, value f' x) = Ok h' /\ pl N h' f'.
Proof.
  intros [L P] Hx E. exists (upd h x (parent f' x, value f' x)). split; [apply vset_ok; lia|]. split; [rewrite upd_length; exact L|].
  intros y Hy. destruct (Nat.eq_dec y x) as [->|Hn].
  - apply nth_error_upd_eq. lia.
  - rewrite nth_error_upd_neq by congruence. rewrite (P y Hy). destruct (E y Hn) as [-> ->]. reflexivity.
Qed.

Lemma way_ok N h f : pl N h f -> forall x l, path (parent f) x l -> (forall y, In y l -> (y < N)%nat) ->
  forall k, (length l <= k)%nat -> plain_way k h x = Ok l.
Proof.
  intros P x l HP. induction HP as [x Hr|x y l Hp HP IH]; intros HN [|k] Hk; cbn [length] in Hk; try lia; cbn [plain_way].
  - rewrite (pl_get N h f x P) by (apply HN; left; reflexivity). cbn [bind]. rewrite Hr. reflexivity.
  - rewrite (pl_get N h f x P) by (apply HN; left; reflexivity). cbn [bind]. rewrite Hp.
    rewrite IH; [reflexivity| |lia]. intros z Hz. apply HN. right. exact Hz.
Qed.

Lemma add_ok N d l : forall h f, pl N h f -> NoDup l -> (forall y, In y l -> (y < N)%nat) ->
  exists h', for_each l h (fun h y => plain_add h y d) = Ok h' /\ pl N h' (mkForest (parent f) (add_values (value f) l d)).
Proof.
  induction l as [|x l IH]; intros h f P HD HN; cbn [for_each].
  - exists h. split; [reflexivity|]. exact P.
  - inversion HD as [|? ? Hx HD']; subst. assert (Hx' : (x < N)%nat) by (apply HN; left; reflexivity).
    unfold plain_add at 1. rewrite (pl_get N h f x P Hx'). cbn [bind].
    destruct (pl_set N h f (mkForest (parent f) (set_value (value f) x (value f x + d))) x P Hx') as (h1 & E1 & P1).
    { intros y Hy. cbn [parent value]. unfold set_value. destruct (Nat.eqb_spec y x); [contradiction|]. auto. }
    cbn [parent value] in E1. unfold set_value at 1 in E1. rewrite Nat.eqb_refl in E1. rewrite E1. cbn [bind].
    destruct (IH h1 _ P1 HD') as (h2 & E2 & L2 & P2); [intros y Hy; apply HN; right; exact Hy|].
    exists h2. split; [exact E2|]. split; [exact L2|]. intros y Hy. rewrite (P2 y Hy). cbn [parent value]. f_equal. f_equal.
    unfold add_values, set_value. cbn [existsb]. destruct (Nat.eqb_spec y x) as [->|Hn]; cbn [orb]; [|reflexivity].
    destruct (existsb (Nat.eqb x) l) eqn:Ex; [|reflexivity]. exfalso. apply existsb_exists in Ex. destruct Ex as (z & Hz & Ez). apply Nat.eqb_eq in Ez. subst z. exact (Hx Hz).
Qed.

Lemma min_above N h f v y : pl N h f -> forall l, (forall z, In z l -> (z < N)%nat /\ v < value f z) -> plain_min h l (v, y) = Ok (v, y).
Proof.
  intros P l. unfold plain_min. induction l as [|x l IH]; intros Hl; cbn [for_each]; [reflexivity|].
  destruct (Hl x (or_introl eq_refl)) as [Hx Hv]. rewrite (pl_get N h f x P Hx). cbn [bind fst].
  replace (value f x <=? v) with false by (symmetry; apply Z.leb_gt; exact Hv). apply IH. intros z Hz. apply Hl. right. exact Hz.
Qed.

Lemma min_ok N h f y above : pl N h f -> (y < N)%nat -> (forall z, In z above -> (z < N)%nat /\ value f y < value f z) ->
  forall below best, (forall z, In z below -> (z < N)%nat /\ value f y <= value f z) -> value f y <= fst best ->
  plain_min h (below ++ y :: above) best = Ok (value f y, y).
Proof.
  intros P Hy Ha. induction below as [|x l IH]; intros best Hb Hv.
  - cbn [app]. unfold plain_min. cbn [for_each]. rewrite (pl_get N h f y P Hy). cbn [bind].
    replace (value f y <=? fst best) with true by (symmetry; apply Z.leb_le; exact Hv). exact (min_above N h f _ _ P above Ha).
  - cbn [app]. unfold plain_min. cbn [for_each]. destruct (Hb x (or_introl eq_refl)) as [Hx Hxv]. rewrite (pl_get N h f x P Hx). cbn [bind].
    apply IH; [intros z Hz; apply Hb; right; exact Hz|]. destruct (value f x <=? fst best); cbn [fst]; assumption.
Qed.

Lemma plain_step N h f op f' o : pl N h f -> wf N (parent f) -> lct_step N f op f' o -> exists h', plain_call h op = Ok (h', o) /\ pl N h' f'.
Proof.
  intros P W HS. pose proof (proj1 P) as L.
  assert (WAY : forall x l, (x < N)%nat -> path (parent f) x l -> plain_way (length h) h x = Ok l).
  { intros x l Hx HP. apply (way_ok N h f P x l HP); [exact (path_lt N _ x l W Hx HP)|]. rewrite L. exact (path_length N _ x l W Hx HP). }
  destruct HS as [f x l r Hx HP|f x y ly Hx Hy Hr HP Hn|f x y Hx Hp|f x Hx|f x r below y above Hx HP H1 H2|f x v Hx|f x l d Hx HP]; cbn [plain_call].
  - rewrite (WAY x _ Hx HP). cbn [bind]. rewrite last_last. eauto.
  - rewrite (pl_get N h f x P Hx). cbn [bind].
    destruct (pl_set N h f (mkForest (set_parent (parent f) x (Some y)) (value f)) x P Hx) as (h1 & E1 & P1).
    { intros z Hz. cbn [parent value]. unfold set_parent. destruct (Nat.eqb_spec z x); [contradiction|]. auto. }
    cbn [parent value] in E1. unfold set_parent in E1 at 1. rewrite Nat.eqb_refl in E1. rewrite E1. cbn [bind]. eauto.
  - rewrite (pl_get N h f x P Hx). cbn [bind].
    destruct (pl_set N h f (mkForest (set_parent (parent f) x None) (value f)) x P Hx) as (h1 & E1 & P1).
    { intros z Hz. cbn [parent value]. unfold set_parent. destruct (Nat.eqb_spec z x); [contradiction|]. auto. }
    cbn [parent value] in E1. unfold set_parent in E1 at 1. rewrite Nat.eqb_refl in E1. rewrite E1. cbn [bind]. eauto.
  - rewrite (pl_get N h f x P Hx). cbn [bind]. eauto.
  - rewrite (WAY x _ Hx HP). cbn [bind]. rewrite (pl_get N h f x P Hx). cbn [bind]. rewrite removelast_last.
    assert (LT := path_lt N _ x _ W Hx HP).
    rewrite (min_ok N h f y above P).
    + cbn [bind]. eauto.
    + apply LT. apply in_or_app. left. apply in_or_app. right. left. reflexivity.
    + intros z Hz. split; [|exact (H2 z Hz)]. apply LT. apply in_or_app. left. apply in_or_app. right. right. exact Hz.
    + intros z Hz. split; [|exact (H1 z Hz)]. apply LT. apply in_or_app. left. apply in_or_app. left. exact Hz.
    + cbn [fst]. destruct (path_hd _ _ _ HP) as [l' El]. destruct below as [|b below]; cbn [app] in El; inversion El; subst.
      * lia.
      * apply H1. left. reflexivity.
  - rewrite (pl_get N h f x P Hx). cbn [bind].
    destruct (pl_set N h f (mkForest (parent f) (set_value (value f) x v)) x P Hx) as (h1 & E1 & P1).
    { intros z Hz. cbn [parent value]. unfold set_value. destruct (Nat.eqb_spec z x); [contradiction|]. auto. }
    cbn [parent value] in E1. unfold set_value in E1 at 1. rewrite Nat.eqb_refl in E1. rewrite E1. cbn [bind]. eauto.
  - rewrite (WAY x _ Hx HP). cbn [bind].
    destruct (add_ok N d l h f P (path_nodup _ _ _ HP) (path_lt N _ x _ W Hx HP)) as (h1 & E1 & P1). rewrite E1. cbn [bind]. eauto.
Qed.

Theorem plain_implements (N : nat) : implements_forest N (plain_new N) plain_call.
Proof.
  intros os f outs R.
  assert (G : forall f0 os f outs, lct_run N f0 os f outs -> forall h g, pl N h f0 -> length g = N -> Rep g (parent f0) (value f0) ->
    exists h', tree_calls plain_call h os = Ok (h', outs)).
  { clear. intros f0 os f outs R. induction R as [f|f op f1 o os f2 outs HS R IH]; intros h g P Lg Rg; cbn [tree_calls]; [eauto|].
    assert (W : wf N (parent f)) by (rewrite <- Lg; exact (proj2 Rg)).
    destruct (plain_step N h f op f1 o P W HS) as (h1 & E1 & P1).
    destruct (lct_call_ok 1 N (S N) g f op f1 o ltac:(lia) Lg Rg HS) as (g1 & _ & Lg1 & Rg1).
    rewrite E1. cbn [bind]. destruct (IH h1 g1 P1 Lg1 Rg1) as [h2 E2]. rewrite E2. cbn [bind]. eauto. }
  apply (G forest0 os f outs R (plain_new N) (repeat (@node0 Z (exact_ops 1)) N)).
  - split; [apply repeat_length|]. intros x Hx. unfold plain_new. rewrite nth_error_repeat by exact Hx. reflexivity.
  - apply repeat_length.
  - apply (rep_init 1 N).
Qed.
