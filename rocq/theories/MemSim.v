(** * Cost functions with a memory that answer like cost functions without *)
From Verif Require Import Base BaseLemmas Data UniqueQueue LCT ProblemDefine Flow ProblemSolver Throw Spec SolverProof SolverProps MemRun MemSpec.
Local Open Scope Z_scope.

Section Sim.
Context {St D : Type} {ops : DataOps D}.
Variable ord : nat -> bool.
Variable inv : St -> Prop.
Notation act := (mem St D).

(** if the computation without state succeeds, so does the one with *)
Definition rr {A B} (R : A -> B -> Prop) (m : res A) (m' : res B) : Prop := forall b, m' = Ok b -> exists a, m = Ok a /\ R a b.
Definition msim {A B} (R : A -> B -> Prop) (m : mem St A) (m' : res B) : Prop :=
  forall b, m' = Ok b -> forall s, inv s -> exists a s', m s = Ok (a, s') /\ R a b /\ inv s'.

Lemma rr_ok {A B} (R : A -> B -> Prop) a b : R a b -> rr R (Ok a) (Ok b).
Proof. intros H c E. inversion E; subst. eauto. Qed.
Lemma rr_err {A B} (R : A -> B -> Prop) m e : rr R m (Err e).
Proof. intros b E. discriminate. Qed.
Lemma rr_refl {A} (R : A -> A -> Prop) m : (forall a, R a a) -> rr R m m.
Proof. intros H b E. eauto. Qed.
Lemma rr_bind {A B A' B'} (R : A -> A' -> Prop) (Q : B -> B' -> Prop) m m' k k' :
  rr R m m' -> (forall a b, R a b -> rr Q (k a) (k' b)) -> rr Q (bind m k) (bind m' k').
Proof. intros H HK c E. apply bind_inv in E. destruct E as (b & E1 & E2). destruct (H _ E1) as (a & -> & HR). exact (HK _ _ HR _ E2). Qed.
Lemma rr_same {A B B'} (Q : B -> B' -> Prop) (m : res A) k k' : (forall a, rr Q (k a) (k' a)) -> rr Q (bind m k) (bind m k').
Proof. intro H. apply (rr_bind eq); [apply rr_refl; reflexivity|]. intros a ? <-. apply H. Qed.
Lemma rr_for_each {X A B} (R : A -> B -> Prop) body body' (l : list X) :
  (forall a b x, R a b -> rr R (body a x) (body' b x)) -> forall a b, R a b -> rr R (for_each l a body) (for_each l b body').
Proof. intro H. induction l as [|x l IH]; intros a b HR; cbn [for_each]; [apply rr_ok; exact HR|]. eapply rr_bind; [apply H; exact HR|exact IH]. Qed.
Lemma vget_rr {A B} (R : A -> B -> Prop) l l' i : Forall2 R l l' -> rr R (vget l i) (vget l' i).
Proof. intro H. revert i. induction H as [|a b l l' HR H IH]; intro i; [destruct i; apply rr_err|]. destruct i as [|i]; [apply rr_ok; exact HR|]. exact (IH i). Qed.
Lemma vset_rr {A B} (R : A -> B -> Prop) l l' i a b : Forall2 R l l' -> R a b -> rr (Forall2 R) (vset l i a) (vset l' i b).
Proof. intros H HR. unfold vset. rewrite (forall2_len _ _ _ H). destruct (i <? length l')%nat; [apply rr_ok, upd_forall2; auto|apply rr_err]. Qed.

Lemma msim_still {A B} (R : A -> B -> Prop) m m' : rr R m m' -> msim R (still m) m'.
Proof. intros H b E s Hs. destruct (H b E) as (a & -> & HR). exists a, s. auto. Qed.
Lemma msim_ok {A B} (R : A -> B -> Prop) a b : R a b -> msim R (still (Ok a)) (Ok b).
Proof. intro H. apply msim_still, rr_ok, H. Qed.
Lemma msim_err {A B} (R : A -> B -> Prop) m e : msim R m (Err e).
Proof. intros b E. discriminate. Qed.
Lemma msim_bind {A B A' B'} (R : A -> A' -> Prop) (Q : B -> B' -> Prop) m m' k k' :
  msim R m m' -> (forall a b, R a b -> msim Q (k a) (k' b)) -> msim Q (mbind m k) (bind m' k').
Proof.
  intros H HK c E s Hs. apply bind_inv in E. destruct E as (b & E1 & E2). destruct (H _ E1 s Hs) as (a & s1 & Em & HR & Hs1).
  unfold mbind. rewrite Em. exact (HK _ _ HR _ E2 s1 Hs1).
Qed.
Lemma msim_rel {A B A' B'} (R : A -> A' -> Prop) (Q : B -> B' -> Prop) m m' k k' :
  rr R m m' -> (forall a b, R a b -> msim Q (k a) (k' b)) -> msim Q (mbind (still m) k) (bind m' k').
Proof. intros H HK. eapply msim_bind; [apply msim_still; exact H|exact HK]. Qed.
Lemma msim_same {A B B'} (Q : B -> B' -> Prop) (m : res A) k k' : (forall a, msim Q (k a) (k' a)) -> msim Q (mbind (still m) k) (bind m k').
Proof. intro H. apply (msim_rel eq); [apply rr_refl; reflexivity|]. intros a ? <-. apply H. Qed.
Lemma msim_eq {A B B'} (Q : B -> B' -> Prop) (m : mem St A) m' k k' : msim eq m m' -> (forall a, msim Q (k a) (k' a)) -> msim Q (mbind m k) (bind m' k').
Proof. intros Hm H. apply (msim_bind eq); [exact Hm|]. intros a ? <-. apply H. Qed.
(** something that is computed before or once more *)
Lemma msim_more {A B B'} (Q : B -> B' -> Prop) (m : mem St A) m' a k c : msim eq m m' -> m' = Ok a -> msim Q (k a) c -> msim Q (mbind m k) c.
Proof.
  intros H Em HK b E s Hs. destruct (H a Em s Hs) as (x & s1 & E1 & -> & Hs1). unfold mbind. rewrite E1. exact (HK b E s1 Hs1).
Qed.
Lemma two_sim {A B} site (m : mem St A) (m' : mem St B) p p' a b : msim eq m p -> msim eq m' p' -> p = Ok a -> p' = Ok b -> msim eq (two ord site m m') (Ok (a, b)).
Proof.
  intros H H' E E'. unfold two. destruct (ord site).
  - apply (msim_more eq _ _ a _ _ H E). apply (msim_more eq _ _ b _ _ H' E'). apply msim_ok. reflexivity.
  - apply (msim_more eq _ _ b _ _ H' E'). apply (msim_more eq _ _ a _ _ H E). apply msim_ok. reflexivity.
Qed.
Lemma msim_case {A B X} (Q : A -> B -> Prop) m (p : res X) k : (forall a, p = Ok a -> msim Q m (k a)) -> msim Q m (bind p k).
Proof. intros H b E. apply bind_inv in E. destruct E as (a & E1 & E2). exact (H a E1 b E2). Qed.
Lemma msim_for_each2 {X Y A B} (C : X -> Y -> Prop) (R : A -> B -> Prop) body body' l l' : Forall2 C l l' ->
  (forall a b x y, C x y -> R a b -> msim R (body a x) (body' b y)) -> forall a b, R a b -> msim R (for_each_m l a body) (for_each l' b body').
Proof.
  intros HC H. induction HC as [|x y l l' Hxy HC IH]; intros a b HR; cbn [for_each_m for_each]; [apply msim_ok; exact HR|]. eapply msim_bind; [apply H; eauto|exact IH].
Qed.
Lemma msim_for_each {X A B} (R : A -> B -> Prop) body body' (l : list X) :
  (forall a b x, R a b -> msim R (body a x) (body' b x)) -> forall a b, R a b -> msim R (for_each_m l a body) (for_each l b body').
Proof. intros H. apply (msim_for_each2 eq); [|intros a b x ? <-; apply H]. induction l; constructor; auto. Qed.

Definition fnE (f : Fn act) (f' : Fn D) : Prop := forall x, msim eq (use (f x)) (f' x).
Inductive limE : OmegaLimit act -> OmegaLimit D -> Prop :=
| limE_i l u f f' i j : fnE f f' -> limE (mkOm l u f i j) (mkOm l u f' i j).
Inductive muE : MuLimit act -> MuLimit D -> Prop :=
| muE_i l u f f' : fnE f f' -> muE (mkMu l u f) (mkMu l u f').

Lemma partition_point_msim fuel : forall l r p p', (forall x, msim eq (p x) (p' x)) -> msim eq (partition_point_m fuel l r p) (partition_point fuel l r p').
Proof.
  induction fuel as [|fuel IH]; intros l r p p' H; cbn [partition_point_m partition_point]; [apply msim_err|]. destruct (l =? r); [apply msim_ok; reflexivity|].
  apply msim_same; intro d. apply msim_same; intro mid. apply msim_eq; [apply H|]. intros [|]; [apply msim_same; intro|]; apply IH; exact H.
Qed.
Lemma decreasing_msim f f' : fnE f f' -> forall x, msim eq (decreasing_at_m ord f x) (decreasing_at f' x).
Proof.
  intros H x. unfold decreasing_at_m, decreasing_at. apply msim_case; intros a Ea. apply msim_same; intro x1. apply msim_case; intros b Eb.
  apply (msim_more eq _ _ (a, b) _ _ (two_sim 0 _ _ _ _ a b (H x) (H x1) Ea Eb) eq_refl). apply msim_ok. reflexivity.
Qed.
Lemma pre_processing_msim fuel o o' : limE o o' -> msim limE (pre_processing_m ord fuel o) (pre_processing fuel o').
Proof.
  intros [l u f f' i j H]. unfold pre_processing_m, pre_processing. cbn [o_l o_u o_fn o_i o_j]. apply msim_eq; [apply partition_point_msim, decreasing_msim; exact H|].
  intro p. apply msim_ok. constructor. intro x. apply H.
Qed.
Lemma limit_min_msim fuel o o' : limE o o' -> msim eq (limit_min_m ord fuel o) (limit_min fuel o').
Proof.
  intros [l u f f' i j H]. unfold limit_min_m, limit_min. cbn [o_l o_u o_fn]. apply msim_eq; [apply partition_point_msim, decreasing_msim; exact H|]. intro p. apply H.
Qed.
Lemma reverse_rr o o' : limE o o' -> rr limE (reverse o) (reverse o').
Proof.
  intros [l u f f' i j H]. unfold reverse. cbn [o_l o_u o_fn o_i o_j]. apply rr_same; intro l'. apply rr_same; intro u'. apply rr_ok. constructor.
  intro x. destruct (ck (- x)); cbn [bind]; [apply H|apply msim_err].
Qed.
Definition pairE (a : OmegaLimit act * bool) (b : OmegaLimit D * bool) : Prop := limE (fst a) (fst b) /\ snd a = snd b.
Lemma merge_rr o o' p p' : limE o o' -> limE p p' -> rr pairE (merge_m ord o p) (merge o' p').
Proof.
  intros [l u f f' i j H] [l2 u2 g g' i2 j2 H2]. unfold merge_m, merge. cbn [o_l o_u o_fn o_i o_j]. apply rr_same; intro. apply rr_same; intro. apply rr_ok.
  split; [|reflexivity]. constructor. intro x. apply msim_case; intros y Ey. apply msim_case; intros z Ez.
  apply (msim_more eq _ _ (y, z) _ _ (two_sim 1 _ _ _ _ y z (H x) (H2 x) Ey Ez) eq_refl). apply msim_ok. reflexivity.
Qed.

Inductive solverE : solver act -> solver D -> Prop :=
| solverE_i n mus mus' oms oms' : Forall2 muE mus mus' -> Forall2 limE oms oms' -> solverE (mkSolver n mus oms) (mkSolver n mus' oms').
Lemma invalidE : solverE invalid invalid.
Proof. constructor; constructor. Qed.
Lemma check_mus_rr mus mus' n : Forall2 muE mus mus' -> forall fuel i, rr eq (check_mus fuel n mus i) (check_mus fuel n mus' i).
Proof.
  intros H. induction fuel as [|fuel IH]; intro i; cbn [check_mus]; destruct (n <? Z.of_nat i); try (apply rr_refl; reflexivity).
  apply (rr_bind muE); [apply vget_rr; exact H|]. intros m m' [l u f f' _]. cbn [m_l m_u]. destruct (l <=? u); [apply IH|apply rr_refl; reflexivity].
Qed.
Lemma check_omega_msim mus mus' n fuel o o' : Forall2 muE mus mus' -> limE o o' -> msim (optT limE) (check_omega_m ord fuel n mus o) (check_omega fuel n mus' o').
Proof.
  intros H HO. assert (HP := pre_processing_msim fuel o o' HO). destruct HO as [l u f f' i j Hf]. unfold check_omega_m, check_omega. cbn [o_l o_u o_fn o_i o_j].
  destruct (negb ((1 <=? Z.of_nat i) && (Z.of_nat i <=? n))); [apply msim_ok; exact I|]. destruct (negb ((1 <=? Z.of_nat j) && (Z.of_nat j <=? n))); [apply msim_ok; exact I|].
  destruct (Nat.eqb i j); [apply msim_ok; exact I|]. destruct (negb (l <=? u)); [apply msim_ok; exact I|].
  apply (msim_bind limE); [exact HP|]. clear - H. intros o o' [l u f f' i j Hf]. cbn [o_l o_u o_fn o_i o_j]. apply msim_still.
  apply (rr_bind muE); [apply vget_rr; exact H|]. intros a a' [la ua fa fa' _]. apply (rr_bind muE); [apply vget_rr; exact H|]. intros b b' [lb ub fb fb' _].
  cbn [m_l m_u]. apply rr_same; intro l0. destruct (l0 <=? u); apply rr_ok; [constructor; exact Hf|exact I].
Qed.
Lemma check_omegas_msim mus mus' n fuel oms oms' : Forall2 muE mus mus' -> Forall2 limE oms oms' ->
  msim (optT (Forall2 limE)) (check_omegas_m ord fuel n mus oms) (check_omegas fuel n mus' oms').
Proof.
  intros H HO. induction HO as [|o o' oms oms' HL HO IH]; cbn [check_omegas_m check_omegas]; [apply msim_ok; constructor|].
  apply (msim_bind (optT limE)); [apply check_omega_msim; auto|]. intros [a|] [b|] Hab; try contradiction; [|apply msim_ok; exact I].
  apply (msim_bind (optT (Forall2 limE))); [exact IH|]. intros [x|] [y|] Hxy; try contradiction; apply msim_ok; [constructor; auto|exact I].
Qed.
Lemma solver_new_msim n fuel mus mus' oms oms' : Forall2 muE mus mus' -> Forall2 limE oms oms' -> msim solverE (solver_new_m ord fuel n mus oms) (solver_new fuel n mus' oms').
Proof.
  intros H HO. unfold solver_new_m, solver_new. rewrite (forall2_len _ _ _ H). destruct (negb _); [apply msim_ok, invalidE|].
  apply (msim_rel eq); [apply check_mus_rr; exact H|]. intros b ? <-. destruct b; [|apply msim_ok, invalidE]. cbn [negb].
  apply (msim_bind (optT (Forall2 limE))); [apply check_omegas_msim; auto|]. intros [x|] [y|] Hxy; try contradiction; apply msim_ok; [constructor; auto|apply invalidE].
Qed.

Definition entryE (a : nat * nat * OmegaLimit act) (b : nat * nat * OmegaLimit D) : Prop := fst a = fst b /\ limE (snd a) (snd b).
Lemma map_find_E m m' k : Forall2 entryE m m' -> optT limE (map_find m k) (map_find m' k).
Proof.
  induction 1 as [|[k1 v1] [k2 v2] m m' [E1 E2] H IH]; cbn [map_find]; [exact I|]. cbn [fst snd] in *. subst k2. destruct (key_eqb k1 k); [exact E2|exact IH].
Qed.
Lemma map_set_E m m' k v v' : Forall2 entryE m m' -> limE v v' -> Forall2 entryE (map_set m k v) (map_set m' k v').
Proof.
  intros H HV. induction H as [|[k1 v1] [k2 v2] m m' [E1 E2] H IH]; cbn [map_set]; [repeat constructor; exact HV|]. cbn [fst snd] in *. subst k2.
  destruct (key_eqb k1 k); [constructor; [split; auto|exact H]|]. destruct (key_ltb k k1); [|constructor; [split; auto|exact IH]].
  constructor; [split; auto|]. constructor; [split; auto|exact H].
Qed.
Lemma merge_loop_rr oms oms' : Forall2 limE oms oms' -> forall m m', Forall2 entryE m m' -> rr (optT (Forall2 entryE)) (merge_loop_m ord oms m) (merge_loop oms' m').
Proof.
  induction 1 as [|o o' oms oms' HL H IH]; intros m m' HM; cbn [merge_loop_m merge_loop]; [apply rr_ok; exact HM|].
  apply (rr_bind limE).
  { assert (E : o_i o' = o_i o /\ o_j o' = o_j o) by (destruct HL; auto). destruct E as [-> ->]. destruct (o_i o <? o_j o)%nat; [apply reverse_rr; exact HL|apply rr_ok; exact HL]. }
  clear o o' HL. intros o o' HL. assert (E : o_i o' = o_i o /\ o_j o' = o_j o) by (destruct HL; auto). destruct E as [-> ->].
  assert (HF := map_find_E m m' (o_i o, o_j o) HM). destruct (map_find m (o_i o, o_j o)) as [a|], (map_find m' (o_i o, o_j o)) as [b|]; try contradiction.
  - apply (rr_bind pairE); [apply merge_rr; [exact HF|exact HL]|]. intros [a1 e1] [b1 e2] [Hab Ee]. cbn [fst snd] in *. subst e2.
    destruct e1; [apply rr_ok; exact I|]. apply IH, map_set_E; auto.
  - apply IH, map_set_E; auto.
Qed.
Lemma map_snd_E m m' : Forall2 entryE m m' -> Forall2 limE (map snd m) (map snd m').
Proof. induction 1 as [|a b m m' [_ H1] H IH]; cbn [map]; constructor; auto. Qed.
Lemma merge_limits_rr s s' : solverE s s' -> rr (optT (Forall2 limE)) (merge_limits_m ord s) (merge_limits s').
Proof.
  intros [n mus mus' oms oms' HM HO]. unfold merge_limits_m, merge_limits. cbn [s_n s_mus s_oms]. apply (rr_bind (optT (Forall2 entryE))); [apply merge_loop_rr; [exact HO|constructor]|].
  intros [m|] [m'|] Hm; try contradiction; [|apply rr_ok; exact I]. apply (rr_bind (Forall2 limE)).
  - apply rr_for_each; [|constructor]. intros a b i Hab. apply (rr_bind muE); [apply vget_rr; exact HM|]. intros x x' [l u f f' Hf]. apply rr_ok.
    apply Forall2_app; [exact Hab|]. constructor; [constructor; exact Hf|constructor].
  - intros a b Hab. apply rr_ok. apply Forall2_app; [apply map_snd_E; exact Hm|exact Hab].
Qed.

Lemma calc_msim fuel ls ls' : Forall2 limE ls ls' -> msim eq (calc_m ord fuel ls) (calc fuel ls').
Proof.
  intro H. unfold calc_m, calc. apply (msim_for_each2 limE); [exact H| |reflexivity]. intros [[vm M] U] ? o o' HL <-. assert (HM := limit_min_msim fuel o o' HL).
  destruct HL as [l u f f' i j Hf]. cbn [o_l o_u o_fn] in *. apply msim_case; intros a Ea. apply msim_case; intros b Eb. apply msim_case; intros mi Em. apply msim_case; intros d Ed.
  assert (H2 := fun k => two_sim k _ _ _ _ a b (Hf l) (Hf u) Ea Eb).
  apply (msim_more eq _ _ (a, b) _ _ (H2 3%nat) eq_refl). apply (msim_more eq _ _ ((a, b), mi) _ _ (two_sim 4 _ _ _ _ _ _ (H2 5%nat) HM eq_refl Em) eq_refl).
  unfold mbind, still. rewrite Ed. cbn [fst snd]. apply msim_ok. reflexivity.
Qed.

(** ** Flow *)
Ltac fld := cbn [f_n f_M f_eps f_nodes f_imb f_cur f_uq f_fa f_edges f_flows f_G f_scal with_eps with_nodes with_imb with_cur with_uq with_fa with_edges with_flows with_scal].

Lemma double_edges_rr k : forall E E', Forall2 limE E E' -> rr (Forall2 limE) (double_edges k E) (double_edges k E').
Proof.
  induction k as [|k IH]; intros E E' H; cbn [double_edges]; [apply rr_ok; exact H|]. apply (rr_bind limE); [apply vget_rr; exact H|]. intros e e' He.
  apply (rr_bind (Forall2 limE)); [apply vset_rr; auto|]. intros E1 E1' H1. apply (rr_bind (Forall2 limE)); [apply vset_rr; auto|]. intros E2 E2' H2.
  apply (rr_bind limE); [apply reverse_rr; exact He|]. intros r r' Hr. apply (rr_bind (Forall2 limE)); [apply vset_rr; auto|]. intros E3 E3' H3. apply IH. exact H3.
Qed.
Lemma build_G_rr E E' G : Forall2 limE E E' -> rr eq (build_G E G) (build_G E' G).
Proof.
  intro H. unfold build_G. rewrite (forall2_len _ _ _ H). apply rr_for_each; [|reflexivity]. intros g ? x <-. apply (rr_bind limE); [apply vget_rr; exact H|].
  intros e e' [l u f f' i j _]. cbn [o_i]. apply rr_same; intro y. apply rr_refl. reflexivity.
Qed.
Lemma repeat_E n : Forall2 limE (repeat OmegaLimit0 n) (repeat OmegaLimit0 n).
Proof. induction n; cbn [repeat]; constructor; [|assumption]. constructor. intro x. apply msim_err. Qed.

Inductive stE (E : list (OmegaLimit D)) : flow D -> flow D -> Prop :=
| stE_i n M eps nd imb cur uq fa fl G sc : stE E (mkFlow n M eps nd imb cur uq fa [] fl G sc) (mkFlow n M eps nd imb cur uq fa E fl G sc).
Lemma flow_new_rr fuel n M U ls ls' : Forall2 limE ls ls' ->
  rr (fun f s => Forall2 limE (fst f) (f_edges s) /\ stE (f_edges s) (snd f) s) (flow_new_m fuel n M U ls) (flow_new fuel n M U ls').
Proof.
  intro H. unfold flow_new_m, flow_new. apply rr_same; intro eps. apply rr_same; intro. rewrite (forall2_len _ _ _ H). apply (rr_bind (Forall2 limE)).
  { apply double_edges_rr. apply Forall2_app; [exact H|apply repeat_E]. }
  intros E E' HE. apply (rr_bind eq); [apply build_G_rr; exact HE|]. intros G ? <-. apply rr_ok. rewrite (forall2_len _ _ _ HE). cbn [fst snd f_edges]. split; [exact HE|constructor].
Qed.

Section Edges.
Variable es : list (OmegaLimit act).
Variable E : list (OmegaLimit D).
Hypothesis HE : Forall2 limE es E.
Notation st := (stE E).
Ltac dst HS := destruct HS as [n M eps nd imb cur uq fa fl G sc].

Lemma q_msim s0 s e : st s0 s -> msim eq (q_m ord es s0 e) (q s e).
Proof.
  intros HS; dst HS. unfold q_m, q. fld. apply (msim_rel limE); [apply vget_rr; exact HE|]. intros o o' [l u f f' i j Hf]. cbn [o_l o_u o_fn o_i o_j].
  do 6 (apply msim_same; intro). destruct (u <? _); [apply msim_ok; reflexivity|]. destruct (_ <? l); [apply msim_ok; reflexivity|].
  apply msim_case; intros y Ey. apply msim_case; intros z Ez. apply (msim_more eq _ _ (y, z) _ _ (two_sim 2 _ _ _ _ y z (Hf _) (Hf _) Ey Ez) eq_refl). apply msim_ok. reflexivity.
Qed.
Lemma add_flow_rr s0 s e x : st s0 s -> rr st (add_flow_of_edge s0 e x) (add_flow_of_edge s e x).
Proof. intros HS; dst HS. unfold add_flow_of_edge. fld. do 4 (apply rr_same; intro). apply rr_ok. constructor. Qed.
Lemma link_msim fuel s0 s p : st s0 s -> msim st (link_m ord es fuel s0 p) (link fuel s p).
Proof.
  intros HS; dst HS. unfold link_m, link. fld. do 3 (apply msim_same; intro). apply (msim_rel limE); [apply vget_rr; exact HE|].
  intros o o' [l u f f' i j Hf]. cbn [o_j]. apply msim_same; intro fa'. cbv zeta. fld. apply msim_eq; [apply q_msim; constructor|]. intro v. do 3 (apply msim_same; intro). apply msim_ok. constructor.
Qed.
Lemma flow_cut_msim fuel s0 s p : st s0 s -> msim st (flow_cut_m ord es fuel s0 p) (flow_cut fuel s p).
Proof.
  intros HS; dst HS. unfold flow_cut_m, flow_cut. fld. do 5 (apply msim_same; intro). apply msim_eq; [apply q_msim; constructor|]. intro v.
  apply msim_same; intros [h y]. apply msim_still, add_flow_rr. constructor.
Qed.
Lemma send_push_msim fuel s0 s p r x : st s0 s -> msim st (send_push_m fuel s0 p r x) (send_push fuel s p r x).
Proof.
  intros HS; dst HS. unfold send_push_m, send_push. fld. apply msim_same; intro h. cbv zeta. fld. apply msim_still. do 5 (apply rr_same; intro).
  destruct (dlt _ _); [apply rr_same; intro|]; apply rr_ok; constructor.
Qed.
Lemma send_loop_msim fuel0 fuel : forall s0 s p r, st s0 s -> msim st (send_loop_m ord es fuel0 fuel s0 p r) (send_loop fuel0 fuel s p r).
Proof.
  induction fuel as [|fuel IH]; intros s0 s p r HS; cbn [send_loop_m send_loop]; destruct (Nat.eqb p r); try (apply msim_ok; exact HS); [apply msim_err|].
  dst HS. fld. apply msim_same; intros [h m]. fld. apply msim_same; intro a.
  destruct (dlt a (fst m)); [apply send_push_msim; constructor|]. apply (msim_bind st); [apply send_push_msim; constructor|]. intros s0 s HS.
  destruct (snd m) as [r'|]; [|apply msim_err]. apply (msim_bind st); [apply flow_cut_msim; exact HS|]. intros; apply IH; assumption.
Qed.
Lemma send_msim fuel s0 s p : st s0 s -> msim st (send_m ord es fuel s0 p) (send fuel s p).
Proof. intros HS; dst HS. unfold send_m, send. fld. apply msim_same; intros [h r]. apply send_loop_msim. constructor. Qed.
Lemma update_scaling_msim fuel s0 s p : st s0 s -> msim st (update_scaling_m ord es fuel s0 p) (update_scaling fuel s p).
Proof.
  intros HS. unfold update_scaling_m, update_scaling. replace (f_G s0) with (f_G s) by (dst HS; reflexivity). apply msim_same; intro g. apply (msim_bind st).
  - apply msim_for_each; [|exact HS]. clear s0 s HS. intros s0 s e HS. assert (HC := flow_cut_msim fuel s0 s). dst HS. fld.
    apply (msim_rel limE); [apply vget_rr; exact HE|]. intros o o' [l u f f' i j Hf]. cbn [o_j]. apply msim_same; intro a. destruct (ptr_eqb a (Some p)); [apply HC|apply msim_ok]; constructor.
  - intros x y HX. dst HX. fld. apply msim_still. do 4 (apply rr_same; intro). apply rr_ok. constructor.
Qed.
Lemma choice_loop_msim fuel0 fuel : forall s0 s p, st s0 s -> msim st (choice_loop_m ord es fuel0 fuel s0 p) (choice_loop fuel0 fuel s p).
Proof.
  induction fuel as [|fuel IH]; intros s0 s p HS; cbn [choice_loop_m choice_loop]; [apply msim_err|].
  assert (HQ := fun e => q_msim s0 s e HS). assert (HL := link_msim fuel0 s0 s p HS). assert (HU := update_scaling_msim fuel0 s0 s p HS).
  assert (HW : forall cu, st (with_cur s0 cu) (with_cur s cu)) by (intro; dst HS; constructor).
  replace (f_cur s0) with (f_cur s) by (dst HS; reflexivity). replace (f_G s0) with (f_G s) by (dst HS; reflexivity).
  apply msim_same; intro c. apply msim_same; intro g. destruct (c <? length g)%nat; [|exact HU]. apply msim_same; intro e. apply msim_eq; [apply HQ|]. intro v.
  destruct (dlt dzero v); [|apply msim_same; intro; apply IH, HW]. apply (msim_bind st); [exact HL|]. intros; apply send_msim; assumption.
Qed.
Lemma refine_loop_msim fuel0 fuel : forall s0 s, st s0 s -> msim st (refine_loop_m ord es fuel0 fuel s0) (refine_loop fuel0 fuel s).
Proof.
  induction fuel as [|fuel IH]; intros s0 s HS; cbn [refine_loop_m refine_loop]; (replace (f_uq s0) with (f_uq s) by (dst HS; reflexivity)); destruct (uq_empty (f_uq s)); try (apply msim_ok; exact HS); [apply msim_err|].
  apply msim_same; intro p. apply (msim_bind st); [apply choice_loop_msim; exact HS|]. clear s0 s HS. intros s0 s HS. replace (f_uq s0) with (f_uq s) by (dst HS; reflexivity).
  replace (f_imb s0) with (f_imb s) by (dst HS; reflexivity). apply msim_same; intro p'. apply msim_same; intro a. apply (msim_rel st); [|intros; apply IH; assumption].
  destruct (deq a dzero); [|apply rr_ok; exact HS]. apply rr_same; intro u. apply rr_ok. dst HS; constructor.
Qed.
Lemma cut_all_msim fuel s0 s : st s0 s -> msim st (cut_all_m ord es fuel s0) (cut_all fuel s).
Proof.
  intro HS. unfold cut_all_m, cut_all. replace (f_n s0) with (f_n s) by (dst HS; reflexivity). apply msim_for_each; [|exact HS]. clear s0 s HS. intros s0 s i HS.
  replace (f_fa s0) with (f_fa s) by (dst HS; reflexivity). apply msim_same; intros [a|]; [apply flow_cut_msim; exact HS|apply msim_ok; exact HS].
Qed.
Lemma push_all_msim s0 s : st s0 s -> msim st (push_all_m ord es s0) (push_all_admissible_edge s).
Proof.
  intro HS. unfold push_all_m, push_all_admissible_edge. assert (EL : f_edges s = E) by (dst HS; reflexivity). rewrite EL at 1. rewrite (forall2_len _ _ _ HE). clear EL. apply (msim_bind st).
  - apply msim_for_each; [|exact HS]. clear s0 s HS. intros s0 s e HS. assert (HQ := q_msim s0 s e HS). dst HS. fld.
    apply (msim_rel limE); [apply vget_rr; exact HE|]. intros o o' [l u f f' i j Hf]. cbn [o_i o_j]. apply msim_eq; [exact HQ|]. intro v. destruct (dlt dzero v); [|apply msim_ok; constructor].
    apply msim_still. do 4 (apply rr_same; intro). apply add_flow_rr. constructor.
  - clear s0 s HS. intros s0 s HS. apply msim_still. replace (f_n s0) with (f_n s) by (dst HS; reflexivity). apply rr_for_each; [|exact HS]. clear s0 s HS. intros s0 s i HS.
    replace (f_imb s0) with (f_imb s) by (dst HS; reflexivity). replace (f_uq s0) with (f_uq s) by (dst HS; reflexivity). apply rr_same; intro a.
    destruct (dlt dzero a); [apply rr_same; intro u|]; apply rr_ok; dst HS; constructor.
Qed.
Lemma phase_msim fuel s0 s : st s0 s -> msim st (phase_m ord es fuel s0) (phase fuel s).
Proof.
  intro HS. unfold phase_m, phase, refine_m, refine. apply (msim_bind st); [apply push_all_msim; dst HS; constructor|]. clear s0 s HS. intros s0 s HS.
  apply (msim_bind st); [apply refine_loop_msim; exact HS|]. intros; apply cut_all_msim; assumption.
Qed.
Lemma scaling_loop_msim fuel0 fuel : forall s0 s, st s0 s -> msim st (scaling_loop_m ord es fuel0 fuel s0) (scaling_loop fuel0 fuel s).
Proof.
  induction fuel as [|fuel IH]; intros s0 s HS; cbn [scaling_loop_m scaling_loop]; (replace (f_eps s0) with (f_eps s) by (dst HS; reflexivity)); destruct (f_eps s <? 2); try (apply msim_ok; exact HS); [apply msim_err|].
  apply (msim_bind st); [apply phase_msim; exact HS|]. clear s0 s HS. intros s0 s HS. replace (f_eps s0) with (f_eps s) by (dst HS; reflexivity). apply IH. dst HS; constructor.
Qed.
End Edges.

Lemma sum_answer_msim fuel es s0 s : Forall2 limE es (f_edges s) -> f_flows s0 = f_flows s ->
  msim (fun x y => snd x = snd y) (sum_answer_m ord fuel es s0) (sum_answer fuel s).
Proof.
  intros HE Hf. unfold sum_answer_m, sum_answer. rewrite (forall2_len _ _ _ HE).
  set (R := fun (x : list (OmegaLimit act) * D) (y : flow D * D) => Forall2 limE (fst x) (f_edges (fst y)) /\ f_flows s0 = f_flows (fst y) /\ snd x = snd y).
  assert (W : forall m m', msim R m m' -> msim (fun x y => snd x = snd y) m m').
  { intros m m' H b E s2 Hs. destruct (H b E s2 Hs) as (a & s' & E1 & HR & Hs'). exists a, s'. split; [exact E1|]. split; [apply HR|exact Hs']. }
  apply W. apply msim_for_each; [|split; [exact HE|split; [exact Hf|reflexivity]]]. intros [es1 a1] [s1 a2] e (X1 & X3 & X4). cbn [fst snd] in *. subst a2. rewrite X3.
  apply (msim_rel limE); [apply vget_rr; exact X1|]. intros o o' HO. apply msim_same; intro x. cbv zeta.
  assert (HT : limE (tilt_m o x) (tilt o' x)).
  { destruct HO as [l u f f' i j Hff]. constructor. intro w. cbn [o_fn]. apply msim_eq; [apply Hff|]. intro y. apply msim_ok. reflexivity. }
  apply (msim_rel (Forall2 limE)); [apply vset_rr; auto|]. intros E1 E1' H1. apply msim_eq; [apply limit_min_msim; exact HT|]. intro m. apply msim_ok. split; [exact H1|]. split; [exact X3|reflexivity].
Qed.

Lemma min_cost_msim fuel es s0 s : Forall2 limE es (f_edges s) -> stE (f_edges s) s0 s ->
  msim (fun x y => x = snd y) (min_cost_m ord fuel es s0) (min_cost fuel s).
Proof.
  intros HE HS. unfold min_cost_m, min_cost. apply (msim_bind (stE (f_edges s))); [apply scaling_loop_msim; assumption|]. intros x y HX.
  assert (Ed : f_edges y = f_edges s) by (destruct HX; reflexivity).
  apply (msim_bind (fun x y => snd x = snd y)); [apply sum_answer_msim; [rewrite Ed; exact HE|destruct HX; reflexivity]|]. intros [a x1] [b y1] H. cbn [snd] in *. subst. apply msim_ok. reflexivity.
Qed.

Lemma solve_msim fuel s s' : solverE s s' -> msim eq (solve_m ord fuel s) (solve fuel s').
Proof.
  intro HS. unfold solve_m, solve. replace (s_n s') with (s_n s) by (destruct HS; reflexivity). destruct (s_n s =? SIZE_MAX); [apply msim_ok; reflexivity|].
  apply (msim_rel (optT (Forall2 limE))); [apply merge_limits_rr; exact HS|]. intros [ls|] [ls'|] HL; try contradiction; [|apply msim_ok; reflexivity].
  apply msim_eq; [apply calc_msim; exact HL|]. intros [[vm M] U]. apply (msim_rel (fun f s => Forall2 limE (fst f) (f_edges s) /\ stE (f_edges s) (snd f) s)); [apply flow_new_rr; exact HL|].
  intros [es a] b [H1 H2]. cbn [fst snd] in *.
  apply (msim_bind (fun x y => x = snd y)); [apply min_cost_msim; assumption|]. intros x [b1 y] E. cbn [snd] in E. subst x. destruct (dlt vm y); apply msim_ok; reflexivity.
Qed.

Lemma run_solver_sim fuel n mus mus' oms oms' : Forall2 muE mus mus' -> Forall2 limE oms oms' ->
  msim eq (run_solver_m ord fuel n mus oms) (run_solver fuel n mus' oms').
Proof.
  intros HM HO. unfold run_solver_m, run_solver. apply (msim_bind solverE); [|intros; apply solve_msim; assumption]. apply solver_new_msim; assumption.
Qed.

Lemma mus_anywhere mus mus' : Forall2 (mu_answers inv anywhere) mus mus' -> Forall2 muE mus mus'.
Proof.
  induction 1 as [|m m' mus mus' (E1 & E2 & H) _ IH]; constructor; [|exact IH]. destruct m as [l u f], m' as [l' u' f']. cbn [m_l m_u m_fn] in *. subst.
  constructor. intros x v Ev s Hs. destruct (H x v s I Ev Hs) as (a & s' & Ea & Es & Hs'). exists v, s'. unfold use. rewrite Ea. auto.
Qed.
Lemma oms_anywhere oms oms' : Forall2 (om_answers inv anywhere) oms oms' -> Forall2 limE oms oms'.
Proof.
  induction 1 as [|m m' oms oms' (E1 & E2 & E3 & E4 & H) _ IH]; constructor; [|exact IH]. destruct m as [l u f i j], m' as [l' u' f' i' j']. cbn [o_l o_u o_fn o_i o_j] in *. subst.
  constructor. intros x v Ev s Hs. destruct (H x v s I Ev Hs) as (a & s' & Ea & Es & Hs'). exists v, s'. unfold use. rewrite Ea. auto.
Qed.
Theorem memory_same fuel n mus mus' oms oms' r s : Forall2 (mu_answers inv anywhere) mus mus' -> Forall2 (om_answers inv anywhere) oms oms' -> inv s ->
  run_solver fuel n mus' oms' = Ok r ->
  exists s', run_solver_m ord fuel n mus oms s = Ok (r, s') /\ inv s'.
Proof.
  intros HM HO Hs E. destruct (run_solver_sim fuel n _ _ _ _ (mus_anywhere _ _ HM) (oms_anywhere _ _ HO) r E s Hs) as (a & s' & E1 & -> & H). eauto.
Qed.
End Sim.

(** functions that answer in their range *)
Section Range.
Context {St : Type}.
Variable inv : St -> Prop.
Lemma guard_answers l u l' u' f g : answers inv within l u f g -> @answers St Z inv anywhere l' u' f (guard l u g).
Proof.
  intros H x v s _. unfold guard. destruct ((l <=? x) && (x <=? u)) eqn:E; [|discriminate]. intros Ev Hs. apply andb_prop in E. destruct E as [E1 E2]. apply Z.leb_le in E1, E2.
  exact (H x v s (conj E1 E2) Ev Hs).
Qed.
Lemma mus_guard mus mus' : Forall2 (mu_answers inv within) mus mus' -> Forall2 (mu_answers inv anywhere) mus (map guard_mu mus').
Proof.
  induction 1 as [|m m' mus mus' (E1 & E2 & H) _ IH]; cbn [map]; constructor; [|exact IH]. destruct m as [l u f], m' as [l' u' f']. unfold guard_mu. cbn [m_l m_u m_fn] in *. subst.
  split; [reflexivity|split; [reflexivity|]]. apply guard_answers. exact H.
Qed.
Lemma oms_guard oms oms' : Forall2 (om_answers inv within) oms oms' -> Forall2 (om_answers inv anywhere) oms (map guard_om oms').
Proof.
  induction 1 as [|m m' oms oms' (E1 & E2 & E3 & E4 & H) _ IH]; cbn [map]; constructor; [|exact IH]. destruct m as [l u f i j], m' as [l' u' f' i' j']. unfold guard_om. cbn [o_l o_u o_fn o_i o_j] in *. subst.
  repeat split. apply guard_answers. exact H.
Qed.

Theorem memory_solve ord one n mus mus' oms oms' K fuel s :
  0 < one -> admissible n mus' oms' K -> solver_fuel n (length oms') K <= Z.of_nat fuel ->
  Forall2 (mu_answers inv within) mus mus' -> Forall2 (om_answers inv within) oms oms' -> inv s ->
  exists r s', @run_solver_m St Z (exact_ops one) ord fuel (Z.of_nat n) mus oms s = Ok (r, s') /\ inv s' /\
    @run_solver Z (exact_ops one) fuel (Z.of_nat n) mus' oms' = Ok r.
Proof.
  intros H1 HA HF HM HO Hs. destruct (solve_guarded one H1 n mus' oms' K fuel HA HF) as (r & E1 & E2).
  destruct (@memory_same St Z (exact_ops one) ord inv fuel (Z.of_nat n) _ _ _ _ r s (mus_guard _ _ HM) (oms_guard _ _ HO) Hs E2) as (s' & E & H). eauto.
Qed.
End Range.
