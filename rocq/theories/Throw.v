(** * Exceptions of cost functions reach the caller

    Two runs whose cost functions differ only where the first throws go in step
    until the first run calls a function there. *)
From Verif Require Import Base BaseLemmas Data UniqueQueue LCT ProblemDefine Flow ProblemSolver ThrowSpec.
Local Open Scope Z_scope.

Definition thr {A B} (R : A -> B -> Prop) (m : res A) (m' : res B) : Prop :=
  m = Err BadCall \/ (exists e, m = Err e /\ m' = Err e) \/ (exists a b, m = Ok a /\ m' = Ok b /\ R a b).

Lemma thr_ok {A B} (R : A -> B -> Prop) a b : R a b -> thr R (Ok a) (Ok b).
Proof. right. right. eauto. Qed.
Lemma thr_err {A B} (R : A -> B -> Prop) e : thr R (Err e) (Err e).
Proof. right. left. eauto. Qed.
Lemma thr_throw {A B} (R : A -> B -> Prop) m : thr R (Err BadCall) m.
Proof. left. reflexivity. Qed.
Lemma thr_refl {A} (R : A -> A -> Prop) m : (forall a, R a a) -> thr R m m.
Proof. intro H. destruct m; [apply thr_ok; apply H|apply thr_err]. Qed.
Lemma thr_bind {A B A' B'} (R : A -> A' -> Prop) (Q : B -> B' -> Prop) m m' k k' :
  thr R m m' -> (forall a b, R a b -> thr Q (k a) (k' b)) -> thr Q (bind m k) (bind m' k').
Proof. intros [->|[(e & -> & ->)|(a & b & -> & -> & H)]] HK; cbn [bind]; [apply thr_throw|apply thr_err|apply HK; exact H]. Qed.
Lemma thr_same {A B B'} (Q : B -> B' -> Prop) (m : res A) k k' : (forall a, thr Q (k a) (k' a)) -> thr Q (bind m k) (bind m k').
Proof. intro H. apply (thr_bind eq); [apply thr_refl; reflexivity|]. intros a ? <-. apply H. Qed.
Lemma thr_eq {A B B'} (Q : B -> B' -> Prop) (m m' : res A) k k' : thr eq m m' -> (forall a, thr Q (k a) (k' a)) -> thr Q (bind m k) (bind m' k').
Proof. intros Hm H. apply (thr_bind eq); [exact Hm|]. intros a ? <-. apply H. Qed.
Lemma thr_for_each {X A B} (R : A -> B -> Prop) body body' (l : list X) :
  (forall a b x, R a b -> thr R (body a x) (body' b x)) -> forall a b, R a b -> thr R (for_each l a body) (for_each l b body').
Proof. intro H. induction l as [|x l IH]; intros a b HR; cbn [for_each]; [apply thr_ok; exact HR|]. eapply thr_bind; [apply H; exact HR|exact IH]. Qed.

Lemma vget_thr {A B} (R : A -> B -> Prop) l l' i : Forall2 R l l' -> thr R (vget l i) (vget l' i).
Proof.
  intro H. revert i. induction H as [|a b l l' HR H IH]; intro i; [destruct i; apply thr_err|]. destruct i as [|i]; [apply thr_ok; exact HR|]. exact (IH i).
Qed.
Lemma forall2_len {A B} (R : A -> B -> Prop) l l' : Forall2 R l l' -> length l = length l'.
Proof. induction 1; cbn [length]; congruence. Qed.
Lemma upd_forall2 {A B} (R : A -> B -> Prop) l l' i a b : Forall2 R l l' -> R a b -> Forall2 R (upd l i a) (upd l' i b).
Proof. intros H HR. revert i. induction H; intro i; cbn [upd]; [constructor|]. destruct i; constructor; auto. Qed.
Lemma vset_thr {A B} (R : A -> B -> Prop) l l' i a b : Forall2 R l l' -> R a b -> thr (Forall2 R) (vset l i a) (vset l' i b).
Proof. intros H HR. unfold vset. rewrite (forall2_len _ _ _ H). destruct (i <? length l')%nat; [apply thr_ok, upd_forall2; auto|apply thr_err]. Qed.

Section Throw.
Context {D : Type} {ops : DataOps D}.

Definition fnT (f f' : Fn D) : Prop := forall x, thr eq (f x) (f' x).
Inductive limT : OmegaLimit D -> OmegaLimit D -> Prop :=
| limT_i l u f f' i j : fnT f f' -> limT (mkOm l u f i j) (mkOm l u f' i j).
Inductive muT : MuLimit D -> MuLimit D -> Prop :=
| muT_i l u f f' : fnT f f' -> muT (mkMu l u f) (mkMu l u f').
Inductive flowT : flow D -> flow D -> Prop :=
| flowT_i n M eps nd imb cur uq fa E E' fl G sc : Forall2 limT E E' ->
    flowT (mkFlow n M eps nd imb cur uq fa E fl G sc) (mkFlow n M eps nd imb cur uq fa E' fl G sc).

Lemma partition_point_thr fuel : forall l r p p', (forall x, thr eq (p x) (p' x)) -> thr eq (partition_point fuel l r p) (partition_point fuel l r p').
Proof.
  induction fuel as [|fuel IH]; intros l r p p' H; cbn [partition_point]; [apply thr_err|]. destruct (l =? r); [apply thr_ok; reflexivity|].
  apply thr_same; intro d. apply thr_same; intro mid. apply thr_eq; [apply H|]. intros [|]; [apply thr_same; intro|]; apply IH; exact H.
Qed.

Lemma decreasing_thr f f' : fnT f f' -> forall x, thr eq (decreasing_at f x) (decreasing_at f' x).
Proof.
  intros H x. unfold decreasing_at. apply thr_eq; [apply H|]. intro a. apply thr_same; intro x1. apply thr_eq; [apply H|]. intro b. apply thr_ok. reflexivity.
Qed.

Lemma pre_processing_thr fuel o o' : limT o o' -> thr limT (pre_processing fuel o) (pre_processing fuel o').
Proof.
  intros [l u f f' i j H]. unfold pre_processing. cbn [o_l o_u o_fn o_i o_j]. apply thr_eq; [apply partition_point_thr, decreasing_thr; exact H|].
  intro p. apply thr_ok. constructor. intro x. apply H.
Qed.

Lemma limit_min_thr fuel o o' : limT o o' -> thr eq (limit_min fuel o) (limit_min fuel o').
Proof.
  intros [l u f f' i j H]. unfold limit_min. cbn [o_l o_u o_fn]. apply thr_eq; [apply partition_point_thr, decreasing_thr; exact H|]. intro p. apply H.
Qed.

Lemma reverse_thr o o' : limT o o' -> thr limT (reverse o) (reverse o').
Proof.
  intros [l u f f' i j H]. unfold reverse. cbn [o_l o_u o_fn o_i o_j]. apply thr_same; intro l'. apply thr_same; intro u'. apply thr_ok. constructor.
  intro x. apply thr_same; intro y. apply H.
Qed.

Definition pairT (a b : OmegaLimit D * bool) : Prop := limT (fst a) (fst b) /\ snd a = snd b.
Lemma merge_thr o o' p p' : limT o o' -> limT p p' -> thr pairT (merge o p) (merge o' p').
Proof.
  intros [l u f f' i j H] [l2 u2 g g' i2 j2 H2]. unfold merge. cbn [o_l o_u o_fn o_i o_j]. apply thr_same; intro. apply thr_same; intro. apply thr_ok.
  split; [|reflexivity]. constructor. intro x. apply thr_eq; [apply H|]. intro y. apply thr_eq; [apply H2|]. intro z. apply thr_ok. reflexivity.
Qed.

(** ** The constructor *)
Definition optT {A B} (R : A -> B -> Prop) (a : option A) (b : option B) : Prop :=
  match a, b with Some x, Some y => R x y | None, None => True | _, _ => False end.
Inductive solverT : solver D -> solver D -> Prop :=
| solverT_i n mus mus' oms oms' : Forall2 muT mus mus' -> Forall2 limT oms oms' -> solverT (mkSolver n mus oms) (mkSolver n mus' oms').

Lemma invalidT : solverT invalid invalid.
Proof. constructor; constructor. Qed.

Lemma check_mus_thr mus mus' n : Forall2 muT mus mus' -> forall fuel i, thr eq (check_mus fuel n mus i) (check_mus fuel n mus' i).
Proof.
  intros H. induction fuel as [|fuel IH]; intro i; cbn [check_mus]; destruct (n <? Z.of_nat i); try (apply thr_ok; reflexivity); [apply thr_err|].
  apply (thr_bind muT); [apply vget_thr; exact H|]. intros m m' [l u f f' _]. cbn [m_l m_u]. destruct (l <=? u); [apply IH|apply thr_ok; reflexivity].
Qed.

Lemma check_omega_thr mus mus' n fuel o o' : Forall2 muT mus mus' -> limT o o' -> thr (optT limT) (check_omega fuel n mus o) (check_omega fuel n mus' o').
Proof.
  intros H HO. assert (HP := pre_processing_thr fuel o o' HO). destruct HO as [l u f f' i j Hf]. unfold check_omega. cbn [o_l o_u o_fn o_i o_j].
  destruct (negb ((1 <=? Z.of_nat i) && (Z.of_nat i <=? n))); [apply thr_ok; exact I|]. destruct (negb ((1 <=? Z.of_nat j) && (Z.of_nat j <=? n))); [apply thr_ok; exact I|].
  destruct (Nat.eqb i j); [apply thr_ok; exact I|]. destruct (negb (l <=? u)); [apply thr_ok; exact I|].
  apply (thr_bind limT); [exact HP|]. clear - H. intros o o' [l u f f' i j Hf]. cbn [o_l o_u o_fn o_i o_j].
  apply (thr_bind muT); [apply vget_thr; exact H|]. intros a a' [la ua fa fa' _]. apply (thr_bind muT); [apply vget_thr; exact H|]. intros b b' [lb ub fb fb' _].
  cbn [m_l m_u]. apply thr_same; intro l0. destruct (l0 <=? u); apply thr_ok; [constructor; exact Hf|exact I].
Qed.

Lemma check_omegas_thr mus mus' n fuel oms oms' : Forall2 muT mus mus' -> Forall2 limT oms oms' ->
  thr (optT (Forall2 limT)) (check_omegas fuel n mus oms) (check_omegas fuel n mus' oms').
Proof.
  intros H HO. induction HO as [|o o' oms oms' HL HO IH]; cbn [check_omegas]; [apply thr_ok; constructor|].
  apply (thr_bind (optT limT)); [apply check_omega_thr; auto|]. intros [a|] [b|] Hab; try contradiction; [|apply thr_ok; exact I].
  apply (thr_bind (optT (Forall2 limT))); [exact IH|]. intros [x|] [y|] Hxy; try contradiction; apply thr_ok; [constructor; auto|exact I].
Qed.

Lemma solver_new_thr n fuel mus mus' oms oms' : Forall2 muT mus mus' -> Forall2 limT oms oms' -> thr solverT (solver_new fuel n mus oms) (solver_new fuel n mus' oms').
Proof.
  intros H HO. unfold solver_new. rewrite (forall2_len _ _ _ H). destruct (negb _); [apply thr_ok, invalidT|].
  apply thr_eq; [apply check_mus_thr; exact H|]. intros [|]; [|apply thr_ok, invalidT]. cbn [negb].
  apply (thr_bind (optT (Forall2 limT))); [apply check_omegas_thr; auto|]. intros [x|] [y|] Hxy; try contradiction; apply thr_ok; [constructor; auto|apply invalidT].
Qed.

(** ** merge_limits and calc *)
Definition entryT (a b : nat * nat * OmegaLimit D) : Prop := fst a = fst b /\ limT (snd a) (snd b).
Lemma map_find_thr m m' k : Forall2 entryT m m' -> optT limT (map_find m k) (map_find m' k).
Proof.
  induction 1 as [|[k1 v1] [k2 v2] m m' [E1 E2] H IH]; cbn [map_find]; [exact I|]. cbn [fst snd] in *. subst k2. destruct (key_eqb k1 k); [exact E2|exact IH].
Qed.
Lemma map_set_thr m m' k v v' : Forall2 entryT m m' -> limT v v' -> Forall2 entryT (map_set m k v) (map_set m' k v').
Proof.
  intros H HV. induction H as [|[k1 v1] [k2 v2] m m' [E1 E2] H IH]; cbn [map_set]; [repeat constructor; exact HV|]. cbn [fst snd] in *. subst k2.
  destruct (key_eqb k1 k); [constructor; [split; auto|exact H]|]. destruct (key_ltb k k1); [|constructor; [split; auto|exact IH]].
  constructor; [split; auto|]. constructor; [split; auto|exact H].
Qed.

Lemma merge_loop_thr oms oms' : Forall2 limT oms oms' -> forall m m', Forall2 entryT m m' -> thr (optT (Forall2 entryT)) (merge_loop oms m) (merge_loop oms' m').
Proof.
  induction 1 as [|o o' oms oms' HL H IH]; intros m m' HM; cbn [merge_loop]; [apply thr_ok; exact HM|].
  apply (thr_bind limT).
  { assert (E : o_i o' = o_i o /\ o_j o' = o_j o) by (destruct HL; auto). destruct E as [-> ->]. destruct (o_i o <? o_j o)%nat; [apply reverse_thr; exact HL|apply thr_ok; exact HL]. }
  clear o o' HL. intros o o' HL. assert (E : o_i o' = o_i o /\ o_j o' = o_j o) by (destruct HL; auto). destruct E as [-> ->].
  assert (HF := map_find_thr m m' (o_i o, o_j o) HM). destruct (map_find m (o_i o, o_j o)) as [a|], (map_find m' (o_i o, o_j o)) as [b|]; try contradiction.
  - apply (thr_bind pairT); [apply merge_thr; [exact HF|exact HL]|]. intros [a1 e1] [b1 e2] [Hab Ee]. cbn [fst snd] in *. subst e2.
    destruct e1; [apply thr_ok; exact I|]. apply IH, map_set_thr; auto.
  - apply IH, map_set_thr; auto.
Qed.

Lemma map_snd_thr m m' : Forall2 entryT m m' -> Forall2 limT (map snd m) (map snd m').
Proof. induction 1 as [|a b m m' [_ H1] H IH]; cbn [map]; constructor; auto. Qed.

Lemma merge_limits_thr s s' : solverT s s' -> thr (optT (Forall2 limT)) (merge_limits s) (merge_limits s').
Proof.
  intros [n mus mus' oms oms' HM HO]. unfold merge_limits. cbn [s_n s_mus s_oms]. apply (thr_bind (optT (Forall2 entryT))); [apply merge_loop_thr; [exact HO|constructor]|].
  intros [m|] [m'|] Hm; try contradiction; [|apply thr_ok; exact I]. apply (thr_bind (Forall2 limT)).
  - apply thr_for_each; [|constructor]. intros a b i Hab. apply (thr_bind muT); [apply vget_thr; exact HM|]. intros x x' [l u f f' Hf]. apply thr_ok.
    apply Forall2_app; [exact Hab|]. constructor; [constructor; exact Hf|constructor].
  - intros a b Hab. apply thr_ok. apply Forall2_app; [apply map_snd_thr; exact Hm|exact Hab].
Qed.

Lemma for_each_thr2 {X Y A B} (P : X -> Y -> Prop) (R : A -> B -> Prop) body body' l l' : Forall2 P l l' ->
  (forall a b x y, P x y -> R a b -> thr R (body a x) (body' b y)) -> forall a b, R a b -> thr R (for_each l a body) (for_each l' b body').
Proof.
  intros HP H. induction HP as [|x y l l' Hxy HP IH]; intros a b HR; cbn [for_each]; [apply thr_ok; exact HR|]. eapply thr_bind; [apply H; eauto|exact IH].
Qed.

Lemma calc_thr fuel ls ls' : Forall2 limT ls ls' -> thr eq (calc fuel ls) (calc fuel ls').
Proof.
  intro H. unfold calc. apply (for_each_thr2 limT); [exact H| |reflexivity]. intros [[vm M] U] ? o o' HL <-. assert (HM := limit_min_thr fuel o o' HL).
  destruct HL as [l u f f' i j Hf]. cbn [o_l o_u o_fn]. apply thr_eq; [apply Hf|]. intro a. apply thr_eq; [apply Hf|]. intro b. apply thr_eq; [exact HM|]. intro mi.
  apply thr_same; intro d. apply thr_ok. reflexivity.
Qed.

(** ** Flow *)
Ltac fld := cbn [f_n f_M f_eps f_nodes f_imb f_cur f_uq f_fa f_edges f_flows f_G f_scal with_eps with_nodes with_imb with_cur with_uq with_fa with_edges with_flows with_scal].
Ltac st := apply thr_ok; constructor; assumption.

Lemma double_edges_thr k : forall E E', Forall2 limT E E' -> thr (Forall2 limT) (double_edges k E) (double_edges k E').
Proof.
  induction k as [|k IH]; intros E E' H; cbn [double_edges]; [apply thr_ok; exact H|]. apply (thr_bind limT); [apply vget_thr; exact H|]. intros e e' He.
  apply (thr_bind (Forall2 limT)); [apply vset_thr; auto|]. intros E1 E1' H1. apply (thr_bind (Forall2 limT)); [apply vset_thr; auto|]. intros E2 E2' H2.
  apply (thr_bind limT); [apply reverse_thr; exact He|]. intros r r' Hr. apply (thr_bind (Forall2 limT)); [apply vset_thr; auto|]. intros E3 E3' H3. apply IH. exact H3.
Qed.

Lemma build_G_thr E E' G : Forall2 limT E E' -> thr eq (build_G E G) (build_G E' G).
Proof.
  intro H. unfold build_G. rewrite (forall2_len _ _ _ H). apply thr_for_each; [|reflexivity]. intros g ? x <-. apply (thr_bind limT); [apply vget_thr; exact H|].
  intros e e' [l u f f' i j _]. cbn [o_i]. apply thr_same; intro y. apply thr_refl. reflexivity.
Qed.

Lemma zeroT : limT OmegaLimit0 OmegaLimit0.
Proof. constructor. intro x. apply thr_throw. Qed.

Lemma repeat_T n : Forall2 limT (repeat OmegaLimit0 n) (repeat OmegaLimit0 n).
Proof. induction n; cbn [repeat]; constructor; [apply zeroT|assumption]. Qed.

Lemma flow_new_thr fuel n M U ls ls' : Forall2 limT ls ls' -> thr flowT (flow_new fuel n M U ls) (flow_new fuel n M U ls').
Proof.
  intro H. unfold flow_new. apply thr_same; intro eps. apply thr_same; intro. rewrite (forall2_len _ _ _ H). apply (thr_bind (Forall2 limT)).
  { apply double_edges_thr. apply Forall2_app; [exact H|apply repeat_T]. }
  intros E E' HE. apply thr_eq; [apply build_G_thr; exact HE|]. intro G. apply thr_ok. rewrite (forall2_len _ _ _ HE). constructor. exact HE.
Qed.

Lemma q_thr s s' e : flowT s s' -> thr eq (q s e) (q s' e).
Proof.
  intros [n M eps nd imb cur uq fa E E' fl G sc H]. unfold q. fld. apply (thr_bind limT); [apply vget_thr; exact H|]. intros o o' [l u f f' i j Hf]. cbn [o_l o_u o_fn o_i o_j].
  apply thr_same; intro pi. apply thr_same; intro pj. apply thr_same; intro d. apply thr_same; intro t. apply thr_same; intro t1. apply thr_same; intro x.
  destruct (u <? t1); [apply thr_ok; reflexivity|]. destruct (t <? l); [apply thr_ok; reflexivity|]. apply thr_eq; [apply Hf|]. intro a. apply thr_eq; [apply Hf|]. intro b. apply thr_ok. reflexivity.
Qed.

Lemma add_flow_thr s s' e x : flowT s s' -> thr flowT (add_flow_of_edge s e x) (add_flow_of_edge s' e x).
Proof.
  intros [n M eps nd imb cur uq fa E E' fl G sc H]. unfold add_flow_of_edge. fld. do 4 (apply thr_same; intro). st.
Qed.

Lemma link_thr fuel s s' p : flowT s s' -> thr flowT (link fuel s p) (link fuel s' p).
Proof.
  intros [n M eps nd imb cur uq fa E E' fl G sc H]. unfold link. fld. do 3 (apply thr_same; intro). apply (thr_bind limT); [apply vget_thr; exact H|].
  intros o o' [l u f f' i j Hf]. cbn [o_j]. apply thr_same; intro fa'. cbv zeta. fld. apply thr_eq; [apply q_thr; constructor; exact H|]. intro v. do 3 (apply thr_same; intro). st.
Qed.

Lemma flow_cut_thr fuel s s' p : flowT s s' -> thr flowT (flow_cut fuel s p) (flow_cut fuel s' p).
Proof.
  intros [n M eps nd imb cur uq fa E E' fl G sc H]. unfold flow_cut. fld. do 5 (apply thr_same; intro). apply thr_eq; [apply q_thr; constructor; exact H|]. intro v.
  apply thr_same; intros [h y]. apply add_flow_thr. constructor. exact H.
Qed.

Lemma send_push_thr fuel s s' p r x : flowT s s' -> thr flowT (send_push fuel s p r x) (send_push fuel s' p r x).
Proof.
  intros [n M eps nd imb cur uq fa E E' fl G sc H]. unfold send_push. fld. do 6 (apply thr_same; intro). destruct (dlt _ _); [apply thr_same; intro|]; st.
Qed.

Lemma send_loop_thr fuel0 fuel : forall s s' p r, flowT s s' -> thr flowT (send_loop fuel0 fuel s p r) (send_loop fuel0 fuel s' p r).
Proof.
  induction fuel as [|fuel IH]; intros s s' p r HS; cbn [send_loop]; destruct (Nat.eqb p r); try (apply thr_ok; exact HS); [apply thr_err|].
  destruct HS as [n M eps nd imb cur uq fa E E' fl G sc H]. fld. apply thr_same; intros [h m]. fld. apply thr_same; intro a.
  destruct (dlt a (fst m)); [apply send_push_thr; constructor; exact H|]. apply (thr_bind flowT); [apply send_push_thr; constructor; exact H|]. intros s s' HS.
  destruct (snd m) as [r'|]; [|apply thr_err]. apply (thr_bind flowT); [apply flow_cut_thr; exact HS|]. intros; apply IH; assumption.
Qed.

Lemma send_thr fuel s s' p : flowT s s' -> thr flowT (send fuel s p) (send fuel s' p).
Proof. intros [n M eps nd imb cur uq fa E E' fl G sc H]. unfold send. fld. apply thr_same; intros [h r]. apply send_loop_thr. constructor. exact H. Qed.

Lemma update_scaling_thr fuel s s' p : flowT s s' -> thr flowT (update_scaling fuel s p) (update_scaling fuel s' p).
Proof.
  intros HS. unfold update_scaling. replace (f_G s') with (f_G s) by (destruct HS; reflexivity). apply thr_same; intro g. apply (thr_bind flowT).
  - apply thr_for_each; [|exact HS]. clear. intros s s' e HS. assert (HC := flow_cut_thr fuel s s'). destruct HS as [n M eps nd imb cur uq fa E E' fl G sc H]. fld.
    apply (thr_bind limT); [apply vget_thr; exact H|]. intros o o' [l u f f' i j Hf]. cbn [o_j]. apply thr_same; intro a. destruct (ptr_eqb a (Some p)); [apply HC|apply thr_ok]; constructor; exact H.
  - clear. intros s s' [n M eps nd imb cur uq fa E E' fl G sc H]. fld. do 4 (apply thr_same; intro). st.
Qed.

Lemma choice_loop_thr fuel0 fuel : forall s s' p, flowT s s' -> thr flowT (choice_loop fuel0 fuel s p) (choice_loop fuel0 fuel s' p).
Proof.
  induction fuel as [|fuel IH]; intros s s' p HS; cbn [choice_loop]; [apply thr_err|].
  assert (HQ := fun e => q_thr s s' e HS). assert (HL := link_thr fuel0 s s' p HS). assert (HU := update_scaling_thr fuel0 s s' p HS).
  assert (HW : forall cu, flowT (with_cur s cu) (with_cur s' cu)) by (intro; destruct HS; constructor; assumption).
  replace (f_cur s') with (f_cur s) by (destruct HS; reflexivity). replace (f_G s') with (f_G s) by (destruct HS; reflexivity).
  apply thr_same; intro c. apply thr_same; intro g. destruct (c <? length g)%nat; [|exact HU]. apply thr_same; intro e. apply thr_eq; [apply HQ|]. intro v.
  destruct (dlt dzero v); [|apply thr_same; intro; apply IH, HW]. apply (thr_bind flowT); [exact HL|]. intros; apply send_thr; assumption.
Qed.

Lemma refine_loop_thr fuel0 fuel : forall s s', flowT s s' -> thr flowT (refine_loop fuel0 fuel s) (refine_loop fuel0 fuel s').
Proof.
  induction fuel as [|fuel IH]; intros s s' HS; cbn [refine_loop]; replace (f_uq s') with (f_uq s) by (destruct HS; reflexivity); destruct (uq_empty (f_uq s)); try (apply thr_ok; exact HS); [apply thr_err|].
  apply thr_same; intro p. apply (thr_bind flowT); [apply choice_loop_thr; exact HS|]. clear s s' HS. intros s s' HS. replace (f_uq s') with (f_uq s) by (destruct HS; reflexivity).
  replace (f_imb s') with (f_imb s) by (destruct HS; reflexivity). apply thr_same; intro p'. apply thr_same; intro a. apply (thr_bind flowT); [|intros; apply IH; assumption].
  destruct (deq a dzero); [|apply thr_ok; exact HS]. apply thr_same; intro u. apply thr_ok. destruct HS; constructor; assumption.
Qed.

Lemma cut_all_thr fuel s s' : flowT s s' -> thr flowT (cut_all fuel s) (cut_all fuel s').
Proof.
  intro HS. unfold cut_all. replace (f_n s') with (f_n s) by (destruct HS; reflexivity). apply thr_for_each; [|exact HS]. clear. intros s s' i HS.
  replace (f_fa s') with (f_fa s) by (destruct HS; reflexivity). apply thr_same; intros [a|]; [apply flow_cut_thr; exact HS|apply thr_ok; exact HS].
Qed.

Lemma push_all_thr s s' : flowT s s' -> thr flowT (push_all_admissible_edge s) (push_all_admissible_edge s').
Proof.
  intro HS. unfold push_all_admissible_edge. assert (EL : length (f_edges s') = length (f_edges s)) by (destruct HS as [n M eps nd imb cur uq fa E E' fl G sc H]; fld; symmetry; eapply forall2_len; exact H).
  rewrite EL. clear EL. apply (thr_bind flowT).
  - apply thr_for_each; [|exact HS]. clear. intros s s' e HS. assert (HQ := q_thr s s' e HS). destruct HS as [n M eps nd imb cur uq fa E E' fl G sc H]. fld.
    apply (thr_bind limT); [apply vget_thr; exact H|]. intros o o' [l u f f' i j Hf]. cbn [o_i o_j]. apply thr_eq; [exact HQ|]. intro v. destruct (dlt dzero v); [|st].
    do 4 (apply thr_same; intro). apply add_flow_thr. constructor. exact H.
  - clear. intros s s' HS. replace (f_n s') with (f_n s) by (destruct HS; reflexivity). apply thr_for_each; [|exact HS]. clear. intros s s' i HS.
    replace (f_imb s') with (f_imb s) by (destruct HS; reflexivity). replace (f_uq s') with (f_uq s) by (destruct HS; reflexivity). apply thr_same; intro a.
    destruct (dlt dzero a); [apply thr_same; intro u|]; apply thr_ok; destruct HS; constructor; assumption.
Qed.

Lemma phase_thr fuel s s' : flowT s s' -> thr flowT (phase fuel s) (phase fuel s').
Proof.
  intro HS. unfold phase, refine. apply (thr_bind flowT); [apply push_all_thr; destruct HS; constructor; assumption|]. clear. intros s s' HS.
  apply (thr_bind flowT); [apply refine_loop_thr; exact HS|]. intros; apply cut_all_thr; assumption.
Qed.

Lemma scaling_loop_thr fuel0 fuel : forall s s', flowT s s' -> thr flowT (scaling_loop fuel0 fuel s) (scaling_loop fuel0 fuel s').
Proof.
  induction fuel as [|fuel IH]; intros s s' HS; cbn [scaling_loop]; replace (f_eps s') with (f_eps s) by (destruct HS; reflexivity); destruct (f_eps s <? 2); try (apply thr_ok; exact HS); [apply thr_err|].
  apply (thr_bind flowT); [apply phase_thr; exact HS|]. clear s s' HS. intros s s' HS. replace (f_eps s') with (f_eps s) by (destruct HS; reflexivity). apply IH. destruct HS; constructor; assumption.
Qed.

Definition ansT (a b : flow D * D) : Prop := flowT (fst a) (fst b) /\ snd a = snd b.
Lemma sum_answer_thr fuel s s' : flowT s s' -> thr ansT (sum_answer fuel s) (sum_answer fuel s').
Proof.
  intro HS. unfold sum_answer. assert (EL : length (f_edges s') = length (f_edges s)) by (destruct HS as [n M eps nd imb cur uq fa E E' fl G sc H]; fld; symmetry; eapply forall2_len; exact H).
  rewrite EL. clear EL. apply thr_for_each; [|split; [exact HS|reflexivity]]. clear. intros [s a] [s' a'] e [HS Ea]. cbn [fst snd] in *. subst a'.
  destruct HS as [n M eps nd imb cur uq fa E E' fl G sc H]. fld. apply (thr_bind limT); [apply vget_thr; exact H|]. intros o o' HO. apply thr_same; intro x. cbv zeta.
  assert (HT : limT (tilt o x) (tilt o' x)).
  { destruct HO as [l u f f' i j Hf]. constructor. intro w. cbn [o_fn]. apply thr_eq; [apply Hf|]. intro y. apply thr_ok. reflexivity. }
  apply (thr_bind (Forall2 limT)); [apply vset_thr; auto|]. intros E1 E1' H1. apply thr_eq; [apply limit_min_thr; exact HT|]. intro m. apply thr_ok. split; [constructor; exact H1|reflexivity].
Qed.

Lemma min_cost_thr fuel s s' : flowT s s' -> thr ansT (min_cost fuel s) (min_cost fuel s').
Proof.
  intro HS. unfold min_cost. apply (thr_bind flowT); [apply scaling_loop_thr; exact HS|]. clear. intros s s' HS. apply (thr_bind ansT); [apply sum_answer_thr; exact HS|].
  intros [a x] [b y] [H1 H2]. cbn [fst snd] in *. subst y. apply thr_ok. split; [exact H1|reflexivity].
Qed.

Lemma solve_thr fuel s s' : solverT s s' -> thr eq (solve fuel s) (solve fuel s').
Proof.
  intro HS. unfold solve. replace (s_n s') with (s_n s) by (destruct HS; reflexivity). destruct (s_n s =? SIZE_MAX); [apply thr_ok; reflexivity|].
  apply (thr_bind (optT (Forall2 limT))); [apply merge_limits_thr; exact HS|]. intros [ls|] [ls'|] HL; try contradiction; [|apply thr_ok; reflexivity].
  apply thr_eq; [apply calc_thr; exact HL|]. intros [[vm M] U]. apply (thr_bind flowT); [apply flow_new_thr; exact HL|]. intros a b Hab.
  apply (thr_bind ansT); [apply min_cost_thr; exact Hab|]. intros [x mx] [y my] [_ E]. cbn [snd] in E. subst my. destruct (dlt vm mx); apply thr_ok; reflexivity.
Qed.

Lemma fnT_of (f g : Fn D) : patched f g -> fnT f g.
Proof. intros H x. destruct (H x) as [->| ->]; [apply thr_throw|apply thr_refl; reflexivity]. Qed.

Theorem run_solver_thr fuel n mus mus' oms oms' : Forall2 mu_patched mus mus' -> Forall2 om_patched oms oms' ->
  run_solver fuel n mus oms = Err BadCall \/ run_solver fuel n mus' oms' = run_solver fuel n mus oms.
Proof.
  intros HM HO. assert (X : thr eq (run_solver fuel n mus oms) (run_solver fuel n mus' oms')).
  { unfold run_solver. apply (thr_bind solverT); [|intros; apply solve_thr; assumption]. apply solver_new_thr.
    - induction HM as [|[l u f] [l' u' f'] mus mus' (E1 & E2 & Hf) HM IH]; constructor; [|exact IH]. cbn in E1, E2, Hf. subst. constructor. apply fnT_of. exact Hf.
    - induction HO as [|[l u f i j] [l' u' f' i' j'] oms oms' (E1 & E2 & E3 & E4 & Hf) HO IH]; constructor; [|exact IH]. cbn in E1, E2, E3, E4, Hf. subst. constructor. apply fnT_of. exact Hf. }
  destruct X as [X|[(e & -> & ->)|(a & b & -> & -> & ->)]]; auto.
Qed.
End Throw.
