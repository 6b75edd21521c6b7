(** * Recording the calls of the cost functions changes nothing else *)
From Verif Require Import Base BaseLemmas Data UniqueQueue LCT ProblemDefine Flow ProblemSolver Throw EvalSpec EvalLog.
Local Open Scope Z_scope.

(** the computation without the record *)
Definition unnote {A} (m : noted A) : res A := match m with Ok (a, _) => Ok a | Err e => Err e end.

Definition rr {A B} (R : A -> B -> Prop) (m : res A) (m' : res B) : Prop :=
  match m, m' with Ok a, Ok b => R a b | Err e, Err e' => e = e' | _, _ => False end.
Definition erz {A B} (R : A -> B -> Prop) (m : noted A) (m' : res B) : Prop := rr R (unnote m) m'.

Lemma rr_ok {A B} (R : A -> B -> Prop) a b : R a b -> rr R (Ok a) (Ok b).
Proof. auto. Qed.
Lemma rr_refl {A} (R : A -> A -> Prop) m : (forall a, R a a) -> rr R m m.
Proof. intro H. destruct m; [apply H|reflexivity]. Qed.
Lemma rr_bind {A B A' B'} (R : A -> A' -> Prop) (Q : B -> B' -> Prop) m m' k k' :
  rr R m m' -> (forall a b, R a b -> rr Q (k a) (k' b)) -> rr Q (bind m k) (bind m' k').
Proof. intros H HK. destruct m, m'; try contradiction; cbn [bind]; [apply HK; exact H|exact H]. Qed.
Lemma rr_same {A B B'} (Q : B -> B' -> Prop) (m : res A) k k' : (forall a, rr Q (k a) (k' a)) -> rr Q (bind m k) (bind m k').
Proof. intro H. apply (rr_bind eq); [apply rr_refl; reflexivity|]. intros a ? <-. apply H. Qed.
Lemma rr_for_each {X A B} (R : A -> B -> Prop) body body' (l : list X) :
  (forall a b x, R a b -> rr R (body a x) (body' b x)) -> forall a b, R a b -> rr R (for_each l a body) (for_each l b body').
Proof. intro H. induction l as [|x l IH]; intros a b HR; cbn [for_each]; [exact HR|]. eapply rr_bind; [apply H; exact HR|exact IH]. Qed.
Lemma vget_rr {A B} (R : A -> B -> Prop) l l' i : Forall2 R l l' -> rr R (vget l i) (vget l' i).
Proof. intro H. revert i. induction H as [|a b l l' HR H IH]; intro i; [destruct i; reflexivity|]. destruct i as [|i]; [exact HR|]. exact (IH i). Qed.
Lemma vset_rr {A B} (R : A -> B -> Prop) l l' i a b : Forall2 R l l' -> R a b -> rr (Forall2 R) (vset l i a) (vset l' i b).
Proof. intros H HR. unfold vset. rewrite (forall2_len _ _ _ H). destruct (i <? length l')%nat; [apply upd_forall2; auto|reflexivity]. Qed.

Lemma erz_still {A B} (R : A -> B -> Prop) m m' : rr R m m' -> erz R (still m) m'.
Proof. intro H. unfold erz. destruct m; exact H. Qed.
Lemma erz_ok {A B} (R : A -> B -> Prop) a b : R a b -> erz R (still (Ok a)) (Ok b).
Proof. auto. Qed.
Lemma erz_err {A B} (R : A -> B -> Prop) e : erz R (Err e) (Err e).
Proof. reflexivity. Qed.
Lemma erz_bind {A B A' B'} (R : A -> A' -> Prop) (Q : B -> B' -> Prop) m m' k k' :
  erz R m m' -> (forall a b, R a b -> erz Q (k a) (k' b)) -> erz Q (nbind m k) (bind m' k').
Proof.
  unfold erz. intros H HK. destruct m as [[a l]|], m' as [b|]; try contradiction; cbn [nbind bind unnote] in *; [|exact H].
  specialize (HK a b H). destruct (k a) as [[? ?]|]; exact HK.
Qed.
Lemma erz_rel {A B A' B'} (R : A -> A' -> Prop) (Q : B -> B' -> Prop) m m' k k' :
  rr R m m' -> (forall a b, R a b -> erz Q (k a) (k' b)) -> erz Q (nbind (still m) k) (bind m' k').
Proof. intros H HK. eapply erz_bind; [apply erz_still; exact H|exact HK]. Qed.
Lemma erz_same {A B B'} (Q : B -> B' -> Prop) (m : res A) k k' : (forall a, erz Q (k a) (k' a)) -> erz Q (nbind (still m) k) (bind m k').
Proof. intro H. apply (erz_rel eq); [apply rr_refl; reflexivity|]. intros a ? <-. apply H. Qed.
Lemma erz_eq {A B B'} (Q : B -> B' -> Prop) (m : noted A) m' k k' : erz eq m m' -> (forall a, erz Q (k a) (k' a)) -> erz Q (nbind m k) (bind m' k').
Proof. intros Hm H. apply (erz_bind eq); [exact Hm|]. intros a ? <-. apply H. Qed.
Lemma erz_for_each2 {X Y A B} (C : X -> Y -> Prop) (R : A -> B -> Prop) body body' l l' : Forall2 C l l' ->
  (forall a b x y, C x y -> R a b -> erz R (body a x) (body' b y)) -> forall a b, R a b -> erz R (for_each_n l a body) (for_each l' b body').
Proof.
  intros HC H. induction HC as [|x y l l' Hxy HC IH]; intros a b HR; cbn [for_each_n for_each]; [apply erz_ok; exact HR|]. eapply erz_bind; [apply H; eauto|exact IH].
Qed.
Lemma erz_for_each {X A B} (R : A -> B -> Prop) body body' (l : list X) :
  (forall a b x, R a b -> erz R (body a x) (body' b x)) -> forall a b, R a b -> erz R (for_each_n l a body) (for_each l b body').
Proof. intros H. apply (erz_for_each2 eq); [|intros a b x ? <-; apply H]. induction l; constructor; auto. Qed.

Section Erase.
Variable one : Z.
#[local] Hint Extern 0 (DataOps Z) => exact (exact_ops one) : typeclass_instances.

Definition fnE (f : Fn nz) (f' : Fn Z) : Prop := forall x, erz eq (f x) (f' x).
Inductive limE : OmegaLimit nz -> OmegaLimit Z -> Prop :=
| limE_i l u f f' i j : fnE f f' -> limE (mkOm l u f i j) (mkOm l u f' i j).
Inductive muE : MuLimit nz -> MuLimit Z -> Prop :=
| muE_i l u f f' : fnE f f' -> muE (mkMu l u f) (mkMu l u f').

Lemma partition_point_erz fuel : forall l r p p', (forall x, erz eq (p x) (p' x)) -> erz eq (partition_point_n fuel l r p) (partition_point fuel l r p').
Proof.
  induction fuel as [|fuel IH]; intros l r p p' H; cbn [partition_point_n partition_point]; [apply erz_err|]. destruct (l =? r); [apply erz_ok; reflexivity|].
  apply erz_same; intro d. apply erz_same; intro mid. apply erz_eq; [apply H|]. intros [|]; [apply erz_same; intro|]; apply IH; exact H.
Qed.
Lemma decreasing_erz f f' : fnE f f' -> forall x, erz eq (decreasing_at_n one f x) (decreasing_at f' x).
Proof.
  intros H x. unfold decreasing_at_n, decreasing_at. apply erz_eq; [apply H|]. intro a. apply erz_same; intro x1. apply erz_eq; [apply H|]. intro b. apply erz_ok. reflexivity.
Qed.
Lemma pre_processing_erz fuel o o' : limE o o' -> erz limE (pre_processing_n one fuel o) (pre_processing fuel o').
Proof.
  intros [l u f f' i j H]. unfold pre_processing_n, pre_processing. cbn [o_l o_u o_fn o_i o_j]. apply erz_eq; [apply partition_point_erz, decreasing_erz; exact H|].
  intro p. apply erz_ok. constructor. intro x. apply H.
Qed.
Lemma limit_min_erz fuel o o' : limE o o' -> erz eq (limit_min_n one fuel o) (limit_min fuel o').
Proof.
  intros [l u f f' i j H]. unfold limit_min_n, limit_min. cbn [o_l o_u o_fn]. apply erz_eq; [apply partition_point_erz, decreasing_erz; exact H|]. intro p. apply H.
Qed.
Lemma reverse_rr o o' : limE o o' -> rr limE (reverse o) (reverse o').
Proof.
  intros [l u f f' i j H]. unfold reverse. cbn [o_l o_u o_fn o_i o_j]. apply rr_same; intro l'. apply rr_same; intro u'. apply rr_ok. constructor.
  intro x. destruct (ck (- x)); cbn [bind]; [apply H|reflexivity].
Qed.
Definition pairE (a : OmegaLimit nz * bool) (b : OmegaLimit Z * bool) : Prop := limE (fst a) (fst b) /\ snd a = snd b.
Lemma merge_rr o o' p p' : limE o o' -> limE p p' -> rr pairE (merge_n one o p) (merge o' p').
Proof.
  intros [l u f f' i j H] [l2 u2 g g' i2 j2 H2]. unfold merge_n, merge. cbn [o_l o_u o_fn o_i o_j]. apply rr_same; intro. apply rr_same; intro. apply rr_ok.
  split; [|reflexivity]. constructor. intro x. apply erz_eq; [apply H|]. intro y. apply erz_eq; [apply H2|]. intro z. apply erz_ok. reflexivity.
Qed.

Inductive solverE : solver nz -> solver Z -> Prop :=
| solverE_i n mus mus' oms oms' : Forall2 muE mus mus' -> Forall2 limE oms oms' -> solverE (mkSolver n mus oms) (mkSolver n mus' oms').
Lemma invalidE : solverE invalid invalid.
Proof. constructor; constructor. Qed.
Lemma check_mus_rr mus mus' n : Forall2 muE mus mus' -> forall fuel i, rr eq (check_mus fuel n mus i) (check_mus fuel n mus' i).
Proof.
  intros H. induction fuel as [|fuel IH]; intro i; cbn [check_mus]; destruct (n <? Z.of_nat i); try reflexivity.
  apply (rr_bind muE); [apply vget_rr; exact H|]. intros m m' [l u f f' _]. cbn [m_l m_u]. destruct (l <=? u); [apply IH|reflexivity].
Qed.
Lemma check_omega_erz mus mus' n fuel o o' : Forall2 muE mus mus' -> limE o o' -> erz (optT limE) (check_omega_n one fuel n mus o) (check_omega fuel n mus' o').
Proof.
  intros H HO. assert (HP := pre_processing_erz fuel o o' HO). destruct HO as [l u f f' i j Hf]. unfold check_omega_n, check_omega. cbn [o_l o_u o_fn o_i o_j].
  destruct (negb ((1 <=? Z.of_nat i) && (Z.of_nat i <=? n))); [apply erz_ok; exact I|]. destruct (negb ((1 <=? Z.of_nat j) && (Z.of_nat j <=? n))); [apply erz_ok; exact I|].
  destruct (Nat.eqb i j); [apply erz_ok; exact I|]. destruct (negb (l <=? u)); [apply erz_ok; exact I|].
  apply (erz_bind limE); [exact HP|]. clear - H. intros o o' [l u f f' i j Hf]. cbn [o_l o_u o_fn o_i o_j]. apply erz_still.
  apply (rr_bind muE); [apply vget_rr; exact H|]. intros a a' [la ua fa fa' _]. apply (rr_bind muE); [apply vget_rr; exact H|]. intros b b' [lb ub fb fb' _].
  cbn [m_l m_u]. apply rr_same; intro l0. destruct (l0 <=? u); apply rr_ok; [constructor; exact Hf|exact I].
Qed.
Lemma check_omegas_erz mus mus' n fuel oms oms' : Forall2 muE mus mus' -> Forall2 limE oms oms' ->
  erz (optT (Forall2 limE)) (check_omegas_n one fuel n mus oms) (check_omegas fuel n mus' oms').
Proof.
  intros H HO. induction HO as [|o o' oms oms' HL HO IH]; cbn [check_omegas_n check_omegas]; [apply erz_ok; constructor|].
  apply (erz_bind (optT limE)); [apply check_omega_erz; auto|]. intros [a|] [b|] Hab; try contradiction; [|apply erz_ok; exact I].
  apply (erz_bind (optT (Forall2 limE))); [exact IH|]. intros [x|] [y|] Hxy; try contradiction; apply erz_ok; [constructor; auto|exact I].
Qed.
Lemma solver_new_erz n fuel mus mus' oms oms' : Forall2 muE mus mus' -> Forall2 limE oms oms' -> erz solverE (solver_new_n one fuel n mus oms) (solver_new fuel n mus' oms').
Proof.
  intros H HO. unfold solver_new_n, solver_new. rewrite (forall2_len _ _ _ H). destruct (negb _); [apply erz_ok, invalidE|].
  apply (erz_rel eq); [apply check_mus_rr; exact H|]. intros b ? <-. destruct b; [|apply erz_ok, invalidE]. cbn [negb].
  apply (erz_bind (optT (Forall2 limE))); [apply check_omegas_erz; auto|]. intros [x|] [y|] Hxy; try contradiction; apply erz_ok; [constructor; auto|apply invalidE].
Qed.

Definition entryE (a : nat * nat * OmegaLimit nz) (b : nat * nat * OmegaLimit Z) : Prop := fst a = fst b /\ limE (snd a) (snd b).
Lemma map_find_E m m' k : Forall2 entryE m m' -> optT limE (map_find m k) (map_find m' k).
Proof.
  induction 1 as [|[k1 v1] [k2 v2] m m' [E1 E2] H IH]; cbn [map_find]; [exact I|]. cbn [fst snd] in *. subst k2. destruct (key_eqb k1 k); [exact E2|exact IH].
Qed.
Lemma map_set_E m m' k v v' : Forall2 entryE m m' -> limE v v' -> Forall2 entryE (map_set m k v) (map_set m' k v').
Proof.
  intros H HV. induction H as [|[k1 v1] [k2 v2] m m' [E1 E2] H IH]; cbn [map_set]; [repeat constructor; exact HV|]. cbn [fst snd] in *. subst k2.
  destruct (key_eqb k1 k); [constructor; [split; auto|exact H]|]. destruct (key_ltb k k1); [|constructor; [split; auto|exact IH]].
  constructor; [split; auto|]. constructor; [split; auto|exact H].
Qed.
Lemma merge_loop_rr oms oms' : Forall2 limE oms oms' -> forall m m', Forall2 entryE m m' -> rr (optT (Forall2 entryE)) (merge_loop_n one oms m) (merge_loop oms' m').
Proof.
  induction 1 as [|o o' oms oms' HL H IH]; intros m m' HM; cbn [merge_loop_n merge_loop]; [apply rr_ok; exact HM|].
  apply (rr_bind limE).
  { assert (E : o_i o' = o_i o /\ o_j o' = o_j o) by (destruct HL; auto). destruct E as [-> ->]. destruct (o_i o <? o_j o)%nat; [apply reverse_rr; exact HL|apply rr_ok; exact HL]. }
  clear o o' HL. intros o o' HL. assert (E : o_i o' = o_i o /\ o_j o' = o_j o) by (destruct HL; auto). destruct E as [-> ->].
  assert (HF := map_find_E m m' (o_i o, o_j o) HM). destruct (map_find m (o_i o, o_j o)) as [a|], (map_find m' (o_i o, o_j o)) as [b|]; try contradiction.
  - apply (rr_bind pairE); [apply merge_rr; [exact HF|exact HL]|]. intros [a1 e1] [b1 e2] [Hab Ee]. cbn [fst snd] in *. subst e2.
    destruct e1; [apply rr_ok; exact I|]. apply IH, map_set_E; auto.
  - apply IH, map_set_E; auto.
Qed.
Lemma map_snd_E m m' : Forall2 entryE m m' -> Forall2 limE (map snd m) (map snd m').
Proof. induction 1 as [|a b m m' [_ H1] H IH]; cbn [map]; constructor; auto. Qed.
Lemma merge_limits_rr s s' : solverE s s' -> rr (optT (Forall2 limE)) (merge_limits_n one s) (merge_limits s').
Proof.
  intros [n mus mus' oms oms' HM HO]. unfold merge_limits_n, merge_limits. cbn [s_n s_mus s_oms]. apply (rr_bind (optT (Forall2 entryE))); [apply merge_loop_rr; [exact HO|constructor]|].
  intros [m|] [m'|] Hm; try contradiction; [|apply rr_ok; exact I]. apply (rr_bind (Forall2 limE)).
  - apply rr_for_each; [|constructor]. intros a b i Hab. apply (rr_bind muE); [apply vget_rr; exact HM|]. intros x x' [l u f f' Hf]. apply rr_ok.
    apply Forall2_app; [exact Hab|]. constructor; [constructor; exact Hf|constructor].
  - intros a b Hab. apply rr_ok. apply Forall2_app; [apply map_snd_E; exact Hm|exact Hab].
Qed.

(** the second pair of calls in [calc] repeats the first *)
Lemma erz_extra {A B B'} (Q : B -> B' -> Prop) (m : noted A) a k c : unnote m = Ok a -> erz Q (k a) c -> erz Q (nbind m k) c.
Proof.
  intros H HK. destruct m as [[x l]|]; cbn [unnote] in H; inversion H; subst. unfold erz in *. cbn [nbind]. destruct (k a) as [[? ?]|]; exact HK.
Qed.
Lemma calc_erz fuel ls ls' : Forall2 limE ls ls' -> erz eq (calc_n one fuel ls) (calc fuel ls').
Proof.
  intro H. unfold calc_n, calc. apply (erz_for_each2 limE); [exact H| |reflexivity]. intros [[vm M] U] ? o o' HL <-. assert (HM := limit_min_erz fuel o o' HL).
  destruct HL as [l u f f' i j Hf]. cbn [o_l o_u o_fn]. assert (Hl := Hf l). assert (Hu := Hf u). unfold erz in Hl, Hu.
  destruct (f' l) as [a|ea], (f l) as [[a' la]|ea'] eqn:El; cbn [unnote rr] in Hl; try contradiction; subst; [|reflexivity].
  destruct (f' u) as [b|eb], (f u) as [[b' lb]|eb'] eqn:Eu; cbn [unnote rr] in Hu; try contradiction; subst; [|reflexivity]. cbn [bind].
  apply (erz_extra eq _ a); [reflexivity|]. apply (erz_extra eq _ b); [reflexivity|]. apply (erz_extra eq _ a); [reflexivity|]. apply (erz_extra eq _ b); [reflexivity|].
  apply erz_eq; [exact HM|]. intro mi. apply erz_same; intro d. apply erz_ok. reflexivity.
Qed.

(** ** Flow *)
Ltac fld := cbn [f_n f_M f_eps f_nodes f_imb f_cur f_uq f_fa f_edges f_flows f_G f_scal with_eps with_nodes with_imb with_cur with_uq with_fa with_edges with_flows with_scal].

Lemma double_edges_rr k : forall E E', Forall2 limE E E' -> rr (Forall2 limE) (double_edges k E) (double_edges k E').
Proof.
  induction k as [|k IH]; intros E E' H; cbn [double_edges]; [apply rr_ok; exact H|]. apply (rr_bind limE); [apply vget_rr; exact H|]. intros e e' He.
  apply (rr_bind (Forall2 limE)); [apply vset_rr; auto|]. intros E1 E1' H1. apply (rr_bind (Forall2 limE)); [apply vset_rr; auto|]. intros E2 E2' H2.
  apply (rr_bind limE); [apply reverse_rr; exact He|]. intros r r' Hr. apply (rr_bind (Forall2 limE)); [apply vset_rr; auto|]. intros E3 E3' H3. apply IH. exact H3.
Qed.
Lemma build_G_rr E E' G : Forall2 limE E E' -> rr eq (build_G E G) (build_G E' G).
Proof.
  intro H. unfold build_G. rewrite (forall2_len _ _ _ H). apply rr_for_each; [|reflexivity]. intros g ? x <-. apply (rr_bind limE); [apply vget_rr; exact H|].
  intros e e' [l u f f' i j _]. cbn [o_i]. apply rr_same; intro y. apply rr_refl. reflexivity.
Qed.
Lemma repeat_E n : Forall2 limE (repeat OmegaLimit0 n) (repeat OmegaLimit0 n).
Proof. induction n; cbn [repeat]; constructor; [|assumption]. constructor. intro x. reflexivity. Qed.

Inductive stE (E : list (OmegaLimit Z)) : flow Z -> flow Z -> Prop :=
| stE_i n M eps nd imb cur uq fa fl G sc : stE E (mkFlow n M eps nd imb cur uq fa [] fl G sc) (mkFlow n M eps nd imb cur uq fa E fl G sc).
Lemma flow_new_rr fuel n M U ls ls' : Forall2 limE ls ls' ->
  rr (fun f s => Forall2 limE (fst f) (f_edges s) /\ stE (f_edges s) (snd f) s) (flow_new_n one fuel n M U ls) (flow_new fuel n M U ls').
Proof.
  intro H. unfold flow_new_n, flow_new. apply rr_same; intro eps. apply rr_same; intro. rewrite (forall2_len _ _ _ H). apply (rr_bind (Forall2 limE)).
  { apply double_edges_rr. apply Forall2_app; [exact H|apply repeat_E]. }
  intros E E' HE. apply (rr_bind eq); [apply build_G_rr; exact HE|]. intros G ? <-. apply rr_ok. rewrite (forall2_len _ _ _ HE). cbn [fst snd f_edges]. split; [exact HE|constructor].
Qed.

Section Edges.
Variable es : list (OmegaLimit nz).
Variable E : list (OmegaLimit Z).
Hypothesis HE : Forall2 limE es E.
Notation st := (stE E).
Ltac dst HS := destruct HS as [n M eps nd imb cur uq fa fl G sc].

Lemma q_erz s0 s e : st s0 s -> erz eq (q_n one es s0 e) (q s e).
Proof.
  intros HS; dst HS. unfold q_n, q. fld. apply (erz_rel limE); [apply vget_rr; exact HE|]. intros o o' [l u f f' i j Hf]. cbn [o_l o_u o_fn o_i o_j].
  do 6 (apply erz_same; intro). destruct (u <? _); [apply erz_ok; reflexivity|]. destruct (_ <? l); [apply erz_ok; reflexivity|].
  apply erz_eq; [apply Hf|]. intro y. apply erz_eq; [apply Hf|]. intro z. apply erz_ok. reflexivity.
Qed.
Lemma add_flow_rr s0 s e x : st s0 s -> rr st (add_flow_of_edge s0 e x) (add_flow_of_edge s e x).
Proof. intros HS; dst HS. unfold add_flow_of_edge. fld. do 4 (apply rr_same; intro). apply rr_ok. constructor. Qed.
Lemma link_erz fuel s0 s p : st s0 s -> erz st (link_n one es fuel s0 p) (link fuel s p).
Proof.
  intros HS; dst HS. unfold link_n, link. fld. do 3 (apply erz_same; intro). apply (erz_rel limE); [apply vget_rr; exact HE|].
  intros o o' [l u f f' i j Hf]. cbn [o_j]. apply erz_same; intro fa'. cbv zeta. fld. apply erz_eq; [apply q_erz; constructor|]. intro v. do 3 (apply erz_same; intro). apply erz_ok. constructor.
Qed.
Lemma flow_cut_erz fuel s0 s p : st s0 s -> erz st (flow_cut_n one es fuel s0 p) (flow_cut fuel s p).
Proof.
  intros HS; dst HS. unfold flow_cut_n, flow_cut. fld. do 5 (apply erz_same; intro). apply erz_eq; [apply q_erz; constructor|]. intro v.
  apply erz_same; intros [h y]. apply erz_still, add_flow_rr. constructor.
Qed.
Lemma send_push_erz fuel s0 s p r x : st s0 s -> erz st (send_push_n one fuel s0 p r x) (send_push fuel s p r x).
Proof.
  intros HS; dst HS. unfold send_push_n, send_push. fld. apply erz_same; intro h. cbv zeta. fld. apply erz_still. do 5 (apply rr_same; intro).
  destruct (dlt _ _); [apply rr_same; intro|]; apply rr_ok; constructor.
Qed.
Lemma send_loop_erz fuel0 fuel : forall s0 s p r, st s0 s -> erz st (send_loop_n one es fuel0 fuel s0 p r) (send_loop fuel0 fuel s p r).
Proof.
  induction fuel as [|fuel IH]; intros s0 s p r HS; cbn [send_loop_n send_loop]; destruct (Nat.eqb p r); try (apply erz_ok; exact HS); [apply erz_err|].
  dst HS. fld. apply erz_same; intros [h m]. fld. apply erz_same; intro a.
  destruct (dlt a (fst m)); [apply send_push_erz; constructor|]. apply (erz_bind st); [apply send_push_erz; constructor|]. intros s0 s HS.
  destruct (snd m) as [r'|]; [|apply erz_err]. apply (erz_bind st); [apply flow_cut_erz; exact HS|]. intros; apply IH; assumption.
Qed.
Lemma send_erz fuel s0 s p : st s0 s -> erz st (send_n one es fuel s0 p) (send fuel s p).
Proof. intros HS; dst HS. unfold send_n, send. fld. apply erz_same; intros [h r]. apply send_loop_erz. constructor. Qed.
Lemma update_scaling_erz fuel s0 s p : st s0 s -> erz st (update_scaling_n one es fuel s0 p) (update_scaling fuel s p).
Proof.
  intros HS. unfold update_scaling_n, update_scaling. replace (f_G s0) with (f_G s) by (dst HS; reflexivity). apply erz_same; intro g. apply (erz_bind st).
  - apply erz_for_each; [|exact HS]. clear s0 s HS. intros s0 s e HS. assert (HC := flow_cut_erz fuel s0 s). dst HS. fld.
    apply (erz_rel limE); [apply vget_rr; exact HE|]. intros o o' [l u f f' i j Hf]. cbn [o_j]. apply erz_same; intro a. destruct (ptr_eqb a (Some p)); [apply HC|apply erz_ok]; constructor.
  - intros x y HX. dst HX. fld. apply erz_still. do 4 (apply rr_same; intro). apply rr_ok. constructor.
Qed.
Lemma choice_loop_erz fuel0 fuel : forall s0 s p, st s0 s -> erz st (choice_loop_n one es fuel0 fuel s0 p) (choice_loop fuel0 fuel s p).
Proof.
  induction fuel as [|fuel IH]; intros s0 s p HS; cbn [choice_loop_n choice_loop]; [apply erz_err|].
  assert (HQ := fun e => q_erz s0 s e HS). assert (HL := link_erz fuel0 s0 s p HS). assert (HU := update_scaling_erz fuel0 s0 s p HS).
  assert (HW : forall cu, st (with_cur s0 cu) (with_cur s cu)) by (intro; dst HS; constructor).
  replace (f_cur s0) with (f_cur s) by (dst HS; reflexivity). replace (f_G s0) with (f_G s) by (dst HS; reflexivity).
  apply erz_same; intro c. apply erz_same; intro g. destruct (c <? length g)%nat; [|exact HU]. apply erz_same; intro e. apply erz_eq; [apply HQ|]. intro v.
  destruct (dlt dzero v); [|apply erz_same; intro; apply IH, HW]. apply (erz_bind st); [exact HL|]. intros; apply send_erz; assumption.
Qed.
Lemma refine_loop_erz fuel0 fuel : forall s0 s, st s0 s -> erz st (refine_loop_n one es fuel0 fuel s0) (refine_loop fuel0 fuel s).
Proof.
  induction fuel as [|fuel IH]; intros s0 s HS; cbn [refine_loop_n refine_loop]; (replace (f_uq s0) with (f_uq s) by (dst HS; reflexivity)); destruct (uq_empty (f_uq s)); try (apply erz_ok; exact HS); [apply erz_err|].
  apply erz_same; intro p. apply (erz_bind st); [apply choice_loop_erz; exact HS|]. clear s0 s HS. intros s0 s HS. replace (f_uq s0) with (f_uq s) by (dst HS; reflexivity).
  replace (f_imb s0) with (f_imb s) by (dst HS; reflexivity). apply erz_same; intro p'. apply erz_same; intro a. apply (erz_rel st); [|intros; apply IH; assumption].
  destruct (deq a dzero); [|apply rr_ok; exact HS]. apply rr_same; intro u. apply rr_ok. dst HS; constructor.
Qed.
Lemma cut_all_erz fuel s0 s : st s0 s -> erz st (cut_all_n one es fuel s0) (cut_all fuel s).
Proof.
  intro HS. unfold cut_all_n, cut_all. replace (f_n s0) with (f_n s) by (dst HS; reflexivity). apply erz_for_each; [|exact HS]. clear s0 s HS. intros s0 s i HS.
  replace (f_fa s0) with (f_fa s) by (dst HS; reflexivity). apply erz_same; intros [a|]; [apply flow_cut_erz; exact HS|apply erz_ok; exact HS].
Qed.
Lemma push_all_erz s0 s : st s0 s -> erz st (push_all_n one es s0) (push_all_admissible_edge s).
Proof.
  intro HS. unfold push_all_n, push_all_admissible_edge. assert (EL : f_edges s = E) by (dst HS; reflexivity). rewrite EL at 1. rewrite (forall2_len _ _ _ HE). clear EL. apply (erz_bind st).
  - apply erz_for_each; [|exact HS]. clear s0 s HS. intros s0 s e HS. assert (HQ := q_erz s0 s e HS). dst HS. fld.
    apply (erz_rel limE); [apply vget_rr; exact HE|]. intros o o' [l u f f' i j Hf]. cbn [o_i o_j]. apply erz_eq; [exact HQ|]. intro v. destruct (dlt dzero v); [|apply erz_ok; constructor].
    apply erz_still. do 4 (apply rr_same; intro). apply add_flow_rr. constructor.
  - clear s0 s HS. intros s0 s HS. apply erz_still. replace (f_n s0) with (f_n s) by (dst HS; reflexivity). apply rr_for_each; [|exact HS]. clear s0 s HS. intros s0 s i HS.
    replace (f_imb s0) with (f_imb s) by (dst HS; reflexivity). replace (f_uq s0) with (f_uq s) by (dst HS; reflexivity). apply rr_same; intro a.
    destruct (dlt dzero a); [apply rr_same; intro u|]; apply rr_ok; dst HS; constructor.
Qed.
Lemma phase_erz fuel s0 s : st s0 s -> erz st (phase_n one es fuel s0) (phase fuel s).
Proof.
  intro HS. unfold phase_n, phase, refine_n, refine. apply (erz_bind st); [apply push_all_erz; dst HS; constructor|]. clear s0 s HS. intros s0 s HS.
  apply (erz_bind st); [apply refine_loop_erz; exact HS|]. intros; apply cut_all_erz; assumption.
Qed.
Lemma scaling_loop_erz fuel0 fuel : forall s0 s, st s0 s -> erz st (scaling_loop_n one es fuel0 fuel s0) (scaling_loop fuel0 fuel s).
Proof.
  induction fuel as [|fuel IH]; intros s0 s HS; cbn [scaling_loop_n scaling_loop]; (replace (f_eps s0) with (f_eps s) by (dst HS; reflexivity)); destruct (f_eps s <? 2); try (apply erz_ok; exact HS); [apply erz_err|].
  apply (erz_bind st); [apply phase_erz; exact HS|]. clear s0 s HS. intros s0 s HS. replace (f_eps s0) with (f_eps s) by (dst HS; reflexivity). apply IH. dst HS; constructor.
Qed.
End Edges.

Lemma sum_answer_erz fuel es s0 s : Forall2 limE es (f_edges s) -> f_flows s0 = f_flows s ->
  erz (fun x y => snd x = snd y) (sum_answer_n one fuel es s0) (sum_answer fuel s).
Proof.
  intros HE Hf. unfold sum_answer_n, sum_answer. rewrite (forall2_len _ _ _ HE).
  set (R := fun (x : list (OmegaLimit nz) * Z) (y : flow Z * Z) => Forall2 limE (fst x) (f_edges (fst y)) /\ f_flows s0 = f_flows (fst y) /\ snd x = snd y).
  assert (W : forall m m', erz R m m' -> erz (fun x y => snd x = snd y) m m').
  { unfold erz. intros m m' H. destruct (unnote m), m'; try contradiction; [apply H|exact H]. }
  apply W. apply erz_for_each; [|split; [exact HE|split; [exact Hf|reflexivity]]]. intros [es1 a1] [s1 a2] e (X1 & X3 & X4). cbn [fst snd] in *. subst a2. rewrite X3.
  apply (erz_rel limE); [apply vget_rr; exact X1|]. intros o o' HO. apply erz_same; intro x. cbv zeta.
  assert (HT : limE (tilt_n one o x) (tilt o' x)).
  { destruct HO as [l u f f' i j Hff]. constructor. intro w. cbn [o_fn]. apply erz_eq; [apply Hff|]. intro y. apply erz_ok. reflexivity. }
  apply (erz_rel (Forall2 limE)); [apply vset_rr; auto|]. intros E1 E1' H1. apply erz_eq; [apply limit_min_erz; exact HT|]. intro m. apply erz_ok. split; [exact H1|]. split; [exact X3|reflexivity].
Qed.

Lemma min_cost_erz fuel es s0 s : Forall2 limE es (f_edges s) -> stE (f_edges s) s0 s ->
  erz (fun x y => x = snd y) (min_cost_n one fuel es s0) (min_cost fuel s).
Proof.
  intros HE HS. unfold min_cost_n, min_cost. apply (erz_bind (stE (f_edges s))); [apply scaling_loop_erz; assumption|]. intros x y HX.
  assert (Ed : f_edges y = f_edges s) by (destruct HX; reflexivity).
  apply (erz_bind (fun x y => snd x = snd y)); [apply sum_answer_erz; [rewrite Ed; exact HE|destruct HX; reflexivity]|]. intros [a x1] [b y1] H. cbn [snd] in *. subst. apply erz_ok. reflexivity.
Qed.

Lemma solve_erz fuel s s' : solverE s s' -> erz eq (solve_n one fuel s) (solve fuel s').
Proof.
  intro HS. unfold solve_n, solve. replace (s_n s') with (s_n s) by (destruct HS; reflexivity). destruct (s_n s =? SIZE_MAX); [apply erz_ok; reflexivity|].
  apply (erz_rel (optT (Forall2 limE))); [apply merge_limits_rr; exact HS|]. intros [ls|] [ls'|] HL; try contradiction; [|apply erz_ok; reflexivity].
  apply erz_eq; [apply calc_erz; exact HL|]. intros [[vm M] U]. apply (erz_rel (fun f s => Forall2 limE (fst f) (f_edges s) /\ stE (f_edges s) (snd f) s)); [apply flow_new_rr; exact HL|].
  intros [es a] b [H1 H2]. cbn [fst snd] in *.
  apply (erz_bind (fun x y => x = snd y)); [apply min_cost_erz; assumption|]. intros x [b1 y] E. cbn [snd] in E. subst x. destruct (dlt vm y); apply erz_ok; reflexivity.
Qed.

Theorem run_solver_unnote fuel n mus oms : unnote (run_solver_n one fuel n (note_mus 0 mus) (note_oms 0 oms)) = run_solver fuel n mus oms.
Proof.
  assert (N : forall who f, fnE (note who f) f) by (intros who f x; unfold erz, note; destruct (f x); reflexivity).
  assert (X : erz eq (run_solver_n one fuel n (note_mus 0 mus) (note_oms 0 oms)) (run_solver fuel n mus oms)).
  { unfold run_solver_n, run_solver. apply (erz_bind solverE); [|intros; apply solve_erz; assumption]. apply solver_new_erz.
    - generalize O. induction mus as [|[l u f] mus IH]; intro k; cbn [note_mus]; constructor; [constructor; apply N|apply IH].
    - generalize O. induction oms as [|[l u f i j] oms IH]; intro k; cbn [note_oms]; constructor; [constructor; apply N|apply IH]. }
  unfold erz in X. destruct (unnote _), (run_solver _ _ _ _); try contradiction; cbn [rr] in X; congruence.
Qed.
End Erase.
