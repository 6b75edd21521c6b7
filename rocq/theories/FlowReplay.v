(** * The recorded calls of the link-cut tree are permitted and replay the run *)
From Verif Require Import Base BaseLemmas Data UniqueQueue LCT LCTForest LCTOps LCTSpec LCTRun LCTChecked ProblemDefine Flow Sums FlowChecked FlowInv.
From Verif Require Import LCTTime LCTCount FlowTime FlowSteps FuelMono WorkSpec FlowCount LCTAmortRun FlowLog.
Local Open Scope Z_scope.

(** ** Recorded computations *)
Lemma lbind_inv {A B} (m : logged A) (k : A -> logged B) b l : lbind m k = Ok (b, l) ->
  exists a i j, m = Ok (a, i) /\ k a = Ok (b, j) /\ l = i ++ j.
Proof.
  destruct m as [[a i]|]; cbn [lbind]; [|discriminate]. destruct (k a) as [[b' j]|] eqn:E; [|discriminate].
  intro H. inversion H; subst. eauto 6.
Qed.

Lemma quiet_inv {A} (m : res A) a l : quiet m = Ok (a, l) -> m = Ok a /\ l = [].
Proof. destruct m; cbn [quiet]; intro H; inversion H; auto. Qed.

Lemma call_inv {A} op (m : res A) a l : call_log op m = Ok (a, l) -> m = Ok a /\ l = [op].
Proof. destruct m; cbn [call_log]; intro H; inversion H; auto. Qed.

Lemma unlogged {A} (m : logged A) a l : m = Ok (a, l) -> unlog m = Ok a.
Proof. intros ->. reflexivity. Qed.

Lemma unlog_inv {A} (m : logged A) a : unlog m = Ok a -> exists l, m = Ok (a, l).
Proof. destruct m as [[b l]|]; cbn [unlog]; intro H; inversion H; subst. eauto. Qed.

(** ** Links are followed by an access *)
Definition settled (os : list lct_op) : Prop := forall b, eager b -> eager (os ++ b).

Lemma settled_nil : settled [].
Proof. intros b H. exact H. Qed.

Lemma settled_app a b : settled a -> settled b -> settled (a ++ b).
Proof. intros Ha Hb c Hc. rewrite <- app_assoc. apply Ha, Hb, Hc. Qed.

Lemma settled_eager a : settled a -> eager a.
Proof. intro H. specialize (H [] I). rewrite app_nil_r in H. exact H. Qed.

Section Replay.
Variable one : Z.
#[local] Hint Extern 0 (DataOps Z) => exact (exact_ops one) : typeclass_instances.
Variable okd : Z -> bool.
Variables (N fuel : nat).
Hypothesis Hfuel : (N < fuel)%nat.

(** ** Replaying *)
Definition holds (fa : list (option nat)) (h : heap Z) (f : forest) : Prop :=
  vec fa N (parent f) /\ length h = N /\ Rep h (parent f) (value f).

(** the calls [os] are permitted and turn the nodes of [s] into those of [s'] *)
Definition replay (os : list lct_op) (s s' : flow Z) : Prop :=
  forall f, holds (f_fa s) (f_nodes s) f ->
  exists f' outs, holds (f_fa s') (f_nodes s') f' /\ lct_run N f os f' outs /\ lct_calls one fuel (f_nodes s) os = Ok (f_nodes s', outs).

Lemma replay_nil s s' : f_fa s' = f_fa s -> f_nodes s' = f_nodes s -> replay [] s s'.
Proof. intros E1 E2 f H. rewrite E1, E2. exists f, []. split; [exact H|]. split; [constructor|reflexivity]. Qed.

Lemma run_app f os1 f1 o1 os2 f2 o2 : lct_run N f os1 f1 o1 -> lct_run N f1 os2 f2 o2 -> lct_run N f (os1 ++ os2) f2 (o1 ++ o2).
Proof. induction 1 as [f|f op f1' o os f2' outs H1 H2 IH]; intro H; cbn [app]; [exact H|]. econstructor; eauto. Qed.

Lemma calls_app os1 : forall h os2 h1 o1 h2 o2, lct_calls one fuel h os1 = Ok (h1, o1) -> lct_calls one fuel h1 os2 = Ok (h2, o2) ->
  lct_calls one fuel h (os1 ++ os2) = Ok (h2, o1 ++ o2).
Proof.
  induction os1 as [|op os1 IH]; intros h os2 h1 o1 h2 o2 H1 H2; cbn [app lct_calls] in *.
  - inversion H1; subst. exact H2.
  - apply bind_inv in H1. destruct H1 as ([ha oa] & E1 & H1). apply bind_inv in H1. destruct H1 as ([hb ob] & E2 & H1). inversion H1; subst.
    rewrite E1. cbn [bind]. rewrite (IH _ _ _ _ _ _ E2 H2). reflexivity.
Qed.

Lemma replay_app os1 os2 s s1 s2 : replay os1 s s1 -> replay os2 s1 s2 -> replay (os1 ++ os2) s s2.
Proof.
  intros H1 H2 f H. destruct (H1 f H) as (f1 & o1 & A1 & A2 & A3). destruct (H2 f1 A1) as (f2 & o2 & B1 & B2 & B3).
  exists f2, (o1 ++ o2). split; [exact B1|]. split; [eapply run_app; eauto|eapply calls_app; eauto].
Qed.

(** [good k os s s']: moreover there are at most [k] of them, and links are followed by an access *)
Definition good (k : nat) (os : list lct_op) (s s' : flow Z) : Prop := replay os s s' /\ settled os /\ (length os <= k)%nat.

Lemma good_nil k s s' : f_fa s' = f_fa s -> f_nodes s' = f_nodes s -> good k [] s s'.
Proof. clear Hfuel. intros. split; [apply replay_nil; auto|]. split; [apply settled_nil|cbn; lia]. Qed.

Lemma good_app k1 k2 k os1 os2 s s1 s2 : good k1 os1 s s1 -> good k2 os2 s1 s2 -> (k1 + k2 <= k)%nat -> good k (os1 ++ os2) s s2.
Proof.
  clear Hfuel. intros (A1 & A2 & A3) (B1 & B2 & B3) Hk. split; [eapply replay_app; eauto|]. split; [apply settled_app; auto|]. rewrite app_length. lia.
Qed.

Lemma good_le k k' os s s' : good k os s s' -> (k <= k')%nat -> good k' os s s'.
Proof. clear Hfuel. intros (A1 & A2 & A3) H. split; [exact A1|]. split; [exact A2|lia]. Qed.

Ltac binv H := let a := fresh "a" in let E := fresh "E" in apply bind_inv in H; destruct H as (a & E & H); cbv beta zeta in H.
Tactic Notation "linv" hyp(H) ident(a) ident(i) ident(E) :=
  let j := fresh "jj" in let X := fresh "X" in
  apply lbind_inv in H; destruct H as (a & i & j & E & H & X); cbv beta zeta in H.
Ltac qinv H := apply quiet_inv in H; destruct H as [H ->].
Tactic Notation "lquiet" hyp(H) ident(a) ident(E) :=
  let j := fresh "jj" in let i := fresh "ii" in
  apply lbind_inv in H; destruct H as (a & i & j & E & H & ->); cbv beta zeta in H; apply quiet_inv in E; destruct E as [E ->]; cbn [app].
Tactic Notation "lcall" hyp(H) ident(a) ident(E) :=
  let j := fresh "jj" in let i := fresh "ii" in
  apply lbind_inv in H; destruct H as (a & i & j & E & H & ->); cbv beta zeta in H; apply call_inv in E; destruct E as [E ->]; cbn [app].

(** ** Cutting and linking *)
Lemma flow_cut_good s p s' os s2 : flow_cut_chk okd fuel s p = Ok s' -> flow_cut_l one fuel s p = Ok (s2, os) ->
  s2 = s' /\ good 2 os s s'.
Proof.
  intros HC HT.
  assert (E : s2 = s').
  { assert (A := flow_cut_unlog one fuel s p). rewrite HT in A. cbn [unlog] in A. rewrite (flow_cut_chk_sim okd fuel s p s' HC) in A. congruence. }
  subst s2. split; [reflexivity|].
  unfold flow_cut_chk in HC. binv HC. destruct (has_parent (f_fa s) p) eqn:HP; [|discriminate]. clear E HC.
  unfold has_parent in HP. destruct (nth_error (f_fa s) p) as [[j|]|] eqn:En; try discriminate.
  unfold flow_cut_l in HT. lquiet HT fa0 T0. apply vset_inv in T0. destruct T0 as [_ ->]. lcall HT ha T1. cbn [f_nodes with_fa] in T1.
  lquiet HT g T2. lquiet HT c T3. lquiet HT e T4. lquiet HT v T5. lcall HT r T6. cbn [f_nodes with_nodes] in T6. destruct r as [hb w]. qinv HT.
  split; [|split; [|cbn; lia]].
  2:{ intros b Hb. exact Hb. }
  intros f (HV & HL & HR).
  assert (Hp : (p < N)%nat) by (rewrite <- (vec_len _ _ _ HV); apply nth_error_Some; congruence).
  rewrite (vec_nth _ _ _ HV p Hp) in En. inversion En as [Ep].
  destruct (cut_ok one fuel _ _ _ _ _ HR ltac:(rewrite HL; exact Hp) ltac:(rewrite HL; exact Hfuel) Ep) as (h1 & E1 & L1 & R1).
  rewrite E1 in T1. inversion T1; subst ha.
  destruct (get_val_ok one fuel _ _ _ p R1 ltac:(lia) ltac:(lia)) as (h2 & E2 & L2 & R2).
  rewrite E2 in T6. inversion T6; subst hb w.
  unfold add_flow_of_edge in HT. repeat binv HT. inversion HT; subst s'. cbn [f_fa f_nodes with_flows with_nodes with_fa].
  exists (mkForest (set_parent (parent f) p None) (value f)), [ONone; OVal (value f p)]. split; [|split].
  - split; [|split; [lia|exact R2]]. cbn [parent]. eapply vec_ext; [apply vec_upd; eauto|]. intros i9 _. unfold fup, set_parent. reflexivity.
  - econstructor; [eapply step_cut; eauto|]. econstructor; [apply (step_get_val N (mkForest _ _) p Hp)|]. constructor.
  - cbn [lct_calls lct_call]. rewrite E1. cbn [bind]. rewrite E2. reflexivity.
Qed.

Lemma link_replay s p s' os s2 : link_chk okd fuel s p = Ok s' -> link_l one fuel s p = Ok (s2, os) ->
  s2 = s' /\ (exists v j, os = [SetVal p v; SetFa p j]) /\ replay os s s' /\ (vec (f_fa s) N (fun i => nth i (f_fa s) None) -> (p < N)%nat).
Proof.
  intros HC HT.
  assert (E : s2 = s').
  { assert (A := link_unlog one fuel s p). rewrite HT in A. cbn [unlog] in A. rewrite (link_chk_sim okd fuel s p s' HC) in A. congruence. }
  subst s2. split; [reflexivity|].
  unfold link_chk in HC. binv HC. rename E into EP. binv HC. destruct a as [|]; [|discriminate]. clear E HC.
  unfold link_pre in EP. do 4 binv EP. inversion EP as [HP]. apply andb_true_iff in HP. destruct HP as [HP HO]. clear EP.
  unfold is_root in HP. destruct (nth_error (f_fa s) p) as [[j|]|] eqn:En; try discriminate.
  destruct (root_of (length (f_fa s)) (f_fa s) (o_j a3)) as [r|] eqn:Er; [|discriminate].
  unfold link_l in HT. lquiet HT g T2. lquiet HT c T3. lquiet HT e T4. lquiet HT ee T5.
  assert (ee = a3) by congruence. subst ee.
  lquiet HT fa0 T0. apply vset_inv in T0. destruct T0 as [_ ->]. lquiet HT v T6. lcall HT ha T1. cbn [f_nodes with_fa] in T1.
  lquiet HT nd T7. apply vget_inv in T7. cbn [f_nodes with_fa] in T7. lcall HT hb T8. qinv HT. inversion HT; subst s'. clear HT.
  split; [eauto|]. split.
  2:{ intro HV. rewrite <- (vec_len _ _ _ HV). apply nth_error_Some. congruence. }
  intros f (HV & HL & HR).
  assert (Hp : (p < N)%nat) by (rewrite <- (vec_len _ _ _ HV); apply nth_error_Some; congruence).
  rewrite (vec_nth _ _ _ HV p Hp) in En. inversion En as [Ep].
  destruct (root_of_inv _ _ _ HV _ _ _ Er) as [l Hl].
  destruct (set_val_ok one fuel _ _ _ p v HR ltac:(rewrite HL; exact Hp) ltac:(rewrite HL; exact Hfuel)) as (h1 & E1' & L1 & R1).
  rewrite E1' in T1. inversion T1; subst ha.
  assert (Hj : (o_j a3 < N)%nat) by (rewrite <- HL; apply nth_error_Some; congruence).
  assert (Hn : ~ In p (l ++ [r])).
  { intro Hi. rewrite <- (path_root_end _ _ _ _ _ Hl Ep Hi) in HO. rewrite Nat.eqb_refl in HO. discriminate. }
  destruct (set_fa_ok one fuel _ _ _ p (o_j a3) _ R1 ltac:(lia) ltac:(lia) ltac:(lia) Ep Hl Hn) as (h2 & E2' & L2 & R2).
  rewrite E2' in T8. inversion T8; subst hb. cbn [f_fa f_nodes with_nodes with_fa].
  exists (mkForest (set_parent (parent f) p (Some (o_j a3))) (set_value (value f) p v)), [ONone; ONone]. split; [|split].
  - split; [|split; [lia|exact R2]]. cbn [parent]. eapply vec_ext; [apply vec_upd; eauto|]. intros i9 _. unfold fup, set_parent. reflexivity.
  - econstructor; [apply step_set_val; exact Hp|]. econstructor; [apply (step_set_fa N (mkForest _ _) p (o_j a3) (l ++ [r]) Hp Hj Ep Hl Hn)|]. constructor.
  - cbn [lct_calls lct_call]. rewrite E1'. cbn [bind]. rewrite E2'. reflexivity.
Qed.

(** ** Sending *)
Lemma send_push_good s p r x s' os s2 : send_push_chk okd fuel s p r x = Ok s' -> (length (f_fa s) = N -> (p < N)%nat) ->
  send_push_l one fuel s p r x = Ok (s2, os) -> s2 = s' /\ good 1 os s s'.
Proof.
  intros HC Hp0 HT.
  assert (E : s2 = s').
  { assert (A := send_push_unlog one fuel s p r x). rewrite HT in A. cbn [unlog] in A. rewrite (send_push_chk_sim okd fuel s p r x s' HC) in A. congruence. }
  subst s2. split; [reflexivity|]. unfold send_push_l in HT. lcall HT ha T1. qinv HT.
  split; [|split; [intros b Hb; exact Hb|cbn; lia]].
  intros f (HV & HL & HR). assert (Hp : (p < N)%nat) by (apply Hp0; apply (vec_len _ _ _ HV)).
  destruct (wf_path (length (f_nodes s)) (parent f) (proj2 HR) p ltac:(lia)) as [lx Hx].
  destruct (add_path_ok one fuel _ _ _ p lx (dopp x) HR ltac:(rewrite HL; exact Hp) ltac:(rewrite HL; exact Hfuel) Hx) as (h1 & E1 & L1 & R1).
  rewrite E1 in T1. inversion T1; subst ha.
  assert (X9 : f_fa s' = f_fa s /\ f_nodes s' = h1).
  { clear - HT. repeat binv HT. destruct (dlt dzero _); [binv HT|]; inversion HT; subst; auto. }
  destruct X9 as [A1 A2]. rewrite A1, A2.
  exists (mkForest (parent f) (add_values (value f) lx (dopp x))), [ONone]. split; [|split].
  - split; [exact HV|]. split; [lia|exact R1].
  - econstructor; [eapply step_add_path; eauto|]. constructor.
  - cbn [lct_calls lct_call]. rewrite E1. reflexivity.
Qed.

Lemma send_loop_good : forall k c c' s p r s' os s1 s2, send_loop_chk okd fuel k s p r = Ok s' ->
  send_loop fuel c s p r = Ok s1 -> send_loop_l one fuel c' s p r = Ok (s2, os) ->
  s2 = s' /\ good (4 * c) os s s'.
Proof.
  induction k as [|k IH]; intros c c' s p r s' os s1 s2 HC H HT.
  { cbn [send_loop_chk] in HC. destruct (Nat.eqb p r) eqn:Ep; [|discriminate]. inversion HC; subst.
    destruct c'; cbn [send_loop_l] in HT; rewrite Ep in HT; qinv HT; inversion HT; subst; (split; [reflexivity|]; apply good_nil; reflexivity). }
  cbn [send_loop_chk] in HC. destruct (Nat.eqb p r) eqn:Ep.
  { inversion HC; subst.
    destruct c'; cbn [send_loop_l] in HT; rewrite Ep in HT; qinv HT; inversion HT; subst; (split; [reflexivity|]; apply good_nil; reflexivity). }
  destruct c as [|c]; cbn [send_loop] in H; rewrite Ep in H; [discriminate|].
  destruct c' as [|c']; cbn [send_loop_l] in HT; rewrite Ep in HT; [discriminate|].
  binv HC. destruct (has_parent (f_fa s) p) eqn:HP; [|discriminate]. clear E.
  binv HC. destruct (ptr_eqb (root_of (length (f_fa s)) (f_fa s) p) (Some r)) eqn:Er; [|discriminate]. clear E.
  apply bind_inv in HC. destruct HC as ([h m] & EM & HC). cbv beta zeta in HC. apply (get_min_chk_sim okd) in EM.
  rewrite EM in H. cbn [bind] in H. cbv beta zeta in H.
  unfold has_parent in HP. destruct (nth_error (f_fa s) p) as [[j|]|] eqn:En; try discriminate.
  apply lbind_inv in HT. destruct HT as (rm & i1 & j1 & T1 & HT & ->). cbv beta zeta in HT. apply call_inv in T1. destruct T1 as [T1 ->].
  rewrite EM in T1. inversion T1; subst rm. clear T1.
  assert (G1 : good 1 [GetMin p] s (with_nodes s h)).
  { split; [|split; [intros b Hb; exact Hb|cbn; lia]]. intros f (HV & HL & HR).
    assert (Hp : (p < N)%nat) by (rewrite <- (vec_len _ _ _ HV); apply nth_error_Some; congruence).
    rewrite (vec_nth _ _ _ HV p Hp) in En. inversion En as [Epar].
    destruct (root_of (length (f_fa s)) (f_fa s) p) as [r'|] eqn:Er'; [|discriminate].
    destruct (root_of_inv _ _ _ HV _ _ _ Er') as [l Hl].
    destruct l as [|b0 l].
    { inversion Hl as [z Hz|z w l1 Hz Hq]; subst; [congruence|inversion Hq]. }
    destruct (least_on_path (value f) (b0 :: l)) as (below & y & above & El & B1 & B2); [discriminate|]. rewrite El in Hl.
    destruct (get_min_ok one fuel _ _ _ p r' below y above HR ltac:(rewrite HL; exact Hp) ltac:(rewrite HL; exact Hfuel) Hl B1 B2) as (h1 & E1 & L1 & R1).
    rewrite EM in E1. inversion E1; subst. cbn [f_fa f_nodes with_nodes]. exists f, [OMin (value f y) y]. split; [split; [exact HV|split; [lia|exact R1]]|]. split.
    - econstructor; [eapply step_get_min; eauto|]. constructor.
    - cbn [lct_calls lct_call]. rewrite EM. reflexivity. }
  assert (Hlt : length (f_fa s) = N -> (p < N)%nat) by (intros <-; apply nth_error_Some; congruence).
  apply lbind_inv in HT. destruct HT as (im & i2 & j2 & T2 & HT & ->). cbv beta zeta in HT. apply quiet_inv in T2. destruct T2 as [T2 ->]. cbn [app].
  binv HC. binv H. assert (a1 = im) by congruence. assert (a2 = im) by congruence. subst a1 a2.
  change (GetMin p :: j2) with ([GetMin p] ++ j2).
  destruct (dlt im (fst m)) eqn:Ed.
  - destruct (send_push_good _ _ _ _ _ _ _ HC Hlt HT) as (A1 & A2). split; [exact A1|]. eapply good_app; [exact G1|exact A2|lia].
  - apply lbind_inv in HT. destruct HT as (sa & i3 & j3 & T3 & HT & ->). cbv beta zeta in HT. binv HC. rename E1 into E3.
    destruct (send_push_good _ _ _ _ _ _ _ E3 Hlt T3) as (A1 & A2). subst sa.
    binv H. match type of E1 with _ = Ok ?z => assert (z = a1) by (apply (send_push_chk_sim okd) in E3; congruence); subst z end.
    destruct (snd m) as [y|]; [|discriminate]. binv HC. apply lbind_inv in HT. destruct HT as (sb & i4 & j4 & T4 & HT & ->). cbv beta zeta in HT.
    destruct (flow_cut_good _ _ _ _ _ E2 T4) as (B1 & B2). subst sb. binv H.
    match type of E4 with _ = Ok ?z => assert (z = a2) by (apply (flow_cut_chk_sim okd) in E2; congruence); subst z end.
    destruct (IH _ _ _ _ _ _ _ _ _ HC H HT) as (D1 & D2). split; [exact D1|].
    eapply good_app; [exact G1| |]; [eapply good_app; [exact A2| |]; [eapply good_app; [exact B2|exact D2|reflexivity]|reflexivity]|lia].
Qed.

(** ** Loops over a list *)
Lemma for_each_good {A} (l : list A) (f : flow Z -> A -> res (flow Z)) (g : flow Z -> A -> logged (flow Z)) (b : nat) :
  (forall s x s' os s2, f s x = Ok s' -> g s x = Ok (s2, os) -> s2 = s' /\ good b os s s') ->
  forall s s' os s2, for_each l s f = Ok s' -> for_each_l l s g = Ok (s2, os) ->
  s2 = s' /\ good (length l * b) os s s'.
Proof.
  intros H. induction l as [|x l IH]; intros s s' os s2 HC HT; cbn [for_each for_each_l] in *.
  - qinv HT. inversion HC; inversion HT; subst. split; [congruence|]. apply good_nil; reflexivity.
  - binv HC. apply lbind_inv in HT. destruct HT as (sa & i1 & j1 & T1 & HT & ->).
    destruct (H _ _ _ _ _ E T1) as (A1 & A2). subst sa. destruct (IH _ _ _ _ HC HT) as (B1 & B2).
    split; [exact B1|]. eapply good_app; [exact A2|exact B2|]. cbn [length]. lia.
Qed.

Lemma update_scaling_good s p s' os s2 g : vget (f_G s) p = Ok g -> update_scaling_chk okd fuel s p = Ok s' ->
  update_scaling_l one fuel s p = Ok (s2, os) -> s2 = s' /\ good (length g * 2) os s s'.
Proof.
  intros Hg HC HT. unfold update_scaling_chk in HC. unfold update_scaling_l in HT. rewrite Hg in HC, HT. cbn [bind quiet] in HC. cbv beta in HC.
  apply lbind_inv in HT. destruct HT as (g0 & i0 & j0 & T0 & HT & ->). cbn [quiet] in T0. inversion T0; subst g0 i0. cbn [app].
  binv HC. apply lbind_inv in HT. destruct HT as (sa & i1 & j1 & T1 & HT & ->).
  match type of E with for_each _ _ ?f = _ => match type of T1 with for_each_l _ _ ?f2 = _ =>
    destruct (for_each_good g f f2 2) with (s := s) (s' := a) (os := i1) (s2 := sa) as (A1 & A2); try assumption end end.
  { clear - Hfuel. intros s e s' os s2 HC HT. binv HC. binv HC.
    apply lbind_inv in HT. destruct HT as (e1 & i1 & j1 & T1 & HT & ->). cbv beta zeta in HT. apply quiet_inv in T1. destruct T1 as [T1 ->].
    apply lbind_inv in HT. destruct HT as (f1 & i2 & j2 & T2 & HT & ->). cbv beta zeta in HT. apply quiet_inv in T2. destruct T2 as [T2 ->]. cbn [app].
    assert (e1 = a) by congruence. subst e1. assert (f1 = a0) by congruence. subst f1.
    destruct (ptr_eqb a0 (Some p)).
    - exact (flow_cut_good _ _ _ _ _ HC HT).
    - qinv HT. inversion HC; inversion HT; subst. split; [congruence|]. apply good_nil; reflexivity. }
  subst sa. qinv HT. rewrite HT in HC. inversion HC; subst s'. split; [reflexivity|]. rewrite app_nil_r.
  assert (X : f_fa s2 = f_fa a /\ f_nodes s2 = f_nodes a) by (clear - HT; do 4 binv HT; inversion HT; subst; auto).
  destruct A2 as (A2 & A3 & A4). split; [|split; [exact A3|exact A4]]. intros f Hf. destruct (A2 f Hf) as (f' & outs & B1 & B2 & B3).
  destruct X as [X1 X2]. rewrite X1, X2. eauto.
Qed.

Lemma good_from k os s0 s s' : f_fa s0 = f_fa s -> f_nodes s0 = f_nodes s -> good k os s0 s' -> good k os s s'.
Proof. intros E1 E2 (A1 & A2 & A3). split; [|split; assumption]. intros f Hf. unfold replay in A1. rewrite E1, E2 in A1. apply A1, Hf. Qed.

Lemma good_to k os s s0 s' : f_fa s' = f_fa s0 -> f_nodes s' = f_nodes s0 -> good k os s s0 -> good k os s s'.
Proof. intros E1 E2 (A1 & A2 & A3). split; [|split; assumption]. intros f Hf. unfold replay in A1. rewrite E1, E2. apply A1, Hf. Qed.

Lemma choice_good : forall c s p s1, choice_run fuel c s p s1 -> forall k k' s' os s2,
  choice_loop_chk okd fuel k s p = Ok s' -> choice_loop_l one fuel k' s p = Ok (s2, os) ->
  s1 = s' /\ s2 = s' /\ good (4 * c) os s s'.
Proof.
  induction 1 as [c s p cu g e v cu' s' G1 G2 G3 G4 G5 G6 G7 HR IH|c s p cu g e v sa h r s' G1 G2 G3 G4 G5 G6 G7 G8 G9|s p cu g s' G1 G2 G3 G4];
    intros k k' s9 os s2 HC HT; (destruct k as [|k]; [discriminate|]); (destruct k' as [|k']; [discriminate|]);
    cbn [choice_loop_chk choice_loop_l] in *;
    rewrite G1, G2 in HC; cbn [bind] in HC; lquiet HT c1 T1; lquiet HT g1 T2; rewrite G1 in T1; rewrite G2 in T2; inversion T1; inversion T2; subst c1 g1; clear T1 T2.
  - rewrite (proj2 (Nat.ltb_lt _ _) G3) in HC, HT. rewrite G4 in HC. cbn [bind] in HC. cbv beta in HC. binv HC. apply (q_chk_sim okd) in E.
    assert (a = v) by congruence. subst a. lquiet HT e1 T1. assert (e1 = e) by congruence. subst e1. lquiet HT v1 T2. assert (v1 = v) by congruence. subst v1.
    rewrite G6 in HC, HT. rewrite G7 in HC. cbn [bind] in HC. lquiet HT cu1 T3. assert (cu1 = cu') by congruence. subst cu1.
    destruct (IH _ _ _ _ _ HC HT) as (A1 & A2 & A3). repeat (split; [assumption|]).
    apply good_from with (s0 := with_cur s cu'); [reflexivity|reflexivity|]. eapply good_le; [exact A3|lia].
  - rewrite (proj2 (Nat.ltb_lt _ _) G3) in HC, HT. rewrite G4 in HC. cbn [bind] in HC. cbv beta in HC. binv HC. apply (q_chk_sim okd) in E.
    assert (a = v) by congruence. subst a. lquiet HT e1 T1. assert (e1 = e) by congruence. subst e1. lquiet HT v1 T2. assert (v1 = v) by congruence. subst v1.
    rewrite G6 in HC, HT. binv HC.
    apply lbind_inv in HT. destruct HT as (sb & i1 & j1 & T3 & HT & ->). destruct (link_replay _ _ _ _ _ E0 T3) as (A1 & (w & j & A2) & A3 & Hp). subst sb.
    assert (a = sa) by (apply (link_chk_sim okd) in E0; congruence). subst a.
    unfold send_chk in HC. apply bind_inv in HC. destruct HC as ([h1 r1] & E1 & HC). cbv beta zeta in HC. apply (find_root_chk_sim okd) in E1.
    rewrite G8 in E1. inversion E1; subst h1 r1. unfold send_l in HT.
    apply lbind_inv in HT. destruct HT as (hr & i2 & j2 & T4 & HT & ->). apply call_inv in T4. destruct T4 as [T4 ->].
    rewrite G8 in T4. inversion T4; subst hr. clear T4. cbv beta zeta in HT.
    destruct (send_loop_good _ _ _ _ _ _ _ _ _ _ HC G9 HT) as (B1 & B2).
    assert (s' = s9).
    { apply (send_loop_chk_sim okd) in HC.
      destruct (Nat.le_ge_cases c fuel) as [Hc|Hc].
      - destruct (send_loop_later (le_n fuel) c fuel Hc (with_nodes sa h) p r) as [Y|Y]; congruence.
      - destruct (send_loop_later (le_n fuel) fuel c Hc (with_nodes sa h) p r) as [Y|Y]; congruence. }
    split; [assumption|]. split; [exact B1|]. rewrite app_assoc. eapply good_app with (k1 := 3%nat); [|exact B2|lia].
    split; [|split].
    + eapply replay_app; [exact A3|]. intros f (HV & HL & HRp).
      assert (Hp' : (p < N)%nat).
      { clear - T3 HV. unfold link_l in T3. lquiet T3 g T2. lquiet T3 c T4. lquiet T3 e T5. lquiet T3 ee T6. lquiet T3 fa0 T0. apply vset_inv in T0. destruct T0 as [H ->].
        lquiet T3 v T7. lcall T3 ha T1. lquiet T3 nd T8. lcall T3 hb T9. qinv T3. inversion T3; subst sa. cbn [f_fa with_nodes with_fa] in HV.
        assert (L := vec_len _ _ _ HV). rewrite upd_length in L. lia. }
      destruct (wf_path (length (f_nodes sa)) (parent f) (proj2 HRp) p ltac:(lia)) as [lx Hx].
      destruct (exists_last (l := lx)) as (l & r' & El); [destruct (path_hd _ _ _ Hx) as [l' ->]; congruence|]. subst lx.
      destruct (find_root_ok one fuel _ _ _ p l r' HRp ltac:(rewrite HL; exact Hp') ltac:(rewrite HL; exact Hfuel) Hx) as (h1 & E2 & L1 & R1).
      rewrite G8 in E2. inversion E2; subst. exists f, [ONode r']. cbn [f_fa f_nodes with_nodes]. split; [split; [exact HV|split; [lia|exact R1]]|]. split.
      * econstructor; [eapply step_find_root; eauto|]. constructor.
      * cbn [lct_calls lct_call]. rewrite G8. reflexivity.
    + rewrite A2. intros b Hb. cbn [app eager accesses]. auto.
    + rewrite A2. cbn. lia.
  - rewrite (proj2 (Nat.ltb_ge _ _) G3) in HC, HT.
    destruct (update_scaling_good _ _ _ _ _ _ G2 HC HT) as (A1 & A2).
    split; [apply (update_scaling_chk_sim okd) in HC; congruence|]. split; [exact A1|]. eapply good_le; [exact A2|lia].
Qed.

Lemma refine_good : forall c s s1, refine_run fuel c s s1 -> forall k k' s' os s2,
  refine_loop_chk okd fuel k s = Ok s' -> refine_loop_l one fuel k' s = Ok (s2, os) ->
  s1 = s' /\ s2 = s' /\ good (4 * c) os s s'.
Proof.
  induction 1 as [c s Eu|c c1 c2 s p sa sb s' Eu G1 G2 G3 HR IH Hc]; intros k k' s9 os s2 HC HT.
  - destruct k as [|k]; cbn [refine_loop_chk] in HC; rewrite Eu in HC; destruct k' as [|k']; cbn [refine_loop_l] in HT; rewrite Eu in HT;
      qinv HT; inversion HC; inversion HT; subst; (split; [congruence|]); (split; [congruence|]); (apply good_nil; reflexivity).
  - destruct k as [|k]; cbn [refine_loop_chk] in HC; rewrite Eu in HC; [discriminate|].
    destruct k' as [|k']; cbn [refine_loop_l] in HT; rewrite Eu in HT; [discriminate|].
    binv HC. clear E a. rewrite G1 in HC. cbn [bind] in HC. lquiet HT p1 T1. assert (p1 = p) by congruence. subst p1.
    binv HC. apply lbind_inv in HT. destruct HT as (sc & i1 & j1 & T2 & HT & ->). destruct (choice_good _ _ _ _ G2 _ _ _ _ _ E T2) as (A1 & A2 & A3). subst a sc.
    lquiet HT p2 T3. lquiet HT im T4. lquiet HT sd T5.
    assert (ES : settle sa = Ok sd) by (unfold settle; rewrite T3; cbn [bind]; rewrite T4; exact T5).
    rewrite G3 in ES. inversion ES; subst sd. rewrite T3 in HC. cbn [bind] in HC. rewrite T4 in HC. cbn [bind] in HC. rewrite T5 in HC. cbn [bind] in HC.
    assert (HI1 : f_fa sb = f_fa sa /\ f_nodes sb = f_nodes sa).
    { clear - T5. destruct (deq im dzero); [binv T5|]; inversion T5; subst; auto. }
    destruct (IH _ _ _ _ _ HC HT) as (B1 & B2 & B3). repeat (split; [assumption|]).
    eapply good_app; [exact A3| |]; [apply good_from with (s0 := sb); [apply HI1|apply HI1|exact B3]|lia].
Qed.

Lemma cut_all_good s s' os s2 : cut_all_chk okd fuel s = Ok s' -> cut_all_l one fuel s = Ok (s2, os) ->
  s2 = s' /\ good (2 * (f_n s + 1)) os s s'.
Proof.
  unfold cut_all_chk, cut_all_l. intros HC HT.
  match type of HC with for_each _ _ ?f = _ => match type of HT with for_each_l _ _ ?f2 = _ =>
    destruct (for_each_good (seq 0 (f_n s + 1)) f f2 2) with (s := s) (s' := s') (os := os) (s2 := s2) as (A1 & A2); try assumption end end.
  { clear - Hfuel. intros s e s' os s2 HC HT. binv HC. lquiet HT e1 T1. assert (e1 = a) by congruence. subst e1. destruct a.
    - exact (flow_cut_good _ _ _ _ _ HC HT).
    - qinv HT. inversion HC; inversion HT; subst. split; [congruence|]. apply good_nil; reflexivity. }
  rewrite seq_length in A2. split; [exact A1|]. eapply good_le; [exact A2|lia].
Qed.
End Replay.
