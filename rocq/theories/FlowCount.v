(** * How many loop turns the flow solver makes *)
From Verif Require Import Base BaseLemmas Data UniqueQueue LCT LCTForest LCTOps LCTSpec LCTChecked ProblemDefine Flow Sums FlowChecked FlowInv.
From Verif Require Import LCTTime LCTCount FlowTime FlowSteps FuelMono WorkSpec.
Local Open Scope Z_scope.

(** ** Paths *)
Lemma least_on_path (val : nat -> Z) l : l <> [] ->
  exists below y above, l = below ++ y :: above /\
    (forall z, In z below -> val y <= val z) /\ (forall z, In z above -> val y < val z).
Proof.
  induction l as [|a l IH]; intros Hne; [congruence|].
  destruct l as [|b l].
  - exists [], a, []. split; [reflexivity|]. split; intros z [].
  - destruct IH as (below & y & above & El & H1 & H2); [congruence|].
    destruct (Z.le_gt_cases (val y) (val a)) as [C|C].
    + exists (a :: below), y, above. rewrite El. split; [reflexivity|]. split; auto.
      intros z [<-|Hz]; auto.
    + exists [], a, (b :: l). split; [reflexivity|]. split; [intros z []|].
      intros z Hz. rewrite El in Hz. apply in_app_or in Hz. destruct Hz as [Hz|[<-|Hz]]; auto.
      * specialize (H1 z Hz). lia.
      * specialize (H2 z Hz). lia.
Qed.

Lemma inner_nonroot par v l r y : path par v (l ++ [r]) -> In y l -> exists j, par y = Some j.
Proof.
  remember (l ++ [r]) as lp eqn:El. intros HP. revert l El. induction HP as [v Hv|v w lp Hv HP IH]; intros l El Hi.
  - destruct l as [|a [|b l]]; [destruct Hi|discriminate|discriminate].
  - destruct l as [|a l]; [destruct Hi|]. inversion El; subst. destruct Hi as [<-|Hi]; [eauto|eapply IH; eauto].
Qed.

Section Count.
Variable one : Z.
#[local] Hint Extern 0 (DataOps Z) => exact (exact_ops one) : typeclass_instances.
Variable okd : Z -> bool.
Variables (N fuel : nat).
Hypothesis Hfuel : (N < fuel)%nat.
Notation T := (call_turns N).

(** the splay trees hold the forest of the parent array *)
Definition linked (s : flow Z) : Prop :=
  exists par val, vec (f_fa s) N par /\ length (f_nodes s) = N /\ Rep (f_nodes s) par val.

Lemma linked_same s s' : f_fa s' = f_fa s -> f_nodes s' = f_nodes s -> linked s -> linked s'.
Proof. unfold linked. intros -> ->. auto. Qed.

Lemma root_of_inv fa par : vec fa N par -> forall k v r, root_of k fa v = Some r -> exists l, path par v (l ++ [r]).
Proof.
  intros HV. induction k as [|k IH]; intros v r H; [discriminate|]. cbn [root_of] in H.
  destruct (nth_error fa v) as [[w|]|] eqn:En; [| |discriminate];
    assert (Hv : (v < N)%nat) by (rewrite <- (vec_len _ _ _ HV); apply nth_error_Some; congruence);
    rewrite (vec_nth _ _ _ HV v Hv) in En; inversion En as [Ep].
  - destruct (IH _ _ H) as [l Hl]. exists (v :: l). cbn [app]. econstructor; eauto.
  - inversion H; subst. exists []. constructor; auto.
Qed.

Ltac binv H := let a := fresh "a" in let E := fresh "E" in apply bind_inv in H; destruct H as (a & E & H); cbv beta zeta in H.
Tactic Notation "tinv" hyp(H) ident(a) ident(i) ident(E) :=
  let j := fresh "jj" in let X := fresh "X" in
  apply cbind_inv in H; destruct H as (a & i & j & E & H & X); cbv beta zeta in H.
Ltac finv H := let X := fresh "X" in apply free_inv in H; destruct H as [H X].
Tactic Notation "tfree" hyp(H) ident(a) ident(E) := let i := fresh "ii" in tinv H a i E; finv E.

Lemma erased {A} (m : counted A) a i : m = Ok (a, i) -> erase m = Ok a.
Proof. intros ->. reflexivity. Qed.

(** ** Cutting and linking *)
Lemma flow_cut_time s p s' t s2 : flow_cut_chk okd fuel s p = Ok s' -> linked s -> flow_cut_t fuel s p = Ok (s2, t) ->
  s2 = s' /\ linked s' /\ (t <= 2 * T)%nat.
Proof.
  intros HC (par & val & HV & HL & HR) HT.
  assert (E : s2 = s').
  { assert (A := flow_cut_erase fuel s p). rewrite HT in A. cbn [erase] in A. rewrite (flow_cut_chk_sim okd fuel s p s' HC) in A. congruence. }
  subst s2. split; [reflexivity|].
  unfold flow_cut_chk in HC. binv HC. destruct (has_parent (f_fa s) p) eqn:HP; [|discriminate]. clear E.
  unfold has_parent in HP. destruct (nth_error (f_fa s) p) as [[j|]|] eqn:En; try discriminate.
  assert (Hp : (p < N)%nat) by (rewrite <- (vec_len _ _ _ HV); apply nth_error_Some; congruence).
  rewrite (vec_nth _ _ _ HV p Hp) in En. inversion En as [Ep].
  unfold flow_cut_t in HT. tfree HT fa0 T0. apply vset_inv in T0. destruct T0 as [_ ->].
  tinv HT ha i1 T1. cbn [f_nodes with_fa] in T1.
  assert (C1 := cut_count one fuel _ _ _ _ _ _ HR ltac:(rewrite HL; exact Hp) ltac:(rewrite HL; exact Hfuel) T1). rewrite HL in C1.
  destruct (cut_ok one fuel _ _ _ _ _ HR ltac:(rewrite HL; exact Hp) ltac:(rewrite HL; exact Hfuel) Ep) as (h1 & E1 & L1 & R1).
  apply erased in T1. rewrite cut_erase, E1 in T1. inversion T1; subst ha.
  tfree HT g T2. tfree HT c T3. tfree HT e T4. tfree HT v T5. tinv HT r i2 T6. cbn [f_nodes with_nodes] in T6.
  assert (C2 := get_val_count one fuel _ _ _ p _ _ R1 ltac:(lia) ltac:(lia) T6). rewrite L1, HL in C2.
  destruct (get_val_ok one fuel _ _ _ p R1 ltac:(lia) ltac:(lia)) as (h2 & E2 & L2 & R2).
  apply erased in T6. rewrite get_val_erase, E2 in T6. inversion T6; subst r. finv HT.
  split; [|lia]. unfold add_flow_of_edge in HT. repeat binv HT. inversion HT; subst s'.
  exists (set_parent par p None), val. cbn [f_fa f_nodes with_flows with_nodes with_fa]. split; [|split; [lia|exact R2]].
  eapply vec_ext; [apply vec_upd; eauto|]. intros i9 _. unfold fup, set_parent. reflexivity.
Qed.

Lemma path_unique par v l l' : path par v l -> path par v l' -> l = l'.
Proof.
  intro H. revert l'. induction H as [v Hv|v w l Hv H IH]; intros l' H'; inversion H' as [z Hz|z w' l1 Hz Hp]; subst; try congruence.
  rewrite Hv in Hz. inversion Hz; subst. f_equal. apply IH. exact Hp.
Qed.

(** a root on a path is its end *)
Lemma path_root_end par v l r p : path par v (l ++ [r]) -> par p = None -> In p (l ++ [r]) -> p = r.
Proof.
  intros HP Hr Hi. apply in_app_or in Hi. destruct Hi as [Hi|[Hi|[]]]; [|auto].
  destruct (inner_nonroot _ _ _ _ _ HP Hi) as [j Hj]. congruence.
Qed.

Lemma link_time s p s' t s2 : link_chk okd fuel s p = Ok s' -> linked s -> link_t fuel s p = Ok (s2, t) ->
  s2 = s' /\ linked s' /\ (t <= 2 * T)%nat /\ (p < N)%nat.
Proof.
  intros HC (par & val & HV & HL & HR) HT.
  assert (E : s2 = s').
  { assert (A := link_erase fuel s p). rewrite HT in A. cbn [erase] in A. rewrite (link_chk_sim okd fuel s p s' HC) in A. congruence. }
  subst s2. split; [reflexivity|].
  unfold link_chk in HC. binv HC. rename E into EP. binv HC. destruct a as [|]; [|discriminate]. clear E HC.
  unfold link_pre in EP. do 4 binv EP. inversion EP as [HP]. apply andb_true_iff in HP. destruct HP as [HP HO]. clear EP.
  unfold is_root in HP. destruct (nth_error (f_fa s) p) as [[j|]|] eqn:En; try discriminate.
  assert (Hp : (p < N)%nat) by (rewrite <- (vec_len _ _ _ HV); apply nth_error_Some; congruence).
  rewrite (vec_nth _ _ _ HV p Hp) in En. inversion En as [Ep].
  destruct (root_of (length (f_fa s)) (f_fa s) (o_j a3)) as [r|] eqn:Er; [|discriminate].
  destruct (root_of_inv _ _ HV _ _ _ Er) as [l Hl].
  unfold link_t in HT. tfree HT g T2. tfree HT c T3. tfree HT e T4. tfree HT ee T5.
  assert (ee = a3) by congruence. subst ee.
  tfree HT fa0 T0. apply vset_inv in T0. destruct T0 as [_ ->]. tfree HT v T6. tinv HT ha i1 T1. cbn [f_nodes with_fa] in T1.
  assert (C1 := set_val_count one fuel _ _ _ _ _ _ _ HR ltac:(rewrite HL; exact Hp) ltac:(rewrite HL; exact Hfuel) T1). rewrite HL in C1.
  destruct (set_val_ok one fuel _ _ _ p v HR ltac:(rewrite HL; exact Hp) ltac:(rewrite HL; exact Hfuel)) as (h1 & E1' & L1 & R1).
  apply erased in T1. rewrite set_val_erase, E1' in T1. inversion T1; subst ha.
  tfree HT nd T7. apply vget_inv in T7. cbn [f_nodes with_fa] in T7.
  assert (Hj : (o_j a3 < N)%nat) by (rewrite <- HL; apply nth_error_Some; congruence).
  tinv HT hb i2 T8.
  assert (C2 := set_fa_count one fuel _ _ _ p _ _ _ R1 ltac:(lia) ltac:(lia) T8). rewrite L1, HL in C2.
  destruct (set_fa_ok one fuel _ _ _ p (o_j a3) _ R1 ltac:(lia) ltac:(lia) ltac:(lia) Ep Hl) as (h2 & E2' & L2 & R2).
  { intro Hi. rewrite <- (path_root_end _ _ _ _ _ Hl Ep Hi) in HO. rewrite Nat.eqb_refl in HO. discriminate. }
  apply erased in T8. rewrite set_fa_erase, E2' in T8. inversion T8; subst hb. finv HT. inversion HT; subst s'.
  split; [|split; [lia|exact Hp]]. eexists _, _. cbn [f_fa f_nodes with_nodes with_fa]. split; [|split; [|exact R2]]; [|lia].
  eapply vec_ext; [apply vec_upd; eauto|]. intros i9 _. unfold fup, set_parent. reflexivity.
Qed.

(** ** Sending *)
Lemma send_push_time s p r x s' t s2 : send_push_chk okd fuel s p r x = Ok s' -> linked s -> (p < N)%nat ->
  send_push_t fuel s p r x = Ok (s2, t) -> s2 = s' /\ linked s' /\ (t <= T)%nat.
Proof.
  intros HC (par & val & HV & HL & HR) Hp HT.
  assert (E : s2 = s').
  { assert (A := send_push_erase fuel s p r x). rewrite HT in A. cbn [erase] in A. rewrite (send_push_chk_sim okd fuel s p r x s' HC) in A. congruence. }
  subst s2. split; [reflexivity|]. unfold send_push_t in HT. tinv HT ha i1 T1. finv HT.
  assert (C1 := add_path_count one fuel _ _ _ _ _ _ _ HR ltac:(rewrite HL; exact Hp) ltac:(rewrite HL; exact Hfuel) T1). rewrite HL in C1.
  destruct (wf_path (length (f_nodes s)) par (proj2 HR) p ltac:(lia)) as [lx Hx].
  destruct (add_path_ok one fuel _ _ _ p lx (dopp x) HR ltac:(rewrite HL; exact Hp) ltac:(rewrite HL; exact Hfuel) Hx) as (h1 & E1 & L1 & R1).
  apply erased in T1. rewrite add_path_erase, E1 in T1. inversion T1; subst ha. split; [|lia].
  assert (X9 : f_fa s' = f_fa s /\ f_nodes s' = h1).
  { clear - HT. repeat binv HT. destruct (dlt dzero _); [binv HT|]; inversion HT; subst; auto. }
  destruct X9 as [A1 A2]. exists par, (add_values val lx (dopp x)). rewrite A1, A2. split; [exact HV|]. split; [lia|exact R1].
Qed.

Definition step_turns : nat := (4 * T + 1)%nat.

Lemma send_loop_time : forall k c c' s p r s' t s1 s2, send_loop_chk okd fuel k s p r = Ok s' -> linked s ->
  send_loop fuel c s p r = Ok s1 -> send_loop_t fuel c' s p r = Ok (s2, t) ->
  s2 = s' /\ linked s' /\ (t <= step_turns * c)%nat.
Proof.
  induction k as [|k IH]; intros c c' s p r s' t s1 s2 HC HI H HT.
  { cbn [send_loop_chk] in HC. destruct (Nat.eqb p r) eqn:Ep; [|discriminate]. inversion HC; subst.
    destruct c'; cbn [send_loop_t] in HT; rewrite Ep in HT; finv HT; inversion HT; subst; (split; [reflexivity|]; split; [exact HI|lia]). }
  cbn [send_loop_chk] in HC. destruct (Nat.eqb p r) eqn:Ep.
  { inversion HC; subst.
    destruct c'; cbn [send_loop_t] in HT; rewrite Ep in HT; finv HT; inversion HT; subst; (split; [reflexivity|]; split; [exact HI|lia]). }
  destruct c as [|c]; cbn [send_loop] in H; rewrite Ep in H; [discriminate|].
  destruct c' as [|c']; cbn [send_loop_t] in HT; rewrite Ep in HT; [discriminate|].
  apply turn_inv in HT. destruct HT as (t0 & HT & ->).
  binv HC. destruct (has_parent (f_fa s) p) eqn:HP; [|discriminate]. clear E.
  binv HC. destruct (ptr_eqb (root_of (length (f_fa s)) (f_fa s) p) (Some r)) eqn:Er; [|discriminate]. clear E.
  apply bind_inv in HC. destruct HC as ([h m] & EM & HC). cbv beta zeta in HC. apply (get_min_chk_sim okd) in EM.
  rewrite EM in H. cbn [bind] in H. cbv beta zeta in H.
  destruct HI as (par & val & HV & HL & HR).
  unfold has_parent in HP. destruct (nth_error (f_fa s) p) as [[j|]|] eqn:En; try discriminate.
  assert (Hp : (p < N)%nat) by (rewrite <- (vec_len _ _ _ HV); apply nth_error_Some; congruence).
  rewrite (vec_nth _ _ _ HV p Hp) in En. inversion En as [Epar].
  tinv HT rm i1 T1. try clear a; try clear a0.
  assert (C1 := get_min_count one fuel _ _ _ _ _ _ HR ltac:(rewrite HL; exact Hp) ltac:(rewrite HL; exact Hfuel) T1). rewrite HL in C1.
  assert (T1' := erased _ _ _ T1). rewrite get_min_erase, EM in T1'. inversion T1'; subst rm. clear T1'.
  assert (HI1 : linked (with_nodes s h)).
  { destruct (root_of (length (f_fa s)) (f_fa s) p) as [r'|] eqn:Er'; [|discriminate].
    destruct (root_of_inv _ _ HV _ _ _ Er') as [l Hl].
    destruct l as [|b0 l].
    { inversion Hl as [z Hz|z w l1 Hz Hq]; subst; [congruence|inversion Hq]. }
    destruct (least_on_path val (b0 :: l)) as (below & y & above & El & B1 & B2); [discriminate|]. rewrite El in Hl.
    destruct (get_min_ok one fuel _ _ _ p r' below y above HR ltac:(rewrite HL; exact Hp) ltac:(rewrite HL; exact Hfuel) Hl B1 B2) as (h1 & E1 & L1 & R1).
    rewrite EM in E1. inversion E1; subst. exists par, val. cbn [f_fa f_nodes with_nodes]. split; [exact HV|]. split; [lia|exact R1]. }
  tfree HT im T2. binv HC. binv H. assert (a = im) by congruence. assert (a0 = im) by congruence. subst a a0.
  destruct (dlt im (fst m)) eqn:Ed.
  - destruct (send_push_time _ _ _ _ _ _ _ HC HI1 Hp HT) as (A1 & A2 & A3). split; [exact A1|]. split; [exact A2|]. unfold step_turns in *. nia.
  - tinv HT sa i2 T3. binv HC. rename E1 into E3. destruct (send_push_time _ _ _ _ _ _ _ E3 HI1 Hp T3) as (A1 & A2 & A3). subst sa.
    binv H. assert (a0 = a) by (apply (send_push_chk_sim okd) in E3; congruence). subst a0.
    destruct (snd m) as [y|]; [|discriminate]. binv HC. tinv HT sb i3 T4.
    destruct (flow_cut_time _ _ _ _ _ E2 A2 T4) as (B1 & B2 & B3). subst sb. binv H.
    assert (a1 = a0) by (apply (flow_cut_chk_sim okd) in E2; congruence). subst a1.
    destruct (IH _ _ _ _ _ _ _ _ _ HC B2 H HT) as (D1 & D2 & D3). split; [exact D1|]. split; [exact D2|]. unfold step_turns in *. nia.
Qed.

(** ** Loops over a list *)
Lemma for_each_time {A} (l : list A) (f : flow Z -> A -> res (flow Z)) (g : flow Z -> A -> counted (flow Z)) (b : nat) :
  (forall s x s' t s2, f s x = Ok s' -> linked s -> g s x = Ok (s2, t) -> s2 = s' /\ linked s' /\ (t <= b)%nat) ->
  forall s s' t s2, for_each l s f = Ok s' -> linked s -> for_each_t l s g = Ok (s2, t) ->
  s2 = s' /\ linked s' /\ (t <= length l * (b + 1))%nat.
Proof.
  intros H. induction l as [|x l IH]; intros s s' t s2 HC HI HT; cbn [for_each for_each_t] in *.
  - finv HT. inversion HC; inversion HT; subst. split; [congruence|]. split; [assumption|lia].
  - binv HC. apply turn_inv in HT. destruct HT as (t0 & HT & ->). tinv HT sa i1 T1.
    destruct (H _ _ _ _ _ E HI T1) as (A1 & A2 & A3). subst sa. destruct (IH _ _ _ _ HC A2 HT) as (B1 & B2 & B3).
    split; [exact B1|]. split; [exact B2|]. cbn [length]. nia.
Qed.

Lemma update_scaling_time s p s' t s2 g : vget (f_G s) p = Ok g -> update_scaling_chk okd fuel s p = Ok s' -> linked s ->
  update_scaling_t fuel s p = Ok (s2, t) -> s2 = s' /\ linked s' /\ (t <= length g * (2 * T + 1))%nat.
Proof.
  intros Hg HC HI HT. unfold update_scaling_chk in HC. unfold update_scaling_t in HT. rewrite Hg in HC, HT. cbn [bind free] in HC. cbv beta in HC.
  tinv HT g0 i0 T0. cbn [free] in T0. inversion T0; subst g0 i0. binv HC. tinv HT sa i1 T1.
  match type of E with for_each _ _ ?f = _ => match type of T1 with for_each_t _ _ ?f2 = _ =>
    destruct (for_each_time g f f2 (2 * T)) with (s := s) (s' := a) (t := i1) (s2 := sa) as (A1 & A2 & A3); try assumption end end.
  { clear - Hfuel. intros s e s' t s2 HC HI HT. binv HC. binv HC. tfree HT e1 T1. tfree HT f1 T2.
    assert (e1 = a) by congruence. subst e1. assert (f1 = a0) by congruence. subst f1.
    destruct (ptr_eqb a0 (Some p)).
    - destruct (flow_cut_time _ _ _ _ _ HC HI HT) as (A1 & A2 & A3). split; [exact A1|]. split; [exact A2|lia].
    - finv HT. inversion HC; inversion HT; subst. split; [congruence|]. split; [assumption|lia]. }
  subst sa. finv HT. rewrite HT in HC. inversion HC; subst s'. split; [reflexivity|]. split; [|lia].
  clear - A2 HT. do 4 binv HT. inversion HT; subst. eapply linked_same; [| |exact A2]; reflexivity.
Qed.

Lemma choice_time : forall c s p s1, choice_run fuel c s p s1 -> forall k k' s' t s2,
  choice_loop_chk okd fuel k s p = Ok s' -> linked s -> choice_loop_t fuel k' s p = Ok (s2, t) ->
  s1 = s' /\ s2 = s' /\ linked s' /\ (t <= step_turns * c)%nat.
Proof.
  induction 1 as [c s p cu g e v cu' s' G1 G2 G3 G4 G5 G6 G7 HR IH|c s p cu g e v sa h r s' G1 G2 G3 G4 G5 G6 G7 G8 G9|s p cu g s' G1 G2 G3 G4];
    intros k k' s9 t s2 HC HI HT; (destruct k as [|k]; [discriminate|]); (destruct k' as [|k']; [discriminate|]);
    cbn [choice_loop_chk choice_loop_t] in *; apply turn_inv in HT; destruct HT as (t0 & HT & ->);
    rewrite G1, G2 in HC; cbn [bind] in HC; tfree HT c1 T1; tfree HT g1 T2; rewrite G1 in T1; rewrite G2 in T2; inversion T1; inversion T2; subst c1 g1; clear T1 T2.
  - rewrite (proj2 (Nat.ltb_lt _ _) G3) in HC, HT. rewrite G4 in HC. cbn [bind] in HC. cbv beta in HC. binv HC. apply (q_chk_sim okd) in E.
    assert (a = v) by congruence. subst a. tfree HT e1 T1. assert (e1 = e) by congruence. subst e1. tfree HT v1 T2. assert (v1 = v) by congruence. subst v1.
    rewrite G6 in HC, HT. rewrite G7 in HC. cbn [bind] in HC. tfree HT cu1 T3. assert (cu1 = cu') by congruence. subst cu1.
    destruct (IH _ _ _ _ _ HC ltac:(eapply linked_same; [| |exact HI]; reflexivity) HT) as (A1 & A2 & A3 & A4).
    repeat (split; [assumption|]). unfold step_turns in *. nia.
  - rewrite (proj2 (Nat.ltb_lt _ _) G3) in HC, HT. rewrite G4 in HC. cbn [bind] in HC. cbv beta in HC. binv HC. apply (q_chk_sim okd) in E.
    assert (a = v) by congruence. subst a. tfree HT e1 T1. assert (e1 = e) by congruence. subst e1. tfree HT v1 T2. assert (v1 = v) by congruence. subst v1.
    rewrite G6 in HC, HT. binv HC. tinv HT sb i1 T3. destruct (link_time _ _ _ _ _ E0 HI T3) as (A1 & A2 & A3 & Hp). subst sb.
    assert (a = sa) by (apply (link_chk_sim okd) in E0; congruence). subst a.
    unfold send_chk in HC. apply bind_inv in HC. destruct HC as ([h1 r1] & E1 & HC). cbv beta zeta in HC. apply (find_root_chk_sim okd) in E1.
    rewrite G8 in E1. inversion E1; subst h1 r1. unfold send_t in HT. tinv HT hr i2 T4.
    destruct A2 as (par & val & HV & HL & HRp).
    assert (C1 := find_root_count one fuel _ _ _ _ _ _ HRp ltac:(rewrite HL; exact Hp) ltac:(rewrite HL; exact Hfuel) T4). rewrite HL in C1.
    apply erased in T4. rewrite find_root_erase, G8 in T4. inversion T4; subst hr.
    assert (HI1 : linked (with_nodes sa h)).
    { destruct (wf_path (length (f_nodes sa)) par (proj2 HRp) p ltac:(lia)) as [lx Hx].
      destruct (exists_last (l := lx)) as (l & r' & El); [destruct (path_hd _ _ _ Hx) as [l' ->]; congruence|]. subst lx.
      destruct (find_root_ok one fuel _ _ _ p l r' HRp ltac:(rewrite HL; exact Hp) ltac:(rewrite HL; exact Hfuel) Hx) as (h1 & E2 & L1 & R1).
      rewrite G8 in E2. inversion E2; subst. exists par, val. cbn [f_fa f_nodes with_nodes]. split; [exact HV|]. split; [lia|exact R1]. }
    destruct (send_loop_time _ _ _ _ _ _ _ _ _ _ HC HI1 G9 HT) as (B1 & B2 & B3).
    assert (s' = s9).
    { apply (send_loop_chk_sim okd) in HC.
      destruct (Nat.le_ge_cases c fuel) as [Hc|Hc].
      - destruct (send_loop_later (le_n fuel) c fuel Hc (with_nodes sa h) p r) as [Y|Y]; congruence.
      - destruct (send_loop_later (le_n fuel) fuel c Hc (with_nodes sa h) p r) as [Y|Y]; congruence. }
    split; [assumption|]. split; [exact B1|]. split; [exact B2|]. unfold step_turns in *. nia.
  - rewrite (proj2 (Nat.ltb_ge _ _) G3) in HC, HT. destruct (update_scaling_time _ _ _ _ _ _ G2 HC HI HT) as (A1 & A2 & A3).
    split; [apply (update_scaling_chk_sim okd) in HC; congruence|]. split; [exact A1|]. split; [exact A2|]. unfold step_turns in *. nia.
Qed.

Lemma refine_time : forall c s s1, refine_run fuel c s s1 -> forall k k' s' t s2,
  refine_loop_chk okd fuel k s = Ok s' -> linked s -> refine_loop_t fuel k' s = Ok (s2, t) ->
  s1 = s' /\ s2 = s' /\ linked s' /\ (t <= step_turns * c)%nat.
Proof.
  induction 1 as [c s Eu|c c1 c2 s p sa sb s' Eu G1 G2 G3 HR IH Hc]; intros k k' s9 t s2 HC HI HT.
  - destruct k as [|k]; cbn [refine_loop_chk] in HC; rewrite Eu in HC; destruct k' as [|k']; cbn [refine_loop_t] in HT; rewrite Eu in HT;
      finv HT; inversion HC; inversion HT; subst; (split; [congruence|]); (split; [congruence|]); (split; [assumption|lia]).
  - destruct k as [|k]; cbn [refine_loop_chk] in HC; rewrite Eu in HC; [discriminate|].
    destruct k' as [|k']; cbn [refine_loop_t] in HT; rewrite Eu in HT; [discriminate|].
    apply turn_inv in HT. destruct HT as (t0 & HT & ->). binv HC. clear E a. rewrite G1 in HC. cbn [bind] in HC. tfree HT p1 T1. assert (p1 = p) by congruence. subst p1.
    binv HC. tinv HT sc i1 T2. destruct (choice_time _ _ _ _ G2 _ _ _ _ _ E HI T2) as (A1 & A2 & A3 & A4). subst a sc.
    tfree HT p2 T3. tfree HT im T4. tfree HT sd T5.
    assert (ES : settle sa = Ok sd) by (unfold settle; rewrite T3; cbn [bind]; rewrite T4; exact T5).
    rewrite G3 in ES. inversion ES; subst sd. rewrite T3 in HC. cbn [bind] in HC. rewrite T4 in HC. cbn [bind] in HC. rewrite T5 in HC. cbn [bind] in HC.
    assert (HI1 : linked sb).
    { clear - T5 A3. destruct (deq im dzero); [binv T5|]; inversion T5; subst; [|exact A3]. eapply linked_same; [| |exact A3]; reflexivity. }
    destruct (IH _ _ _ _ _ HC HI1 HT) as (B1 & B2 & B3 & B4). repeat (split; [assumption|]). unfold step_turns in *. nia.
Qed.

Lemma cut_all_time s s' t s2 : cut_all_chk okd fuel s = Ok s' -> linked s -> cut_all_t fuel s = Ok (s2, t) ->
  s2 = s' /\ linked s' /\ (t <= (f_n s + 1) * (2 * T + 1))%nat.
Proof.
  unfold cut_all_chk, cut_all_t. intros HC HI HT.
  match type of HC with for_each _ _ ?f = _ => match type of HT with for_each_t _ _ ?f2 = _ =>
    destruct (for_each_time (seq 0 (f_n s + 1)) f f2 (2 * T)) with (s := s) (s' := s') (t := t) (s2 := s2) as (A1 & A2 & A3); try assumption end end.
  { clear - Hfuel. intros s e s' t s2 HC HI HT. binv HC. tfree HT e1 T1. assert (e1 = a) by congruence. subst e1. destruct a.
    - destruct (flow_cut_time _ _ _ _ _ HC HI HT) as (A1 & A2 & A3). split; [exact A1|]. split; [exact A2|lia].
    - finv HT. inversion HC; inversion HT; subst. split; [congruence|]. split; [assumption|lia]. }
  rewrite seq_length in A3. auto.
Qed.

Lemma free_loop_time {A} (l : list A) (f : flow Z -> A -> res (flow Z)) : forall s s2 t,
  for_each_t l s (fun s x => free (f s x)) = Ok (s2, t) -> t = length l.
Proof.
  induction l as [|x l IH]; intros s s2 t HT; cbn [for_each_t] in HT; [finv HT; auto|].
  apply turn_inv in HT. destruct HT as (t0 & HT & ->). tfree HT sa T1. rewrite (IH _ _ _ HT) in X. cbn [length]. lia.
Qed.

Lemma push_all_kept (s s' : flow Z) : push_all_admissible_edge s = Ok s' -> f_nodes s' = f_nodes s /\ f_fa s' = f_fa s /\ f_n s' = f_n s.
Proof.
  unfold push_all_admissible_edge. intro H. binv H.
  assert (X : f_nodes a = f_nodes s /\ f_fa a = f_fa s /\ f_n a = f_n s).
  { clear H. revert E. generalize (seq 0 (length (f_edges s))) as l. intro l. revert s a. induction l as [|e l IH]; intros s a H; cbn [for_each] in H.
    - inversion H; subst. auto.
    - binv H. destruct (IH _ _ H) as (A1 & A2 & A3). binv E. binv E. destruct (dlt dzero a2).
      + do 4 binv E. unfold add_flow_of_edge in E. repeat binv E. inversion E; subst. cbn [f_nodes f_fa f_n with_flows with_imb] in *. auto.
      + inversion E; subst. auto. }
  destruct X as (X1 & X2 & X3). rewrite <- X1, <- X2, <- X3. clear E X1 X2 X3. revert H. generalize (seq 0 (f_n a + 1)) as l. intro l. revert a s'.
  induction l as [|e l IH]; intros a s' H; cbn [for_each] in H.
  - inversion H; subst. auto.
  - binv H. destruct (IH _ _ H) as (A1 & A2 & A3). binv E. destruct (dlt dzero a1); [binv E|]; inversion E; subst; auto.
Qed.

Lemma push_all_time (s s' : flow Z) t : push_all_t s = Ok (s', t) -> linked s ->
  push_all_admissible_edge s = Ok s' /\ linked s' /\ (t = length (f_edges s) + (f_n s + 1))%nat.
Proof.
  intros HT HI. assert (E := erased _ _ _ HT). rewrite push_all_erase in E. split; [exact E|].
  destruct (push_all_kept _ _ E) as (A1 & A2 & A3). split; [eapply linked_same; eauto|].
  unfold push_all_t in HT. tinv HT sa i1 T1. assert (L1 := free_loop_time _ _ _ _ _ T1). assert (L2 := free_loop_time _ _ _ _ _ HT).
  rewrite seq_length in L1, L2.
  assert (f_n sa = f_n s); [|lia].
  apply erased in T1. erewrite for_each_erase in T1 by (intros; apply erase_free). clear - T1. revert T1. generalize (seq 0 (length (f_edges s))) as l.
  intro l. revert s sa. induction l as [|e l IH]; intros s a H; cbn [for_each] in H.
    - inversion H; subst. auto.
    - binv H. rewrite (IH _ _ H). binv E. binv E. destruct (dlt dzero a2).
      + do 4 binv E. unfold add_flow_of_edge in E. repeat binv E. inversion E; subst. reflexivity.
      + inversion E; subst. auto.
Qed.
End Count.

(** ** The search for the minimum of a function *)
Lemma partition_point_time : forall k fuel l r pred x c, l <= r < l + 2 ^ Z.of_nat k ->
  partition_point_t fuel l r pred = Ok (x, c) -> (c <= k + 1)%nat.
Proof.
  induction k as [|k IH]; intros fuel l r pred x c Hr H; (destruct fuel as [|fuel]; [discriminate|]); cbn [partition_point_t] in H;
    apply turn_inv in H; destruct H as (i & H & ->); (destruct (Z.eqb_spec l r) as [->|Hne]; [apply free_inv in H; destruct H as [_ ->]; lia|]).
  - change (2 ^ Z.of_nat 0) with 1 in Hr. lia.
  - rewrite Nat2Z.inj_succ, Z.pow_succ_r in Hr by lia.
    apply cbind_inv in H. destruct H as (d & i1 & j1 & E1 & H & ->). apply free_inv in E1. destruct E1 as [E1 ->]. apply ck_inv in E1. destruct E1 as [-> _].
    apply cbind_inv in H. destruct H as (mid & i1 & j2 & E1 & H & ->). apply free_inv in E1. destruct E1 as [E1 ->]. apply ck_inv in E1. destruct E1 as [-> _].
    apply cbind_inv in H. destruct H as (b & i1 & j3 & E1 & H & ->). apply free_inv in E1. destruct E1 as [_ ->].
    rewrite Z.quot_div_nonneg in H by lia. assert (D := Z.div_mod (r - l) 2 ltac:(lia)). assert (D2 := Z.mod_pos_bound (r - l) 2 ltac:(lia)).
    destruct b.
    + apply cbind_inv in H. destruct H as (l' & i1 & j4 & E1 & H & ->). apply free_inv in E1. destruct E1 as [E1 ->]. apply ck_inv in E1. destruct E1 as [-> _].
      apply IH in H; lia.
    + apply IH in H; lia.
Qed.
