(** * The recorded run of [Flow] *)
From Verif Require Import Base BaseLemmas Data UniqueQueue LCT ProblemDefine Flow ProblemSolver WorkSpec FlowSteps Throw EvalSpec EvalLog EvalSim.
Local Open Scope Z_scope.

Ltac fld := cbn [f_n f_M f_eps f_nodes f_imb f_cur f_uq f_fa f_edges f_flows f_G f_scal with_eps with_nodes with_imb with_cur with_uq with_fa with_edges with_flows with_scal].

Section Run.
Variable P : user_call -> Prop.
Variable one : Z.
#[local] Hint Extern 0 (DataOps Z) => exact (exact_ops one) : typeclass_instances.
Variable d : nat.
Notation sim := (sim P).
Notation limN := (limN P d).

(** ** Construction *)
Lemma double_edges_sim k : forall E E', Forall2 limN E E' -> simr (Forall2 limN) (double_edges k E) (double_edges k E').
Proof.
  induction k as [|k IH]; intros E E' H; cbn [double_edges]; [apply simr_ok; exact H|]. apply (simr_bind limN); [apply vget_sim; exact H|]. intros e e' _ He.
  apply (simr_bind (Forall2 limN)); [apply vset_sim; auto|]. intros E1 E1' _ H1. apply (simr_bind (Forall2 limN)); [apply vset_sim; auto|]. intros E2 E2' _ H2.
  apply (simr_bind limN); [apply reverse_sim; exact He|]. intros r r' _ Hr. apply (simr_bind (Forall2 limN)); [apply vset_sim; auto|]. intros E3 E3' _ H3. apply IH. exact H3.
Qed.

Lemma build_G_sim E E' G : Forall2 limN E E' -> simr eq (build_G E G) (build_G E' G).
Proof.
  intro H. unfold build_G. rewrite (forall2_len _ _ _ H). apply simr_for_each; [|reflexivity]. intros g ? x <-. apply (simr_bind limN); [apply vget_sim; exact H|].
  intros e e' _ [l u f f' i j _]. cbn [o_i]. apply simr_same; intros y _. apply simr_refl. reflexivity.
Qed.

Lemma repeat_N n : Forall2 limN (repeat OmegaLimit0 n) (repeat OmegaLimit0 n).
Proof. induction n; cbn [repeat]; constructor; [|assumption]. constructor. intro x. apply sim_err. Qed.

Inductive stN (E : list (OmegaLimit Z)) : flow Z -> flow Z -> Prop :=
| stN_i n M eps nd imb cur uq fa fl G sc : stN E (mkFlow n M eps nd imb cur uq fa [] fl G sc) (mkFlow n M eps nd imb cur uq fa E fl G sc).

Lemma flow_new_sim fuel n M U ls ls' : Forall2 limN ls ls' ->
  simr (fun f s => Forall2 limN (fst f) (f_edges s) /\ stN (f_edges s) (snd f) s) (flow_new_n one fuel n M U ls) (flow_new fuel n M U ls').
Proof.
  intro H. unfold flow_new_n, flow_new. apply simr_same; intros eps _. apply simr_same; intros ? _. rewrite (forall2_len _ _ _ H). apply (simr_bind (Forall2 limN)).
  { apply double_edges_sim. apply Forall2_app; [exact H|apply repeat_N]. }
  intros E E' _ HE. apply (simr_bind eq); [apply build_G_sim; exact HE|]. intros G ? _ <-. apply simr_ok. rewrite (forall2_len _ _ _ HE). cbn [fst snd f_edges]. split; [exact HE|constructor].
Qed.

(** widths of the doubled edges *)
Lemma vset_within U (E E' : list (OmegaLimit Z)) i e : Forall (within U) E -> within U e -> vset E i e = Ok E' -> Forall (within U) E'.
Proof.
  unfold vset. intros H He. destruct (i <? length E)%nat; [|discriminate]. intro X. inversion X; subst. clear X. revert i. induction H; intro i; cbn [upd]; [constructor|]. destruct i; constructor; auto.
Qed.
Lemma vget_within U (E : list (OmegaLimit Z)) i e : Forall (within U) E -> vget E i = Ok e -> within U e.
Proof.
  intro H. revert i. induction H as [|a l Ha H IH]; intros i X; [destruct i; discriminate|]. destruct i as [|i]; [inversion X; subst; exact Ha|]. exact (IH i X).
Qed.
Lemma double_within U k : forall E E', Forall (within U) E -> double_edges k E = Ok E' -> Forall (within U) E'.
Proof.
  induction k as [|k IH]; intros E E' H X; cbn [double_edges] in X; [inversion X; subst; exact H|]. cbv zeta in X.
  apply bind_inv in X. destruct X as (e & X1 & X). assert (He := vget_within _ _ _ _ H X1).
  apply bind_inv in X. destruct X as (E1 & X2 & X). assert (H1 := vset_within _ _ _ _ _ H He X2).
  apply bind_inv in X. destruct X as (E2 & X3 & X). assert (H2 := vset_within _ _ _ _ _ H1 He X3).
  apply bind_inv in X. destruct X as (r & X4 & X). apply bind_inv in X. destruct X as (E3 & X5 & X). apply (IH E3); [|exact X].
  apply (vset_within _ _ _ _ _ H2) with (2 := X5). unfold reverse in X4. apply bind_inv in X4. destruct X4 as (l' & Y1 & X4). apply bind_inv in X4. destruct X4 as (u' & Y2 & X4).
  apply ck_inv in Y1. apply ck_inv in Y2. destruct Y1 as [-> _], Y2 as [-> _]. inversion X4; subst. destruct He. split; cbn [o_l o_u]; lia.
Qed.

Lemma flow_new_within U V fuel n M ls s : 0 <= V -> Forall (within V) ls -> flow_new fuel n M U ls = Ok s ->
  Forall (within V) (f_edges s) /\ length (f_edges s) = (2 * length ls)%nat.
Proof.
  intros HV H X. unfold flow_new in X. apply bind_inv in X. destruct X as (eps & _ & X). apply bind_inv in X. destruct X as (? & _ & X).
  apply bind_inv in X. destruct X as (E & X1 & X). apply bind_inv in X. destruct X as (G & _ & X). inversion X; subst. cbn [f_edges]. split.
  - eapply double_within; [|exact X1]. apply Forall_app. split; [exact H|]. clear - HV. induction (length ls); cbn [repeat]; constructor; [|assumption]. split; cbn; lia.
  - assert (L : forall k (A B : list (OmegaLimit Z)), double_edges k A = Ok B -> length B = length A).
    { clear. induction k as [|k IH]; intros A B X; cbn [double_edges] in X; [inversion X; reflexivity|]. cbv zeta in X.
      apply bind_inv in X. destruct X as (e & _ & X). apply bind_inv in X. destruct X as (E1 & X2 & X). apply bind_inv in X. destruct X as (E2 & X3 & X).
      apply bind_inv in X. destruct X as (r & _ & X). apply bind_inv in X. destruct X as (E3 & X5 & X). rewrite (IH _ _ X).
      apply vset_inv in X2. apply vset_inv in X3. apply vset_inv in X5. destruct X2 as [_ ->], X3 as [_ ->], X5 as [_ ->]. rewrite !upd_length. reflexivity. }
    rewrite (L _ _ _ X1), app_length, repeat_length. lia.
Qed.

Section Edges.
Variable es : list (OmegaLimit nz).
Variable E : list (OmegaLimit Z).
Hypothesis HE : Forall2 limN es E.
Notation stN := (stN E).
Ltac dst HS := destruct HS as [n M eps nd imb cur uq fa fl G sc].

Lemma q_sim s0 s e : stN s0 s -> sim eq (2 * d) (q_n one es s0 e) (q s e).
Proof.
  intros HS; dst HS. unfold q_n, q. fld. apply (sim_rel P limN); [apply vget_sim; exact HE|]. intros o o' _ [l u f f' i j Hf]. cbn [o_l o_u o_fn o_i o_j].
  apply sim_same; intros pi _. apply sim_same; intros pj _. apply sim_same; intros w _. apply sim_same; intros t _. apply sim_same; intros t1 _. apply sim_same; intros x _.
  destruct (u <? t1); [apply sim_ok; reflexivity|]. destruct (t <? l); [apply sim_ok; reflexivity|].
  eapply sim_eq with (b2 := d); [apply Hf| |lia]. intro a. eapply sim_eq with (b2 := O); [apply Hf| |lia]. intro b. apply sim_ok. reflexivity.
Qed.

Lemma add_flow_sim s0 s e x : stN s0 s -> simr stN (add_flow_of_edge s0 e x) (add_flow_of_edge s e x).
Proof.
  intros HS; dst HS. unfold add_flow_of_edge. fld. do 4 (apply simr_same; intros). apply simr_ok. constructor.
Qed.

Lemma link_sim fuel s0 s p : stN s0 s -> sim stN (2 * d) (link_n one es fuel s0 p) (link fuel s p).
Proof.
  intros HS; dst HS. unfold link_n, link. fld. do 3 (apply sim_same; intros). apply (sim_rel P limN); [apply vget_sim; exact HE|].
  intros o o' _ [l u f f' i j Hf]. cbn [o_j]. apply sim_same; intros fa' _. cbv zeta. fld.
  eapply sim_eq with (b2 := O); [apply q_sim; constructor| |lia]. intro v. do 3 (apply sim_same; intros). apply sim_ok. constructor.
Qed.

Lemma flow_cut_sim fuel s0 s p : stN s0 s -> sim stN (2 * d) (flow_cut_n one es fuel s0 p) (flow_cut fuel s p).
Proof.
  intros HS; dst HS. unfold flow_cut_n, flow_cut. fld. do 5 (apply sim_same; intros). eapply sim_eq with (b2 := O); [apply q_sim; constructor| |lia]. intro v.
  apply sim_same; intros [h y] _. apply sim_still, add_flow_sim. constructor.
Qed.

Lemma send_push_sim fuel s0 s p r x : stN s0 s -> sim stN 0 (send_push_n one fuel s0 p r x) (send_push fuel s p r x).
Proof.
  intros HS; dst HS. unfold send_push_n, send_push. fld. apply sim_same; intros h _. cbv zeta. fld. apply sim_still. do 5 (apply simr_same; intros).
  destruct (dlt _ _); [apply simr_same; intros|]; apply simr_ok; constructor.
Qed.

Lemma send_loop_sim fuel : forall k c s0 s p r s' s1, stN s0 s -> send_loop fuel k s p r = Ok s' -> send_loop fuel c s p r = Ok s1 ->
  s1 = s' /\ exists s0' log, send_loop_n one es fuel k s0 p r = Ok (s0', log) /\ stN s0' s' /\ (length log <= 2 * c * d)%nat /\ Forall P log.
Proof.
  induction k as [|k IH]; intros c s0 s p r s' s1 HS H1 H2; cbn [send_loop send_loop_n] in *.
  { destruct (Nat.eqb p r) eqn:Ep; [|discriminate]. destruct c; cbn [send_loop] in H2; rewrite Ep in H2; inversion H1; inversion H2; subst; (split; [reflexivity|]);
      exists s0, []; (split; [reflexivity|]); (split; [assumption|]); (split; [cbn; lia|constructor]). }
  destruct c as [|c]; cbn [send_loop] in H2; destruct (Nat.eqb p r) eqn:Ep; try discriminate;
    try (inversion H1; inversion H2; subst; (split; [reflexivity|]); exists s0, []; (split; [reflexivity|]); (split; [assumption|]); (split; [cbn; lia|constructor])).
  apply bind_inv in H1. destruct H1 as ([h m] & E1 & H1). rewrite E1 in H2. cbn [bind] in H2. cbv zeta in H1, H2.
  replace (f_nodes s0) with (f_nodes s) by (dst HS; reflexivity). rewrite E1. cbn [still nbind].
  assert (HS1 : stN (with_nodes s0 h) (with_nodes s h)) by (dst HS; constructor).
  revert HS1 H1 H2. generalize (with_nodes s0 h) (with_nodes s h). clear s0 s HS E1. intros s0 s HS H1 H2.
  replace (f_imb s0) with (f_imb s) by (dst HS; reflexivity). apply bind_inv in H1. destruct H1 as (a & E1 & H1). rewrite E1 in H2 |- *. cbn [bind still nbind] in *.
  destruct (dlt a (fst m)).
  - assert (s1 = s') by congruence. split; [assumption|]. destruct (send_push_sim fuel s0 s p r a HS s' H1) as (s0' & log & -> & X1 & X2 & X3). cbn [nbind].
    exists s0', log. split; [reflexivity|]. split; [exact X1|]. split; [lia|exact X3].
  - apply bind_inv in H1. destruct H1 as (sb & E2 & H1). rewrite E2 in H2. cbn [bind] in H2.
    destruct (send_push_sim fuel s0 s p r (fst m) HS sb E2) as (sb0 & l1 & -> & X1 & X2 & X3). cbn [nbind].
    destruct (snd m) as [r'|]; [|discriminate]. apply bind_inv in H1. destruct H1 as (sc & E3 & H1). rewrite E3 in H2. cbn [bind] in H2.
    destruct (flow_cut_sim fuel sb0 sb r' X1 sc E3) as (sc0 & l2 & -> & Y1 & Y2 & Y3). cbn [nbind].
    destruct (IH c sc0 sc p r' s' s1 Y1 H1 H2) as (-> & s0' & l3 & -> & Z1 & Z2 & Z3). split; [reflexivity|].
    eexists _, _. split; [reflexivity|]. split; [exact Z1|]. split; [rewrite ?app_length; cbn [length app]; rewrite ?app_length; lia|].
    repeat (apply Forall_app; split); auto; try constructor.
Qed.

Lemma update_scaling_sim fuel s0 s p g : stN s0 s -> vget (f_G s) p = Ok g -> sim stN (length g * (2 * d)) (update_scaling_n one es fuel s0 p) (update_scaling fuel s p).
Proof.
  intros HS Hg. unfold update_scaling_n, update_scaling. replace (f_G s0) with (f_G s) by (dst HS; reflexivity). apply sim_same; intros g' Eg. assert (g' = g) by congruence. subst g'.
  eapply (sim_bind P stN) with (b2 := O); [|intros x z _ HX; dst HX; fld; apply sim_still; do 4 (apply simr_same; intros); apply simr_ok; constructor|rewrite Nat.add_0_r; apply le_n].
  apply sim_for_each; [|exact HS]. clear s0 s HS Hg Eg. intros s0 s e HS. assert (HC := flow_cut_sim fuel s0 s). dst HS. fld.
  apply (sim_rel P limN); [apply vget_sim; exact HE|]. intros o o' _ [l u f f' i j Hf]. cbn [o_j]. apply sim_same; intros a _.
  destruct (ptr_eqb a (Some p)); [apply HC; constructor|apply sim_ok; constructor].
Qed.

Lemma choice_sim fuel : forall c s p s1, choice_run fuel c s p s1 -> forall k s0 s', stN s0 s -> choice_loop fuel k s p = Ok s' ->
  s1 = s' /\ exists s0' log, choice_loop_n one es fuel k s0 p = Ok (s0', log) /\ stN s0' s' /\ (length log <= 4 * c * d)%nat /\ Forall P log.
Proof.
  induction 1 as [c s p cu g e v cu' s' G1 G2 G3 G4 G5 G6 G7 HR IH|c s p cu g e v sa h r s' G1 G2 G3 G4 G5 G6 G7 G8 G9|s p cu g s' G1 G2 G3 G4];
    intros k s0 s9 HS HC; (destruct k as [|k]; [discriminate|]); cbn [choice_loop choice_loop_n] in *;
    rewrite G1, G2 in HC; cbn [bind] in HC;
    (replace (f_cur s0) with (f_cur s) by (dst HS; reflexivity)); (replace (f_G s0) with (f_G s) by (dst HS; reflexivity)); rewrite G1, G2; cbn [still nbind].
  - rewrite (proj2 (Nat.ltb_lt _ _) G3) in *. rewrite G4 in HC. cbn [bind] in HC. rewrite G4, G5 in *. cbn [bind still nbind] in *. rewrite G6 in HC. rewrite G7 in *. cbn [bind still nbind] in *.
    destruct (q_sim s0 s e HS v G5) as (? & l1 & -> & -> & X2 & X3). cbn [nbind]. rewrite G6. cbn [nbind].
    assert (HS1 : stN (with_cur s0 cu') (with_cur s cu')) by (dst HS; constructor).
    destruct (IH k _ _ HS1 HC) as (-> & s0' & l2 & -> & Y1 & Y2 & Y3). split; [reflexivity|].
    eexists _, _. split; [reflexivity|]. split; [exact Y1|]. cbn [app]. split; [rewrite app_length; lia|apply Forall_app; auto].
  - rewrite (proj2 (Nat.ltb_lt _ _) G3) in *. rewrite G4 in HC. cbn [bind] in HC. rewrite G4, G5 in *. cbn [bind still nbind] in *. rewrite G6 in HC. rewrite G7 in HC. cbn [bind] in HC.
    destruct (q_sim s0 s e HS v G5) as (? & l1 & -> & -> & X2 & X3). cbn [nbind]. rewrite G6.
    destruct (link_sim fuel s0 s p HS sa G7) as (sa0 & l2 & -> & Y1 & Y2 & Y3). cbn [nbind].
    unfold send in HC. rewrite G8 in HC. cbn [bind] in HC. unfold send_n. replace (f_nodes sa0) with (f_nodes sa) by (dst Y1; reflexivity). rewrite G8. cbn [still nbind].
    assert (HS1 : stN (with_nodes sa0 h) (with_nodes sa h)) by (dst Y1; constructor).
    destruct (send_loop_sim fuel _ _ _ _ _ _ _ _ HS1 HC G9) as (-> & s0' & l3 & -> & Z1 & Z2 & Z3). split; [reflexivity|].
    eexists _, _. split; [reflexivity|]. split; [exact Z1|]. cbn [app]. split; [rewrite !app_length; lia|]. repeat (apply Forall_app; split); auto.
  - rewrite (proj2 (Nat.ltb_ge _ _) G3) in *. split; [congruence|].
    destruct (update_scaling_sim fuel s0 s p g HS G2 s9 HC) as (s0' & log & -> & X1 & X2 & X3). exists s0', log. cbn [nbind app]. split; [reflexivity|]. split; [exact X1|]. split; [nia|exact X3].
Qed.

Lemma refine_sim fuel : forall c s s1, refine_run fuel c s s1 -> forall k s0 s', stN s0 s -> refine_loop fuel k s = Ok s' ->
  s1 = s' /\ exists s0' log, refine_loop_n one es fuel k s0 = Ok (s0', log) /\ stN s0' s' /\ (length log <= 4 * c * d)%nat /\ Forall P log.
Proof.
  induction 1 as [c s Eu|c c1 c2 s p sa sb s' Eu G1 G2 G3 HR IH Hc]; intros k s0 s9 HS HC.
  - destruct k as [|k]; cbn [refine_loop refine_loop_n] in *; (replace (f_uq s0) with (f_uq s) by (dst HS; reflexivity)); rewrite Eu in *; inversion HC; subst; (split; [reflexivity|]);
      exists s0, []; (split; [reflexivity|]); (split; [assumption|]); (split; [cbn; lia|constructor]).
  - destruct k as [|k]; cbn [refine_loop refine_loop_n] in *; (replace (f_uq s0) with (f_uq s) by (dst HS; reflexivity)); rewrite Eu in *; [discriminate|].
    rewrite G1 in *. cbn [bind still nbind] in *. apply bind_inv in HC. destruct HC as (s2 & E1 & HC).
    destruct (choice_sim fuel _ _ _ _ G2 _ _ _ HS E1) as (-> & sa0 & l1 & -> & X1 & X2 & X3). cbn [nbind].
    unfold settle in G3. apply bind_inv in G3. destruct G3 as (p2 & F1 & G3). apply bind_inv in G3. destruct G3 as (a & F2 & G3).
    rewrite F1 in HC. cbn [bind] in HC. rewrite F2 in HC. cbn [bind] in HC. rewrite G3 in HC. cbn [bind] in HC.
    replace (f_uq sa0) with (f_uq s2) by (dst X1; reflexivity). replace (f_imb sa0) with (f_imb s2) by (dst X1; reflexivity). rewrite F1. cbn [still nbind]. rewrite F2. cbn [still nbind].
    assert (Y : exists sb0, (if deq a dzero then u <- uq_pop (f_uq s2) ;; Ok (with_uq sa0 u) else Ok sa0) = Ok sb0 /\ stN sb0 sb).
    { destruct (deq a dzero); [apply bind_inv in G3; destruct G3 as (u & -> & G3); cbn [bind]|]; inversion G3; subst; eexists; (split; [reflexivity|]); dst X1; constructor. }
    destruct Y as (sb0 & -> & Y). cbn [still nbind]. destruct (IH _ _ _ Y HC) as (-> & s0' & l2 & -> & Z1 & Z2 & Z3). split; [reflexivity|].
    eexists _, _. split; [reflexivity|]. split; [exact Z1|]. cbn [app]. split; [rewrite app_length; nia|apply Forall_app; auto].
Qed.

Lemma cut_all_sim fuel s0 s : stN s0 s -> sim stN ((f_n s + 1) * (2 * d)) (cut_all_n one es fuel s0) (cut_all fuel s).
Proof.
  intro HS. unfold cut_all_n, cut_all. replace (f_n s0) with (f_n s) by (dst HS; reflexivity). rewrite <- (seq_length (f_n s + 1) 0) at 1.
  apply sim_for_each; [|exact HS]. clear s0 s HS. intros s0 s i HS.
  replace (f_fa s0) with (f_fa s) by (dst HS; reflexivity). apply sim_same; intros [a|] _; [apply flow_cut_sim; exact HS|apply sim_ok; exact HS].
Qed.

Lemma push_all_sim s0 s : stN s0 s -> sim stN (length E * (2 * d)) (push_all_n one es s0) (push_all_admissible_edge s).
Proof.
  intro HS. unfold push_all_n, push_all_admissible_edge. assert (EL : f_edges s = E) by (dst HS; reflexivity). rewrite EL at 1. rewrite (forall2_len _ _ _ HE). clear EL.
  rewrite <- (seq_length (length E) 0) at 1. eapply (sim_bind P stN) with (b2 := O); [| |rewrite Nat.add_0_r; apply le_n].
  - apply sim_for_each; [|exact HS]. clear s0 s HS. intros s0 s e HS. assert (HQ := q_sim s0 s e HS). dst HS. fld.
    apply (sim_rel P limN); [apply vget_sim; exact HE|]. intros o o' _ [l u f f' i j Hf]. cbn [o_i o_j]. eapply sim_eq with (b2 := O); [exact HQ| |lia]. intro v. destruct (dlt dzero v); [|apply sim_ok; constructor].
    apply sim_still. do 4 (apply simr_same; intros). apply add_flow_sim. constructor.
  - intros x y _ HX. clear s0 s HS. rename x into s0, y into s, HX into HS. apply sim_still. replace (f_n s0) with (f_n s) by (dst HS; reflexivity). apply simr_for_each; [|exact HS]. clear s0 s HS. intros s0 s i HS.
    replace (f_imb s0) with (f_imb s) by (dst HS; reflexivity). replace (f_uq s0) with (f_uq s) by (dst HS; reflexivity). apply simr_same; intros a _.
    destruct (dlt dzero a); [apply simr_same; intros u _|]; apply simr_ok; dst HS; constructor.
Qed.
End Edges.

(** ** The answer *)
Lemma sum_answer_sim U fuel es s0 s : Forall2 limN es (f_edges s) -> Forall (within U) (f_edges s) -> f_flows s0 = f_flows s ->
  sim (fun x y => snd x = snd y) (length (f_edges s) * ((2 * turns U + 1) * d)) (sum_answer_n one fuel es s0) (sum_answer fuel s).
Proof.
  intros HE HW Hf. unfold sum_answer_n, sum_answer. rewrite (forall2_len _ _ _ HE). rewrite <- (seq_length (length (f_edges s)) 0) at 1.
  set (R := fun (x : list (OmegaLimit nz) * Z) (y : flow Z * Z) =>
    Forall2 limN (fst x) (f_edges (fst y)) /\ Forall (within U) (f_edges (fst y)) /\ f_flows s0 = f_flows (fst y) /\ snd x = snd y).
  intros z Ez.
  enough (X : sim R (length (seq 0 (length (f_edges s))) * ((2 * turns U + 1) * d)) (sum_answer_n one fuel es s0) (sum_answer fuel s)).
  { unfold sum_answer_n, sum_answer in X. rewrite (forall2_len _ _ _ HE) in X. destruct (X z Ez) as (x & log & E1 & (_ & _ & _ & E2) & E3). exists x, log. split; [exact E1|]. split; [exact E2|exact E3]. }
  clear z Ez. unfold sum_answer_n, sum_answer. rewrite (forall2_len _ _ _ HE). apply sim_for_each; [|split; [exact HE|split; [exact HW|split; [exact Hf|reflexivity]]]].
  intros [es1 a1] [s1 a2] e (X1 & X2 & X3 & X4). cbn [fst snd] in *. subst a2. rewrite X3. intros z Ez. apply bind_inv in Ez. destruct Ez as (o' & E1 & Ez).
  assert (Wo := vget_within _ _ _ _ X2 E1). destruct (vget_sim limN _ _ e X1 o' E1) as (o & -> & HO). cbn [still nbind].
  apply bind_inv in Ez. destruct Ez as (x & E2 & Ez). rewrite E2. cbn [still nbind]. cbv zeta in Ez |- *.
  assert (HT : limN (tilt_n one o x) (tilt o' x)).
  { destruct HO as [l u f f' i j Hff]. constructor. intro w. cbn [o_fn]. eapply sim_eq with (b2 := O); [apply Hff| |lia]. intro y. apply sim_ok. reflexivity. }
  assert (WT : within U (tilt o' x)) by exact Wo.
  apply bind_inv in Ez. destruct Ez as (E' & E3 & Ez). destruct (vset_sim limN _ _ e _ _ X1 HT E' E3) as (es' & -> & HE'). cbn [still nbind].
  apply bind_inv in Ez. destruct Ez as (m & E4 & Ez). destruct (limit_min_sim P one d fuel _ _ HT (proj1 WT) m E4) as (m0 & log & -> & -> & L1 & L2). cbn [nbind still app].
  inversion Ez; subst z. eexists _, _. split; [reflexivity|]. split; [|split].
  - split; [exact HE'|]. split; [exact (vset_within _ _ _ _ _ X2 WT E3)|]. split; [exact X3|reflexivity].
  - rewrite app_nil_r. assert (Y := turns_mono _ _ (proj2 WT)). nia.
  - rewrite app_nil_r. exact L2.
Qed.
End Run.
