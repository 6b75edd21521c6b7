(** * Resetting more changes nothing *)
From Verif Require Import Base BaseLemmas Data UniqueQueue UQProof LCT LCTSpec LCTForest LCTOps LCTRun LCTBound ProblemDefine Flow Spec FlowSpec.
From Verif Require Import Sums NetMath FlowNet FlowInv FlowPhase FlowChecked FlowRun FlowNew FlowOpt FlowStates FlowTotal FlowLog FlowReplay CallTotal TreeFlow TreeFollow TreeProof Reset.
Local Open Scope Z_scope.

(** ** Programs that do not look at values left over *)
Inductive careful : list lct_op -> Prop :=
| cf_nil : careful []
| cf_link x v y os : careful os -> careful (SetVal x v :: SetFa x y :: os)
| cf_cut x os : careful os -> careful (Cut x :: GetVal x :: os)
| cf_root x os : careful os -> careful (FindRoot x :: os)
| cf_min x os : careful os -> careful (GetMin x :: os)
| cf_add x d os : careful os -> careful (AddPath x d :: os).

Lemma careful_app a b : careful a -> careful b -> careful (a ++ b).
Proof. induction 1; intro; cbn [app]; try constructor; auto. Qed.

Lemma path_same par par' : (forall x, par' x = par x) -> forall x l, path par x l -> path par' x l.
Proof. intros E x l P. induction P; [constructor|econstructor]; rewrite ?E; eauto. Qed.

Lemma path_inner par : forall x l r, path par x (l ++ [r]) -> forall z, In z l -> par z <> None.
Proof.
  intros x l. revert x. induction l as [|a l IH]; intros x r P z Hz; [destruct Hz|]. cbn [app] in P. inversion P as [? Hr Ee|? y ? Hy HP]; subst.
  - destruct l; discriminate.
  - destruct Hz as [<-|Hz]; [congruence|]. exact (IH _ _ HP z Hz).
Qed.

Lemma rerun N os : careful os -> forall f f' outs, lct_run N f os f' outs -> forall g (k : nat -> Prop),
  (forall x, parent g x = parent f x) -> (forall x, parent f x <> None -> k x) -> (forall x, k x -> value g x = value f x) ->
  exists g', lct_run N g os g' outs.
Proof.
  induction 1 as [|x v y os C IH|x os C IH|x os C IH|x os C IH|x d os C IH]; intros f f' outs R g k HP HK HV.
  - inversion R; subst. exists g. constructor.
  - inversion R as [|? ? f1 o1 ? ? outs1 S1 R1]; subst. inversion R1 as [|? ? f2 o2 ? ? outs2 S2 R2]; subst.
    inversion S1; subst. inversion S2 as [|? ? ? ly Hx Hy Hr HPa Hn| | | | |]; subst. cbn [parent value] in *.
    destruct (IH _ _ _ R2 (mkForest (set_parent (parent g) x (Some y)) (set_value (value g) x v)) (fun z => z = x \/ k z)) as [g' G].
    + intro z. cbn [parent]. unfold set_parent. rewrite HP. reflexivity.
    + intros z Hz. cbn [parent] in Hz. unfold set_parent in Hz. destruct (Nat.eqb_spec z x); auto.
    + intros z Hz. cbn [value]. unfold set_value. destruct (Nat.eqb_spec z x); [reflexivity|]. destruct Hz as [|Hz]; [contradiction|]. apply HV, Hz.
    + exists g'. econstructor; [apply step_set_val; assumption|]. econstructor; [|exact G].
      apply (step_set_fa N (mkForest (parent g) (set_value (value g) x v)) x y ly Hx Hy); cbn [parent].
      * rewrite HP. exact Hr.
      * eapply path_same; [exact HP|exact HPa].
      * exact Hn.
  - inversion R as [|? ? f1 o1 ? ? outs1 S1 R1]; subst. inversion R1 as [|? ? f2 o2 ? ? outs2 S2 R2]; subst.
    inversion S1 as [| |? ? y Hx Hy| | | |]; subst. inversion S2; subst. cbn [parent value] in *.
    destruct (IH _ _ _ R2 (mkForest (set_parent (parent g) x None) (value g)) k) as [g' G].
    + intro z. cbn [parent]. unfold set_parent. rewrite HP. reflexivity.
    + intros z Hz. cbn [parent] in Hz. unfold set_parent in Hz. destruct (Nat.eqb_spec z x); [contradiction|]. auto.
    + exact HV.
    + exists g'. econstructor; [apply (step_cut N g x y Hx); rewrite HP; exact Hy|]. econstructor; [|exact G].
      rewrite <- (HV x); [|apply HK; congruence]. apply (step_get_val N (mkForest (set_parent (parent g) x None) (value g)) x Hx).
  - inversion R as [|? ? f1 o1 ? ? outs1 S1 R1]; subst. inversion S1 as [? ? l r Hx HPa| | | | | |]; subst.
    destruct (IH _ _ _ R1 g k HP HK HV) as [g' G]. exists g'. econstructor; [|exact G].
    apply (step_find_root N g x l r Hx). eapply path_same; [exact HP|exact HPa].
  - inversion R as [|? ? f1 o1 ? ? outs1 S1 R1]; subst. inversion S1 as [| | | |? ? r below y above Hx HPa H1 H2| |]; subst.
    destruct (IH _ _ _ R1 g k HP HK HV) as [g' G]. exists g'. econstructor; [|exact G].
    assert (X : forall z, In z (below ++ y :: above) -> value g z = value f1 z).
    { intros z Hz. apply HV, HK. exact (path_inner _ _ _ _ HPa z Hz). }
    assert (Xy : value g y = value f1 y) by (apply X; apply in_or_app; right; left; reflexivity). rewrite <- Xy.
    apply (step_get_min N g x r below y above Hx).
    + eapply path_same; [exact HP|exact HPa].
    + intros z Hz. rewrite Xy, X by (apply in_or_app; left; exact Hz). apply H1, Hz.
    + intros z Hz. rewrite Xy, X by (apply in_or_app; right; right; exact Hz). apply H2, Hz.
  - inversion R as [|? ? f1 o1 ? ? outs1 S1 R1]; subst. inversion S1 as [| | | | | |? ? l ? Hx HPa]; subst.
    destruct (IH _ _ _ R1 (mkForest (parent g) (add_values (value g) l d)) k) as [g' G].
    + exact HP.
    + exact HK.
    + intros z Hz. cbn [value]. unfold add_values. rewrite (HV z Hz). reflexivity.
    + exists g'. econstructor; [|exact G]. apply step_add_path; [exact Hx|]. eapply path_same; [exact HP|exact HPa].
Qed.

(** ** The programs of the flow solver are careful *)
Section Careful.
Variable one : Z.
#[local] Hint Extern 0 (DataOps Z) => exact (exact_ops one) : typeclass_instances.
Variable fuel : nat.

Tactic Notation "linv" hyp(H) ident(a) ident(i) ident(E) :=
  let j := fresh "jj" in
  apply lbind_inv in H; destruct H as (a & i & j & E & H & ->); cbv beta zeta in H.
Ltac qinv H := apply quiet_inv in H; destruct H as [H ->].
Tactic Notation "lquiet" hyp(H) ident(a) ident(E) :=
  let j := fresh "jj" in let i := fresh "ii" in
  apply lbind_inv in H; destruct H as (a & i & j & E & H & ->); cbv beta zeta in H; apply quiet_inv in E; destruct E as [E ->]; cbn [app].
Tactic Notation "lcall" hyp(H) ident(a) ident(E) :=
  let j := fresh "jj" in let i := fresh "ii" in
  apply lbind_inv in H; destruct H as (a & i & j & E & H & ->); cbv beta zeta in H; apply call_inv in E; destruct E as [E ->]; cbn [app].

Lemma link_careful s p s' os : link_l one fuel s p = Ok (s', os) -> careful os.
Proof.
  intro E. unfold link_l in E. lquiet E g E1. lquiet E c E2. lquiet E e E3. lquiet E e1 E4. lquiet E fa E5. lquiet E v E6.
  lcall E h1 E7. lquiet E nd E8. lcall E h2 E9. qinv E. repeat constructor.
Qed.

Lemma flow_cut_careful s p s' os : flow_cut_l one fuel s p = Ok (s', os) -> careful os.
Proof.
  intro E. unfold flow_cut_l in E. lquiet E fa E1. lcall E h1 E2. lquiet E g E3. lquiet E c E4. lquiet E e E5. lquiet E a E6.
  lcall E r E7. destruct r as [h2 v]. qinv E. repeat constructor.
Qed.

Lemma send_push_careful s p r x s' os : send_push_l one fuel s p r x = Ok (s', os) -> careful os.
Proof. intro E. unfold send_push_l in E. lcall E h1 E1. qinv E. repeat constructor. Qed.

Lemma send_loop_careful k : forall s p r s' os, send_loop_l one fuel k s p r = Ok (s', os) -> careful os.
Proof.
  induction k as [|k IH]; intros s p r s' os E; cbn [send_loop_l] in *; destruct (Nat.eqb p r) eqn:Hpr.
  - qinv E. constructor.
  - discriminate.
  - qinv E. constructor.
  - lcall E m E1. destruct m as [h1 m]. lquiet E a E2. constructor. destruct (dlt a (fst m)).
    + exact (send_push_careful _ _ _ _ _ _ E).
    + linv E s1 i1 E3. apply careful_app; [exact (send_push_careful _ _ _ _ _ _ E3)|]. destruct (snd m); [|discriminate].
      linv E s2 i2 E4. apply careful_app; [exact (flow_cut_careful _ _ _ _ E4)|exact (IH _ _ _ _ _ E)].
Qed.

Lemma for_each_careful {A} (l : list A) (f : flow Z -> A -> logged (flow Z)) :
  (forall x s s' os, f s x = Ok (s', os) -> careful os) -> forall s s' os, for_each_l l s f = Ok (s', os) -> careful os.
Proof.
  intro F. induction l as [|x l IH]; intros s s' os E; cbn [for_each_l] in *.
  - qinv E. constructor.
  - linv E s1 i1 E1. apply careful_app; [exact (F _ _ _ _ E1)|exact (IH _ _ _ E)].
Qed.

Lemma update_scaling_careful s p s' os : update_scaling_l one fuel s p = Ok (s', os) -> careful os.
Proof.
  intro E. unfold update_scaling_l in E. lquiet E g E1. linv E s1 i1 E2. qinv E. rewrite app_nil_r.
  eapply for_each_careful; [|exact E2]. intros x t t' os F. cbv beta in F. lquiet F e F1. lquiet F a F2.
  destruct (ptr_eqb a (Some p)); [exact (flow_cut_careful _ _ _ _ F)|]. qinv F. constructor.
Qed.

Lemma choice_loop_careful k : forall s p s' os, choice_loop_l one fuel k s p = Ok (s', os) -> careful os.
Proof.
  induction k as [|k IH]; intros s p s' os E; cbn [choice_loop_l] in *; [discriminate|].
  lquiet E c E1. lquiet E g E2. destruct (c <? length g)%nat.
  - lquiet E e E3. lquiet E v E4. destruct (dlt dzero v).
    + linv E s1 i1 E5. apply careful_app; [exact (link_careful _ _ _ _ E5)|].
      unfold send_l in E. lcall E m E6. destruct m as [h r]. constructor. exact (send_loop_careful _ _ _ _ _ _ E).
    + lquiet E cu E5. exact (IH _ _ _ _ E).
  - exact (update_scaling_careful _ _ _ _ E).
Qed.

Lemma refine_loop_careful k : forall s s' os, refine_loop_l one fuel k s = Ok (s', os) -> careful os.
Proof.
  induction k as [|k IH]; intros s s' os E; cbn [refine_loop_l] in *; destruct (uq_empty (f_uq s)).
  - qinv E. constructor.
  - discriminate.
  - qinv E. constructor.
  - lquiet E p E1. linv E s1 i1 E2. lquiet E p1 E3. lquiet E a E4. lquiet E s2 E5.
    apply careful_app; [exact (choice_loop_careful _ _ _ _ _ E2)|exact (IH _ _ _ E)].
Qed.

Lemma phase_careful s s' os : phase_l one fuel s = Ok (s', os) -> careful os.
Proof.
  intro E. unfold phase_l in E. cbv zeta in E. lquiet E s1 E1. unfold refine_l in E. linv E s2 i2 E2.
  apply careful_app; [exact (refine_loop_careful _ _ _ _ E2)|].
  unfold cut_all_l in E. eapply for_each_careful; [|exact E]. intros x t t' os F. cbv beta in F. lquiet F a F1. destruct a.
  - exact (flow_cut_careful _ _ _ _ F).
  - qinv F. constructor.
Qed.
End Careful.

(** ** Two runs side by side *)
Lemma rep_same (h : heap Z) par par' val : (forall u, (u < length h)%nat -> par' u = par u) -> Rep h par val -> Rep h par' val.
Proof.
  intros E [(ts & [T1 T2 T3]) [W1 W2]]. split.
  - exists ts. constructor; [|exact T2|exact T3]. rewrite Forall_forall in *. intros [p t] Hin. destruct (T1 _ Hin) as (A1 & A2 & A3). split; [exact A1|]. split; [exact A2|].
    eapply chain_ext; [|exact A3]. intros x Hx. split; [|reflexivity]. apply E. apply T3. eapply in_aidx; [exact Hin|]. cbn [snd] in Hx. rewrite LCTTree.map_fst_vals in Hx. exact Hx.
  - constructor.
    + intros x Hx. destruct (W1 x Hx) as [l Hl]. exists l. revert Hx. induction Hl as [x Hr|x y l Hp Hl IH]; intro Hx.
      * constructor. rewrite E by exact Hx. exact Hr.
      * econstructor; [rewrite E by exact Hx; exact Hp|]. apply IH. exact (W2 _ _ Hx Hp).
    + intros x y Hx Hy. rewrite E in Hy by exact Hx. exact (W2 _ _ Hx Hy).
Qed.

Section Two.
Variable one : Z.
#[local] Hint Extern 0 (DataOps Z) => exact (exact_ops one) : typeclass_instances.
Variables (fuel n : nat) (M K U : Z) (limits : list (OmegaLimit Z)).
Notation m := (length limits).
Hypothesis HW : network_wf n M K U limits.
Hypothesis Hfuel : flow_iterations n m K <= Z.of_nat fuel.

(** between rounds, these fields are as in the constructor *)
Lemma J_rest kap s : J fuel n M limits kap s ->
  f_imb s = repeat 0 (length (f_imb s)) /\ f_uq s = uq_clear (f_uq s) /\ f_fa s = repeat None (length (f_fa s)) /\
  length (f_nodes s) = (n + 1)%nat /\ exists val, Rep (f_nodes s) (fun _ => None) val.
Proof.
  intros (E & Gl & k & p & x & P & W & HN & HE & HH & _). pose proof HH as [(par & val & cur & HS & Hpar & _) _ _ _ Hq _].
  pose proof HS as [_ _ _ _ _ Hlen Hrep Himb _ Hfa _ _ Huq _].
  assert (V : forall A (l : list A) N (a : A) f, vec l N f -> (forall i, (i < N)%nat -> f i = a) -> l = repeat a (length l)).
  { clear. intros A l N a f [L H] F. rewrite L. apply nth_ext with (d := a) (d' := a); [rewrite repeat_length; exact L|].
    intros i Hi. rewrite nth_repeat. specialize (H i ltac:(lia)). apply nth_error_nth with (d := a) in H. rewrite H. apply F. lia. }
  split; [exact (V _ _ _ 0 _ Himb (fun _ _ => eq_refl))|]. split; [|split; [|split; [exact Hlen|]]].
  - destruct Huq as [U1 U2 U3 U4]. destruct (f_uq s) as [qu ii]. cbn [uq_queue uq_in] in *. subst qu. unfold uq_clear. cbn [uq_in]. f_equal.
    apply nth_ext with (d := false) (d' := false); [rewrite repeat_length; reflexivity|]. intros i Hi. rewrite nth_repeat.
    destruct (nth i ii false) eqn:Ei; [|reflexivity]. apply U4 in Ei; [destruct Ei|lia].
  - apply (V _ _ _ None _ Hfa). intros i Hi. apply Hpar. lia.
  - exists val. eapply rep_same; [|exact Hrep]. intros u Hu. symmetry. apply Hpar. lia.
Qed.

Lemma J_full kap s : J fuel n M limits kap s -> J fuel n M limits kap (full_initialization s).
Proof.
  intro HJ. destruct (J_rest kap s HJ) as (R1 & R2 & R3 & R4 & _).
  destruct HJ as (E & Gl & k & p & x & P & W & HN & HE & HH & H1 & H2 & H3 & H4).
  exists E, Gl, k, p, x, P, W. split; [exact HN|]. split; [exact HE|]. split; [|auto].
  destruct HH as [(par & val & cur & HS & Hpar & Hval) B1 B2 B3 B4 B5].
  destruct HS as [S1 S2 S3 S4 S5 S6 S7 S8 S9 S10 S11 S12 S13 S14].
  assert (HM := fn_M _ _ _ _ _ HN).
  constructor; auto.
  - exists (fun _ => None), (fun _ => 0), (fun _ => 0%nat). split; [|split; [auto|intros; lia]].
    constructor; cbn [full_initialization f_n f_M f_eps f_nodes f_imb f_cur f_uq f_fa f_edges f_flows f_G f_scal]; auto.
    + rewrite repeat_length. lia.
    + apply (rep_init one).
    + rewrite (vec_len _ _ _ S8). apply vec_repeat.
    + rewrite (vec_len _ _ _ S9). apply vec_repeat.
    + rewrite (vec_len _ _ _ S10). apply vec_repeat.
    + rewrite <- R2. exact S13.
    + intros i nd Hnd. apply nth_error_In, repeat_spec in Hnd. subst nd.
      assert (HC : 0 <= Cb m M) by (unfold Cb; nia). unfold nb. cbn. lia.
Qed.

Lemma full_strip kap s : J fuel n M limits kap s -> initialization (strip (full_initialization s)) = initialization (strip s).
Proof.
  intro HJ. destruct (J_rest kap s HJ) as (R1 & R2 & R3 & _ & _). destruct s as [a1 a2 a3 a4 a5 a6 a7 a8 a9 a10 a11 a12].
  cbn in R1, R2, R3. unfold initialization, strip, with_cur, with_nodes, full_initialization. cbn. rewrite repeat_length, <- R1, <- R2, <- R3. reflexivity.
Qed.

Lemma round_both kap s t : J fuel n M limits kap s -> J fuel n M limits kap t -> strip s = strip t -> 2 <= f_eps s ->
  exists s' t', phase fuel s = Ok s' /\ phase_full fuel t = Ok t' /\ strip s' = strip t' /\
    J fuel n M limits (Z.quot (f_eps s) 2) (with_eps s' (Z.quot (f_eps s') 2)) /\
    J fuel n M limits (Z.quot (f_eps s) 2) (with_eps t' (Z.quot (f_eps t') 2)).
Proof.
  intros HJs HJt Est He. assert (HJu := J_full kap t HJt). set (u := full_initialization t) in *.
  assert (Eeps : f_eps u = f_eps s) by (change (f_eps u) with (f_eps (strip t)); rewrite <- Est; reflexivity).
  destruct (fuel_facts fuel n M K U limits HW Hfuel) as (F1 & _).
  destruct (J_step one fuel n M K U limits HW Hfuel (fun _ => true) (fun _ _ => eq_refl) kap s HJs He) as (_ & _ & s' & _ & _ & PS & _).
  destruct (J_step one fuel n M K U limits HW Hfuel (fun _ => true) (fun _ _ => eq_refl) kap u HJu ltac:(lia)) as (_ & _ & t' & _ & _ & PT & _).
  apply (phase_chk_sim (fun _ => true)) in PS. apply (phase_chk_sim (fun _ => true)) in PT.
  destruct (unlog_inv (phase_l one fuel s) s' (eq_trans (phase_unlog one fuel s) PS)) as [os LS].
  destruct (unlog_inv (phase_l one fuel u) t' (eq_trans (phase_unlog one fuel u) PT)) as [ot LT].
  destruct (J_calls one fuel n M K U limits HW Hfuel kap s s' os HJs He LS) as (_ & JS & c1 & (G1 & _) & _).
  destruct (J_calls one fuel n M K U limits HW Hfuel kap u t' ot HJu ltac:(lia) LT) as (_ & JT & c2 & (G2 & _) & _).
  cbv zeta in JS, JT. rewrite Eeps in JT.
  exists s', t'. split; [exact PS|]. split.
  { rewrite <- PT. unfold phase_full, phase. fold u. replace (initialization u) with u; [reflexivity|].
    unfold u, initialization, full_initialization, with_cur. cbn. rewrite repeat_length. reflexivity. }
  split; [|split; assumption].
  destruct (J_rest kap s HJs) as (_ & _ & Rf & Rl & val & Rv). destruct (J_rest kap t HJt) as (_ & _ & Rft & Rlt & _).
  assert (LF : length (f_fa s) = (n + 1)%nat).
  { destruct HJs as (E & Gl & k & p & x & P & W & HN & HE & HH & _). destruct HH as [(par & vl & cur & HS & _) _ _ _ _ _]. apply (vec_len _ _ _ (st_fa _ _ _ _ _ _ _ _ _ _ _ _ _ HS)). }
  assert (LFt : length (f_fa t) = (n + 1)%nat).
  { change (length (f_fa (strip t)) = (n + 1)%nat). rewrite <- Est. exact LF. }
  destruct (G1 (mkForest (fun _ => None) val)) as (f1 & outs & _ & RS & CS).
  { split; [cbn [parent]; rewrite Rf, LF; apply vec_repeat|]. split; [exact Rl|exact Rv]. }
  destruct (G2 forest0) as (f2 & outt & _ & RT & CT).
  { split; [|split].
    - unfold u. cbn [full_initialization f_fa parent forest0]. rewrite LFt. apply vec_repeat.
    - unfold u. cbn [full_initialization f_nodes]. rewrite repeat_length. exact Rlt.
    - unfold u. cbn [full_initialization f_nodes]. apply (rep_init one). }
  destruct (rerun (n + 1) os (phase_careful one fuel s s' os LS) _ _ _ RS forest0 (fun _ => False)) as [g RG]; [reflexivity|intros z Hz; apply Hz; reflexivity|contradiction|].
  destruct (lct_program_ok one (n + 1) fuel os g outs F1 RG) as (h1 & C1 & _).
  assert (X : forall l h, tree_calls (lct_call one fuel) h l = lct_calls one fuel h l).
  { clear. induction l as [|op l IH]; intro h; cbn [tree_calls lct_calls]; [reflexivity|].
    destruct (lct_call one fuel h op) as [[h1 o]|]; cbn [bind]; [|reflexivity]. rewrite IH. reflexivity. }
  destruct (phase_tracks one fuel (lct_call one fuel) s s' os LS _ _ CS) as [_ TS].
  destruct (phase_tracks one fuel (lct_call one fuel) u t' ot LT _ _ CT) as [_ TT].
  assert (Nu : f_nodes u = repeat node0 (n + 1)) by (unfold u; cbn [full_initialization f_nodes]; rewrite Rlt; reflexivity).
  specialize (TS _ _ (eq_trans (X _ _) C1)). specialize (TT _ _ (eq_trans (X _ _) CT)). rewrite Nu in TT.
  assert (Z1 : phase_t one (lct_call one fuel) fuel (strip u) (repeat node0 (n + 1)) = phase_t one (lct_call one fuel) fuel (strip s) (repeat node0 (n + 1))).
  { unfold phase_t. unfold u. rewrite (full_strip kap t HJt), Est. reflexivity. }
  rewrite Z1, TS in TT. exact (f_equal (fun r => match r with Ok (a, _) => a | Err _ => strip s' end) TT).
Qed.

Lemma loop_both : forall k kap s t s', J fuel n M limits kap s -> J fuel n M limits kap t -> strip s = strip t ->
  scaling_loop fuel k s = Ok s' -> exists t', scaling_loop_full fuel k t = Ok t' /\ strip s' = strip t'.
Proof.
  induction k as [|k IH]; intros kap s t s' HJs HJt E H; cbn [scaling_loop scaling_loop_full] in *;
    (assert (Ee : f_eps t = f_eps s) by (change (f_eps t) with (f_eps (strip t)); rewrite <- E; reflexivity)); rewrite Ee;
    destruct (Z.ltb_spec (f_eps s) 2) as [Hlt|Hge].
  - inversion H; subst. eauto.
  - discriminate.
  - inversion H; subst. eauto.
  - destruct (round_both kap s t HJs HJt E Hge) as (s1 & t1 & P1 & P2 & P3 & P4 & P5). rewrite P1 in H. rewrite P2. cbn [bind] in *.
    eapply (IH _ _ _ _ P4 P5); [|exact H].
    change (with_eps (strip s1) (Z.quot (f_eps (strip s1)) 2) = with_eps (strip t1) (Z.quot (f_eps (strip t1)) 2)). rewrite P3. reflexivity.
Qed.

Theorem reset_nothing : exists s s' t' v,
  flow_new fuel n M U limits = Ok s /\ min_cost fuel s = Ok (s', v) /\ min_cost_full fuel s = Ok (t', v) /\ strip s' = strip t'.
Proof.
  destruct (total_calls one fuel n M K U limits HW Hfuel) as (s & s' & v & _ & _ & _ & _ & _ & E1 & _ & E3 & _).
  destruct (J_first one fuel n M K U limits HW Hfuel) as (s0 & E0 & HJ & _). assert (s0 = s) by congruence. subst s0. clear E0.
  unfold min_cost in E3. apply bind_inv in E3. destruct E3 as (s1 & A1 & E3). apply bind_inv in E3. destruct E3 as ([s2 a] & A2 & E3). inversion E3; subst.
  destruct (loop_both fuel _ s s s1 HJ HJ eq_refl A1) as (t1 & B1 & B2).
  destruct (sum_blind one fuel _ _ _ A2) as [C1 _].
  assert (C2 : exists t2, sum_answer fuel t1 = Ok (t2, a) /\ strip t2 = strip s').
  { rewrite B2 in C1. clear - C1. revert C1. unfold sum_answer. change (f_edges (strip t1)) with (f_edges t1). generalize (seq 0 (length (f_edges t1))) as l. generalize (@dzero Z _) as d.
    intros d l. revert t1 d. induction l as [|x l IH]; intros t d E; cbn [for_each] in *.
    - exists t. split.
      + rewrite (f_equal (fun r => match r with Ok (_, z) => z | Err _ => d end) E : d = a). reflexivity.
      + exact (f_equal (fun r => match r with Ok (z, _) => z | Err _ => strip t end) E).
    - apply bind_inv in E. destruct E as ([u w] & E0 & E). cbv beta iota in E0.
      apply bind_inv in E0. destruct E0 as (e1 & X1 & E0). apply bind_inv in E0. destruct E0 as (e2 & X2 & E0). cbv zeta in E0.
      apply bind_inv in E0. destruct E0 as (e3 & X3 & E0). apply bind_inv in E0. destruct E0 as (e4 & X4 & E0). inversion E0; subst.
      change (f_edges (strip t)) with (f_edges t) in *. change (f_flows (strip t)) with (f_flows t) in *. rewrite X1. cbn [bind]. rewrite X2. cbn [bind]. rewrite X3. cbn [bind]. rewrite X4. cbn [bind].
      exact (IH (with_edges t e3) _ E). }
  destruct C2 as (t2 & C2 & C3).
  exists s, s', t2, (dhalf a). split; [exact E1|]. split; [unfold min_cost; rewrite A1; cbn [bind]; rewrite A2; reflexivity|].
  split; [unfold min_cost_full; rewrite B1; cbn [bind]; rewrite C2; reflexivity|]. symmetry. exact C3.
Qed.
End Two.
