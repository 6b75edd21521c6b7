(** * The solver on another forest follows the solver on the link-cut tree *)
From Verif Require Import Base BaseLemmas Data UniqueQueue LCT LCTSpec LCTRun ProblemDefine Flow.
From Verif Require Import FlowLog FlowReplay TreeFlow.
Local Open Scope Z_scope.

Section Follow.
Variable one : Z.
#[local] Hint Extern 0 (DataOps Z) => exact (exact_ops one) : typeclass_instances.
Variable fuel : nat.
Context {H : Type}.
Variable call : H -> lct_op -> res (H * lct_out).

Lemma tree_calls_split os1 : forall os2 h h' outs, tree_calls call h (os1 ++ os2) = Ok (h', outs) ->
  exists h1 o1 o2, tree_calls call h os1 = Ok (h1, o1) /\ tree_calls call h1 os2 = Ok (h', o2) /\ outs = o1 ++ o2 /\ length o1 = length os1.
Proof.
  induction os1 as [|op os1 IH]; intros os2 h h' outs E; cbn [app tree_calls] in *.
  - exists h, [], outs. auto.
  - apply bind_inv in E. destruct E as ([ha oa] & E1 & E). apply bind_inv in E. destruct E as ([hb ob] & E2 & E). inversion E; subst.
    destruct (IH _ _ _ _ E2) as (h1 & o1 & o2 & A1 & A2 & -> & A3).
    exists h1, (oa :: o1), o2. rewrite E1. cbn [bind]. rewrite A1. cbn [bind length app]. auto.
Qed.

Lemma lct_calls_split os1 : forall os2 h h' outs, lct_calls one fuel h (os1 ++ os2) = Ok (h', outs) ->
  exists h1 o1 o2, lct_calls one fuel h os1 = Ok (h1, o1) /\ lct_calls one fuel h1 os2 = Ok (h', o2) /\ outs = o1 ++ o2 /\ length o1 = length os1.
Proof.
  induction os1 as [|op os1 IH]; intros os2 h h' outs E; cbn [app lct_calls] in *.
  - exists h, [], outs. auto.
  - apply bind_inv in E. destruct E as ([ha oa] & E1 & E). apply bind_inv in E. destruct E as ([hb ob] & E2 & E). inversion E; subst.
    destruct (IH _ _ _ _ E2) as (h1 & o1 & o2 & A1 & A2 & -> & A3).
    exists h1, (oa :: o1), o2. rewrite E1. cbn [bind]. rewrite A1. cbn [bind length app]. auto.
Qed.

(** if the link-cut tree and the other forest answer the calls [os] alike, then [run] follows *)
Definition tracks (os : list lct_op) (s s' : flow Z) (run : H -> res (flow Z * H)) : Prop :=
  forall hx outs, lct_calls one fuel (f_nodes s) os = Ok (hx, outs) ->
  hx = f_nodes s' /\ forall h h', tree_calls call h os = Ok (h', outs) -> run h = Ok (strip s', h').

Lemma tracks_nil s : tracks [] s s (fun h => Ok (strip s, h)).
Proof. intros hx outs E. cbn in E. inversion E; subst. split; [reflexivity|]. intros h h' E2. cbn in E2. inversion E2; subst. reflexivity. Qed.

Lemma tracks_app os1 os2 s s1 s2 r1 k : tracks os1 s s1 r1 -> tracks os2 s1 s2 (fun h => k (strip s1, h)) ->
  tracks (os1 ++ os2) s s2 (fun h => bind (r1 h) k).
Proof.
  intros T1 T2 hx outs E. apply lct_calls_split in E. destruct E as (h1 & o1 & o2 & A1 & A2 & -> & A3).
  destruct (T1 _ _ A1) as [-> B1]. destruct (T2 _ _ A2) as [-> B2]. split; [reflexivity|].
  intros h h' E. apply tree_calls_split in E. destruct E as (g1 & p1 & p2 & C1 & C2 & C3 & C4).
  assert (X : o1 = p1 /\ o2 = p2).
  { assert (X1 : firstn (length os1) (o1 ++ o2) = o1) by (rewrite <- A3, firstn_app, Nat.sub_diag, firstn_all; apply app_nil_r).
    assert (X2 : firstn (length os1) (p1 ++ p2) = p1) by (rewrite <- C4, firstn_app, Nat.sub_diag, firstn_all; apply app_nil_r).
    assert (X : o1 = p1) by (rewrite <- X1, <- X2, C3; reflexivity). split; [exact X|]. subst p1. apply app_inv_head in C3. exact C3. }
  destruct X as [<- <-]. rewrite (B1 _ _ C1). cbn [bind]. exact (B2 _ _ C2).
Qed.

(** one call in front *)
Lemma tracks_call op os s s1 s2 k :
  (forall hx o, lct_call one fuel (f_nodes s) op = Ok (hx, o) -> hx = f_nodes s1 /\ tracks os s1 s2 (fun h => k (h, o))) ->
  tracks (op :: os) s s2 (fun h => bind (call h op) k).
Proof.
  intros T hx outs E. cbn [lct_calls] in E. apply bind_inv in E. destruct E as ([ha oa] & E1 & E). apply bind_inv in E. destruct E as ([hb ob] & E2 & E).
  inversion E; subst. destruct (T _ _ E1) as [-> T2]. destruct (T2 _ _ E2) as [-> B]. split; [reflexivity|].
  intros h h' F. cbn [tree_calls] in F. apply bind_inv in F. destruct F as ([ga pa] & F1 & F). apply bind_inv in F. destruct F as ([gb pb] & F2 & F).
  inversion F; subst. rewrite F1. cbn [bind]. exact (B _ _ F2).
Qed.

Lemma tracks_ext os s s' r r' : (forall h, r h = r' h) -> tracks os s s' r -> tracks os s s' r'.
Proof. intros X T hx outs E. destruct (T _ _ E) as [A B]. split; [exact A|]. intros h h' F. rewrite <- X. exact (B _ _ F). Qed.

(** nothing but the nodes matters in front *)
Lemma tracks_from os s1 s2 s' r : f_nodes s1 = f_nodes s2 -> tracks os s1 s' r -> tracks os s2 s' r.
Proof. intros X T hx outs E. rewrite <- X in E. exact (T _ _ E). Qed.

Lemma tracks_quiet s s' : f_nodes s' = f_nodes s -> forall r, (forall h, r h = Ok (strip s', h)) -> tracks [] s s' r.
Proof. intros X r R hx outs E. cbn in E. inversion E; subst. split; [congruence|]. intros h h' F. cbn in F. inversion F; subst. apply R. Qed.

Lemma tracks_det {T} (m : res T) a os s s' (k : H -> T -> res (flow Z * H)) : m = Ok a -> tracks os s s' (fun h => k h a) ->
  tracks os s s' (fun h => bind m (k h)).
Proof. intros -> Tk. exact Tk. Qed.

Tactic Notation "linv" hyp(H) ident(a) ident(i) ident(E) :=
  let j := fresh "jj" in
  apply lbind_inv in H; destruct H as (a & i & j & E & H & ->); cbv beta zeta in H.
Ltac qinv H := apply quiet_inv in H; destruct H as [H ->].
Tactic Notation "lquiet" hyp(H) ident(a) ident(E) :=
  let j := fresh "jj" in let i := fresh "ii" in
  apply lbind_inv in H; destruct H as (a & i & j & E & H & ->); cbv beta zeta in H; apply quiet_inv in E; destruct E as [E ->]; cbn [app].
Tactic Notation "lcall" hyp(H) ident(a) ident(E) :=
  let j := fresh "jj" in let i := fresh "ii" in
  apply lbind_inv in H; destruct H as (a & i & j & E & H & ->); cbv beta zeta in H; apply call_inv in E; destruct E as [E ->]; cbn [app].
Ltac det E := eapply tracks_det; [exact E|]; cbv beta.

Lemma call_det {A B} (m : res A) (f : A -> res B) a b : m = Ok a -> bind m f = Ok b -> f a = Ok b.
Proof. intros -> E. exact E. Qed.

Lemma link_tracks s p s' os : link_l one fuel s p = Ok (s', os) -> tracks os s s' (fun h => link_t one call (strip s) h p).
Proof.
  intro E. unfold link_l in E. lquiet E g E1. lquiet E c E2. lquiet E e E3. lquiet E e1 E4. lquiet E fa E5. lquiet E v E6.
  lcall E h1 E7. lquiet E nd E8. lcall E h2 E9. qinv E. inversion E; subst s'. clear E.
  unfold link_t. det E1. det E2. det E3. det E4. det E5. det E6.
  apply (tracks_call _ _ s (with_nodes s h1)). intros hx o F. cbn [lct_call] in F. cbn [f_nodes with_fa] in E7. apply (call_det _ _ _ _ E7) in F. inversion F; subst.
  split; [reflexivity|]. apply (tracks_call _ _ (with_nodes s hx) (with_nodes (with_fa s fa) h2)).
  intros hy o F2. cbn [lct_call f_nodes with_nodes] in F2. apply (call_det _ _ _ _ E9) in F2. inversion F2; subst.
  split; [reflexivity|]. apply tracks_quiet; [reflexivity|]. reflexivity.
Qed.

(** ** Functions that do not use the nodes *)
(** [f] does the same without the nodes, and leaves them alone *)
Definition blind (f : flow Z -> res (flow Z)) : Prop :=
  forall s s', f s = Ok s' -> f (strip s) = Ok (strip s') /\ f_nodes s' = f_nodes s.

Ltac binv H := let a := fresh "a" in let E := fresh "E" in apply bind_inv in H; destruct H as (a & E & H); cbv beta zeta in H.
Ltac reb := repeat match goal with E : _ = Ok _ |- bind _ _ = Ok _ => erewrite E; cbn [bind] end.

Lemma add_flow_blind e d : blind (fun s => add_flow_of_edge s e d).
Proof.
  intros s s' E. unfold add_flow_of_edge in *. binv E. binv E. binv E. binv E. inversion E; subst s'.
  cbn [strip with_nodes f_flows]. rewrite E0. cbn [bind]. rewrite E1. cbn [bind]. rewrite E2. cbn [bind]. rewrite E3. split; reflexivity.
Qed.

Lemma for_each_blind {A} (l : list A) (f : flow Z -> A -> res (flow Z)) : (forall x, blind (fun s => f s x)) ->
  blind (fun s => for_each l s f).
Proof.
  intro F. induction l as [|x l IH]; intros s s' E; cbn [for_each] in *.
  - inversion E; subst. split; reflexivity.
  - binv E. destruct (F x _ _ E0) as [A1 A2]. destruct (IH _ _ E) as [B1 B2]. cbv beta in *. rewrite A1. cbn [bind]. split; [exact B1|congruence].
Qed.

Lemma push_all_blind : blind push_all_admissible_edge.
Proof.
  intros s s' E. unfold push_all_admissible_edge in *. binv E.
  eapply for_each_blind in E0.
  2:{ intros x t t' F. cbv beta in *. binv F. binv F. change (f_edges (strip t)) with (f_edges t). rewrite E1. cbn [bind].
      change (q (strip t) x) with (q t x). rewrite E2. cbn [bind]. change (f_imb (strip t)) with (f_imb t).
      destruct (dlt dzero a1).
      - binv F. binv F. binv F. binv F.
        rewrite E3. cbn [bind]. rewrite E4. cbn [bind]. rewrite E5. cbn [bind]. rewrite E6. cbn [bind].
        destruct (add_flow_blind _ _ _ _ F) as [X1 X2]. split; [exact X1|exact X2].
      - inversion F; subst. split; reflexivity. }
  cbv beta in E0. destruct E0 as [A1 A2].
  eapply for_each_blind in E.
  2:{ intros x t t' F. cbv beta in *. binv F. cbn [strip with_nodes f_imb f_uq]. rewrite E0. cbn [bind]. destruct (dlt dzero a0).
      - binv F. rewrite E1. cbn [bind]. inversion F; subst. split; reflexivity.
      - inversion F; subst. split; reflexivity. }
  cbv beta in E. destruct E as [B1 B2]. cbv beta zeta in *. 
  split; [|congruence]. cbn [strip with_nodes f_edges f_n] in *. rewrite A1. cbn [bind]. exact B1.
Qed.

Lemma sum_blind s s' v : sum_answer fuel s = Ok (s', v) -> sum_answer fuel (strip s) = Ok (strip s', v) /\ f_nodes s' = f_nodes s.
Proof.
  unfold sum_answer. change (f_edges (strip s)) with (f_edges s). generalize (seq 0 (length (f_edges s))) as l. generalize (@dzero Z _) as d. intros d l. revert s d.
  induction l as [|x l IH]; intros s d E; cbn [for_each] in *.
  - inversion E; subst. split; reflexivity.
  - binv E. destruct a as [s1 d1]. binv E0. binv E0. binv E0. binv E0. inversion E0; subst. destruct (IH _ _ E) as [A1 A2].
    cbn [strip with_nodes f_edges f_flows]. rewrite E1. cbn [bind]. rewrite E2. cbn [bind]. rewrite E3. cbn [bind]. rewrite E4. cbn [bind].
    split; [exact A1|exact A2].
Qed.

(** ** The flow solver *)
Lemma flow_cut_tracks s p s' os : flow_cut_l one fuel s p = Ok (s', os) -> tracks os s s' (fun h => flow_cut_t one call (strip s) h p).
Proof.
  intro E. unfold flow_cut_l in E. lquiet E fa E1. lcall E h1 E2. lquiet E g E3. lquiet E c E4. lquiet E e E5. lquiet E a E6.
  lcall E r E7. destruct r as [h2 v]. qinv E.
  unfold flow_cut_t. det E1. cbn [f_nodes with_fa with_nodes] in E2, E7.
  apply (tracks_call _ _ s (with_nodes s h1)). intros hx o F. cbn [lct_call] in F. apply (call_det _ _ _ _ E2) in F. inversion F; subst.
  split; [reflexivity|]. det E3. det E4. det E5. det E6.
  apply (tracks_call _ _ (with_nodes s hx) (with_nodes (with_fa s fa) h2)).
  intros hy o F2. cbn [lct_call f_nodes with_nodes] in F2. apply (call_det _ _ _ _ E7) in F2. inversion F2; subst.
  split; [reflexivity|]. cbn [out_val bind].
  destruct (add_flow_blind _ _ _ _ E) as [X1 X2].
  apply tracks_quiet; [rewrite X2; reflexivity|]. intro h. cbv beta in X1.
  change (strip (with_nodes (with_nodes (with_fa s fa) hx) hy)) with (with_fa (strip s) fa) in X1. rewrite X1. reflexivity.
Qed.

Lemma send_push_tracks s p r x s' os : send_push_l one fuel s p r x = Ok (s', os) ->
  tracks os s s' (fun h => send_push_t one call (strip s) h p r x).
Proof.
  intro E. unfold send_push_l in E. lcall E h1 E1. qinv E. cbn [app].
  unfold send_push_t. apply (tracks_call _ _ s (with_nodes s h1)). intros hx o F. cbn [lct_call] in F. apply (call_det _ _ _ _ E1) in F. inversion F; subst.
  split; [reflexivity|]. binv E. det E0. binv E. det E2. binv E. det E3. binv E. det E4. binv E. det E5. cbv zeta.
  destruct (dlt dzero a3).
  - binv E. det E6. inversion E; subst. apply tracks_quiet; reflexivity.
  - inversion E; subst. apply tracks_quiet; reflexivity.
Qed.

Lemma send_loop_tracks k : forall s p r s' os, send_loop_l one fuel k s p r = Ok (s', os) ->
  tracks os s s' (fun h => send_loop_t one call k (strip s) h p r).
Proof.
  induction k as [|k IH]; intros s p r s' os E; cbn [send_loop_l send_loop_t] in *; destruct (Nat.eqb p r) eqn:Hpr.
  - qinv E. inversion E; subst. apply tracks_nil.
  - discriminate.
  - qinv E. inversion E; subst. apply tracks_nil.
  - lcall E m E1. destruct m as [h1 m]. lquiet E a E2.
    apply (tracks_call _ _ s (with_nodes s h1)). intros hx o F. cbn [lct_call] in F. apply (call_det _ _ _ _ E1) in F. cbv beta iota in F.
    destruct (snd m) as [y|] eqn:Em; [|discriminate]. inversion F; subst. split; [reflexivity|].
    cbn [out_min bind]. det E2.
    destruct (dlt a (fst m)).
    + exact (send_push_tracks _ _ _ _ _ _ E).
    + linv E s1 i1 E3. linv E s2 i2 E4.
      eapply tracks_app; [exact (send_push_tracks _ _ _ _ _ _ E3)|]. cbv beta iota.
      eapply tracks_app; [exact (flow_cut_tracks _ _ _ _ E4)|]. cbv beta iota. exact (IH _ _ _ _ _ E).
Qed.

Lemma send_tracks s p s' os : send_l one fuel s p = Ok (s', os) -> tracks os s s' (fun h => send_t one call fuel (strip s) h p).
Proof.
  intro E. unfold send_l in E. lcall E m E1. destruct m as [h1 r].
  unfold send_t. apply (tracks_call _ _ s (with_nodes s h1)). intros hx o F. cbn [lct_call] in F. apply (call_det _ _ _ _ E1) in F. cbv beta iota in F.
  inversion F; subst. split; [reflexivity|]. cbn [out_node bind]. exact (send_loop_tracks _ _ _ _ _ _ E).
Qed.

Lemma for_each_tracks {A} (l : list A) (f : flow Z -> A -> logged (flow Z)) (g : flow Z * H -> A -> res (flow Z * H)) :
  (forall x s s' os, f s x = Ok (s', os) -> tracks os s s' (fun h => g (strip s, h) x)) ->
  forall s s' os, for_each_l l s f = Ok (s', os) -> tracks os s s' (fun h => for_each l (strip s, h) g).
Proof.
  intro F. induction l as [|x l IH]; intros s s' os E; cbn [for_each_l for_each] in *.
  - qinv E. inversion E; subst. apply tracks_nil.
  - linv E s1 i1 E1. eapply tracks_app; [exact (F _ _ _ _ E1)|]. exact (IH _ _ _ E).
Qed.

Lemma update_scaling_tracks s p s' os : update_scaling_l one fuel s p = Ok (s', os) -> tracks os s s' (fun h => update_scaling_t one call (strip s) h p).
Proof.
  intro E. unfold update_scaling_l in E. lquiet E g E1. linv E s1 i1 E2. qinv E.
  unfold update_scaling_t. det E1. eapply tracks_app.
  - eapply for_each_tracks; [|exact E2]. intros x t t' os F. cbv beta iota in *. lquiet F e F1. lquiet F a F2.
    det F1. det F2. cbv zeta. destruct (ptr_eqb a (Some p)).
    + exact (flow_cut_tracks _ _ _ _ F).
    + qinv F. inversion F; subst. apply tracks_nil.
  - cbv beta iota. binv E. det E0. binv E. det E3. binv E. det E4. binv E. det E5. inversion E; subst. apply tracks_quiet; reflexivity.
Qed.

Lemma choice_loop_tracks k : forall s p s' os, choice_loop_l one fuel k s p = Ok (s', os) ->
  tracks os s s' (fun h => choice_loop_t one call fuel k (strip s) h p).
Proof.
  induction k as [|k IH]; intros s p s' os E; cbn [choice_loop_l choice_loop_t] in *; [discriminate|].
  lquiet E c E1. lquiet E g E2. det E1. det E2. destruct (c <? length g)%nat.
  - lquiet E e E3. lquiet E v E4. det E3. det E4. destruct (dlt dzero v).
    + linv E s1 i1 E5. eapply tracks_app; [exact (link_tracks _ _ _ _ E5)|]. exact (send_tracks _ _ _ _ E).
    + lquiet E cu E5. det E5. eapply tracks_from; [|exact (IH _ _ _ _ E)]. reflexivity.
  - exact (update_scaling_tracks _ _ _ _ E).
Qed.

Lemma refine_loop_tracks k : forall s s' os, refine_loop_l one fuel k s = Ok (s', os) ->
  tracks os s s' (fun h => refine_loop_t one call fuel k (strip s) h).
Proof.
  induction k as [|k IH]; intros s s' os E; cbn [refine_loop_l refine_loop_t] in *; change (f_uq (strip s)) with (f_uq s); destruct (uq_empty (f_uq s)).
  - qinv E. inversion E; subst. apply tracks_nil.
  - discriminate.
  - qinv E. inversion E; subst. apply tracks_nil.
  - lquiet E p E1. linv E s1 i1 E2. lquiet E p1 E3. lquiet E a E4. lquiet E s2 E5.
    det E1. eapply tracks_app; [exact (choice_loop_tracks _ _ _ _ _ E2)|]. cbv beta iota. det E3. det E4.
    destruct (deq a dzero).
    + binv E5. inversion E5; subst. apply tracks_det with (a := with_uq (strip s1) a0); [change (f_uq (strip s1)) with (f_uq s1); rewrite E0; reflexivity|].
      eapply tracks_from; [|exact (IH _ _ _ E)]. reflexivity.
    + inversion E5; subst. exact (IH _ _ _ E).
Qed.

Lemma cut_all_tracks s s' os : cut_all_l one fuel s = Ok (s', os) -> tracks os s s' (fun h => cut_all_t one call (strip s) h).
Proof.
  intro E. unfold cut_all_l in E. unfold cut_all_t. eapply for_each_tracks; [|exact E].
  intros x t t' os' F. cbv beta iota in *. lquiet F a F1. det F1. destruct a.
  - exact (flow_cut_tracks _ _ _ _ F).
  - qinv F. inversion F; subst. apply tracks_nil.
Qed.

Lemma phase_tracks s s' os : phase_l one fuel s = Ok (s', os) -> tracks os s s' (fun h => phase_t one call fuel (strip s) h).
Proof.
  intro E. unfold phase_l in E. cbv zeta in E. lquiet E s1 E1. unfold refine_l in E. linv E s2 i2 E2.
  destruct (push_all_blind _ _ E1) as [X1 X2].
  unfold phase_t. cbv zeta. apply tracks_det with (a := strip s1); [exact X1|].
  apply (tracks_from _ s1 s); [exact X2|].
  eapply tracks_app; [exact (refine_loop_tracks _ _ _ _ E2)|]. exact (cut_all_tracks _ _ _ E).
Qed.

Lemma scaling_loop_tracks k : forall s s' os, scaling_loop_l one fuel k s = Ok (s', os) ->
  tracks os s s' (fun h => scaling_loop_t one call fuel k (strip s) h).
Proof.
  induction k as [|k IH]; intros s s' os E; cbn [scaling_loop_l scaling_loop_t] in *; change (f_eps (strip s)) with (f_eps s); destruct (f_eps s <? 2).
  - qinv E. inversion E; subst. apply tracks_nil.
  - discriminate.
  - qinv E. inversion E; subst. apply tracks_nil.
  - linv E s1 i1 E1. eapply tracks_app; [exact (phase_tracks _ _ _ E1)|]. cbv beta iota.
    eapply tracks_from; [|exact (IH _ _ _ E)]. reflexivity.
Qed.

(** the whole of min_cost() *)
Theorem min_cost_follows s s' v os hx outs h h' :
  min_cost_l one fuel s = Ok ((s', v), os) -> lct_calls one fuel (f_nodes s) os = Ok (hx, outs) -> tree_calls call h os = Ok (h', outs) ->
  min_cost_t one call fuel (strip s) h = Ok (strip s', h', v).
Proof.
  intros E L C. unfold min_cost_l in E. linv E s1 i1 E1. lquiet E r E2. destruct r as [s2 ans]. qinv E. inversion E; subst. clear E.
  rewrite app_nil_r in *. destruct (scaling_loop_tracks _ _ _ _ E1 _ _ L) as [_ F].
  unfold min_cost_t. rewrite (F _ _ C). cbn [bind]. destruct (sum_blind _ _ _ E2) as [G _]. rewrite G. reflexivity.
Qed.
End Follow.
