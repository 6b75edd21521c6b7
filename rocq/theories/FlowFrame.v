(** * What a phase leaves alone, and how potentials change

    These facts hold for every successful run, whatever the arithmetic of
    [Data]. *)
From Verif Require Import Base BaseLemmas Data UniqueQueue LCT ProblemDefine Flow.
Local Open Scope Z_scope.

Section Frame.
Context {D : Type} {ops : DataOps D}.

(** the input part of the state is untouched, and every potential grows by a
    whole number of steps of epsilon/2 *)
Record evolve (s s' : flow D) : Prop := {
  ev_n : f_n s' = f_n s;
  ev_M : f_M s' = f_M s;
  ev_eps : f_eps s' = f_eps s;
  ev_edges : f_edges s' = f_edges s;
  ev_G : f_G s' = f_G s;
  ev_len : length (f_scal s') = length (f_scal s);
  ev_scal : forall v a, nth_error (f_scal s) v = Some a ->
    exists r : nat, nth_error (f_scal s') v = Some (a + Z.of_nat r * Z.quot (f_eps s) 2)
}.

Lemma evolve_refl s : evolve s s.
Proof. constructor; auto. intros v a E. exists 0%nat. rewrite E. f_equal. lia. Qed.

Lemma evolve_trans s1 s2 s3 : evolve s1 s2 -> evolve s2 s3 -> evolve s1 s3.
Proof.
  intros [A1 A2 A3 A4 A5 A6 A7] [B1 B2 B3 B4 B5 B6 B7]. constructor; try congruence.
  intros v a E. destruct (A7 v a E) as [r1 E1]. destruct (B7 v _ E1) as [r2 E2].
  exists (r1 + r2)%nat. rewrite E2, A3. f_equal. lia.
Qed.

(** steps that change none of these fields *)
Lemma evolve_same s s' : f_n s' = f_n s -> f_M s' = f_M s -> f_eps s' = f_eps s -> f_edges s' = f_edges s ->
  f_G s' = f_G s -> f_scal s' = f_scal s -> evolve s s'.
Proof.
  intros A1 A2 A3 A4 A5 A6. constructor; auto; [congruence|]. intros v a E. exists 0%nat. rewrite A6, E. f_equal. lia.
Qed.

Ltac binv H := let a := fresh "a" in let E := fresh "E" in apply bind_inv in H; destruct H as (a & E & H); cbv beta zeta in H.
Ltac easyev := apply evolve_same; reflexivity.

Lemma add_flow_evolve s e d s' : add_flow_of_edge s e d = Ok s' -> evolve s s'.
Proof. unfold add_flow_of_edge. intros H. repeat binv H. inversion H; subst. easyev. Qed.

Lemma link_evolve fuel s p s' : link fuel s p = Ok s' -> evolve s s'.
Proof. unfold link. intros H. repeat binv H. inversion H; subst. easyev. Qed.

Lemma flow_cut_evolve fuel s p s' : flow_cut fuel s p = Ok s' -> evolve s s'.
Proof.
  unfold flow_cut. intros H. repeat binv H. destruct a5 as [h v]. apply add_flow_evolve in H.
  eapply evolve_trans; [|exact H]. easyev.
Qed.

Lemma send_push_evolve fuel s p r x s' : send_push fuel s p r x = Ok s' -> evolve s s'.
Proof.
  unfold send_push. intros H. repeat binv H. destruct (dlt dzero a4).
  - binv H. inversion H; subst. easyev.
  - inversion H; subst. easyev.
Qed.

Lemma send_loop_evolve fuel0 : forall fuel s p r s', send_loop fuel0 fuel s p r = Ok s' -> evolve s s'.
Proof.
  induction fuel as [|fuel IH]; intros s p r s' H; cbn [send_loop] in H; destruct (Nat.eqb p r);
    try (inversion H; subst; apply evolve_refl); try discriminate.
  binv H. destruct a as [h m]. binv H.
  assert (EN : evolve s (with_nodes s h)) by easyev.
  destruct (dlt a (fst m)).
  - apply send_push_evolve in H. eapply evolve_trans; [exact EN|exact H].
  - binv H. apply send_push_evolve in E1. destruct (snd m) as [y|]; [|discriminate]. binv H.
    apply flow_cut_evolve in E2. apply IH in H.
    eapply evolve_trans; [exact EN|]. eapply evolve_trans; [exact E1|]. eapply evolve_trans; eauto.
Qed.

Lemma send_evolve fuel s p s' : send fuel s p = Ok s' -> evolve s s'.
Proof.
  unfold send. intros H. binv H. destruct a as [h r]. apply send_loop_evolve in H. eapply evolve_trans; [|exact H]. easyev.
Qed.

Lemma for_each_evolve {A} (l : list A) (f : flow D -> A -> res (flow D)) :
  (forall s x s', f s x = Ok s' -> evolve s s') -> forall s s', for_each l s f = Ok s' -> evolve s s'.
Proof.
  intros Hf. induction l as [|x l IH]; intros s s' H; cbn [for_each] in H.
  - inversion H; subst. apply evolve_refl.
  - binv H. eapply evolve_trans; [eapply Hf; eauto|eauto].
Qed.

Lemma update_scaling_evolve fuel s p s' : update_scaling fuel s p = Ok s' -> evolve s s'.
Proof.
  unfold update_scaling. intros H. binv H. binv H.
  assert (E2 : evolve s a0).
  { revert E0. apply for_each_evolve. intros s1 e s2 H1. binv H1. binv H1.
    destruct (ptr_eqb a2 (Some p)); [eapply flow_cut_evolve; eauto|inversion H1; subst; apply evolve_refl]. }
  repeat binv H. eapply evolve_trans; [exact E2|]. inversion H; subst. clear H E2 E0 E.
  apply vget_inv in E1. apply ck_inv in E3. destruct E3 as [-> _].
  unfold vset in E4. destruct (p <? length (f_scal a0))%nat eqn:Ep; [|discriminate]. inversion E4; subst. clear E4.
  constructor; try reflexivity.
  - apply upd_length.
  - cbn [with_cur with_scal f_scal]. intros v b Eb. destruct (Nat.eq_dec p v) as [->|Hn].
    + exists 1%nat. rewrite nth_error_upd_eq by (apply Nat.ltb_lt; auto). assert (b = a1) by congruence. subst. f_equal. lia.
    + exists 0%nat. rewrite nth_error_upd_neq by auto. rewrite Eb. f_equal. lia.
Qed.

Lemma choice_loop_evolve fuel0 : forall fuel s p s', choice_loop fuel0 fuel s p = Ok s' -> evolve s s'.
Proof.
  induction fuel as [|fuel IH]; intros s p s' H; cbn [choice_loop] in H; [discriminate|].
  binv H. binv H. destruct (a <? length a0)%nat; [|eapply update_scaling_evolve; eauto].
  binv H. binv H. destruct (dlt dzero a2).
  - binv H. apply link_evolve in E3. apply send_evolve in H. eapply evolve_trans; eauto.
  - binv H. apply IH in H. eapply evolve_trans; [|exact H]. easyev.
Qed.

Lemma refine_loop_evolve fuel0 : forall fuel s s', refine_loop fuel0 fuel s = Ok s' -> evolve s s'.
Proof.
  induction fuel as [|fuel IH]; intros s s' H; cbn [refine_loop] in H; destruct (uq_empty (f_uq s));
    try (inversion H; subst; apply evolve_refl); try discriminate.
  binv H. binv H. apply choice_loop_evolve in E0. binv H. binv H. binv H. apply IH in H.
  assert (E4 : evolve a0 a3).
  { destruct (deq a2 dzero); [binv E3; inversion E3; subst; easyev|inversion E3; subst; apply evolve_refl]. }
  eapply evolve_trans; [exact E0|]. eapply evolve_trans; eauto.
Qed.

Lemma cut_all_evolve fuel s s' : cut_all fuel s = Ok s' -> evolve s s'.
Proof.
  apply for_each_evolve. intros s1 i s2 H. binv H. destruct a; [eapply flow_cut_evolve; eauto|inversion H; subst; apply evolve_refl].
Qed.

Lemma push_all_evolve s s' : push_all_admissible_edge s = Ok s' -> evolve s s'.
Proof.
  unfold push_all_admissible_edge. intros H. binv H. apply evolve_trans with a.
  - revert E. apply for_each_evolve. intros s1 e s2 H1. binv H1. binv H1. destruct (dlt dzero a1).
    + repeat binv H1. inversion H1; subst. easyev.
    + inversion H1; subst. apply evolve_refl.
  - revert H. apply for_each_evolve. intros s1 e s2 H1. binv H1. destruct (dlt dzero a0).
    + binv H1. inversion H1; subst. easyev.
    + inversion H1; subst. apply evolve_refl.
Qed.

Lemma phase_evolve fuel s s' : phase fuel s = Ok s' -> evolve s s'.
Proof.
  unfold phase, refine. intros H. binv H. binv H. apply push_all_evolve in E. apply refine_loop_evolve in E0.
  apply cut_all_evolve in H. eapply evolve_trans; [|exact H]. eapply evolve_trans; [|exact E0].
  eapply evolve_trans; [|exact E]. easyev.
Qed.

End Frame.
