(** * Adding a constant to all potentials, the other direction

    A step that succeeds also succeeds when all potentials are raised by
    [c >= 0], or leaves the range of int. *)
From Verif Require Import Base BaseLemmas Data UniqueQueue LCT ProblemDefine Flow FlowShift.
Local Open Scope Z_scope.

Definition fwd {A B} (P : A -> B -> Prop) (m' : res A) (m : res B) : Prop :=
  forall b, m = Ok b -> m' = Err IntOverflow \/ exists a, m' = Ok a /\ P a b.

Lemma fwd_ok {A B} (P : A -> B -> Prop) a b : P a b -> fwd P (Ok a) (Ok b).
Proof. intros H x E. injection E as <-. right. eauto. Qed.

Lemma fwd_err {A B} (P : A -> B -> Prop) m e : fwd P m (Err e).
Proof. intros x E. discriminate. Qed.

Lemma fwd_bind {A B A' B'} (P : A -> B -> Prop) (Q : A' -> B' -> Prop) m' m k' k :
  fwd P m' m -> (forall a b, P a b -> fwd Q (k' a) (k b)) -> fwd Q (bind m' k') (bind m k).
Proof.
  intros H HK x E. apply bind_inv in E. destruct E as (b & E1 & E2). destruct (H b E1) as [->|(a & -> & HP)]; [left; reflexivity|].
  exact (HK a b HP x E2).
Qed.

Lemma fwd_bind_eq {X A B} (Q : A -> B -> Prop) (m : res X) k' k : (forall a, fwd Q (k' a) (k a)) -> fwd Q (bind m k') (bind m k).
Proof. intros H y E. apply bind_inv in E. destruct E as (x & -> & E). exact (H x y E). Qed.

Lemma fwd_for_each {X A B} (P : A -> B -> Prop) body' body (l : list X) :
  (forall a b x, P a b -> fwd P (body' a x) (body b x)) -> forall a b, P a b -> fwd P (for_each l a body') (for_each l b body).
Proof.
  intro H. induction l as [|x l IH]; intros a b HP; cbn [for_each]; [apply fwd_ok; exact HP|]. eapply fwd_bind; [apply H; exact HP|exact IH].
Qed.

Section Rise.
Context {D : Type} {ops : DataOps D}.
Context (c : Z) (Hc : 0 <= c).

Definition risen (s' s : flow D) : Prop :=
  s' = with_scal s (map (Z.add c) (f_scal s)) /\ Forall (fun x => 0 <= x /\ c + x <= INT_MAX) (f_scal s) /\ 0 <= f_eps s.

Lemma risen_G s' s : risen s' s -> f_G s' = f_G s. Proof. intros (-> & _); reflexivity. Qed.
Lemma risen_cur s' s : risen s' s -> f_cur s' = f_cur s. Proof. intros (-> & _); reflexivity. Qed.
Lemma risen_edges s' s : risen s' s -> f_edges s' = f_edges s. Proof. intros (-> & _); reflexivity. Qed.
Lemma risen_fa s' s : risen s' s -> f_fa s' = f_fa s. Proof. intros (-> & _); reflexivity. Qed.
Lemma risen_nodes s' s : risen s' s -> f_nodes s' = f_nodes s. Proof. intros (-> & _); reflexivity. Qed.
Lemma risen_uq s' s : risen s' s -> f_uq s' = f_uq s. Proof. intros (-> & _); reflexivity. Qed.
Lemma risen_imb s' s : risen s' s -> f_imb s' = f_imb s. Proof. intros (-> & _); reflexivity. Qed.
Lemma risen_flows s' s : risen s' s -> f_flows s' = f_flows s. Proof. intros (-> & _); reflexivity. Qed.
Lemma risen_eps s' s : risen s' s -> f_eps s' = f_eps s. Proof. intros (-> & _); reflexivity. Qed.
Ltac same H := rewrite ?(risen_G _ _ H), ?(risen_cur _ _ H), ?(risen_edges _ _ H), ?(risen_fa _ _ H), ?(risen_nodes _ _ H),
  ?(risen_uq _ _ H), ?(risen_imb _ _ H), ?(risen_flows _ _ H), ?(risen_eps _ _ H).

Lemma risen_with_fa s' s v : risen s' s -> risen (with_fa s' v) (with_fa s v). Proof. intros (-> & H); split; auto. Qed.
Lemma risen_with_nodes s' s v : risen s' s -> risen (with_nodes s' v) (with_nodes s v). Proof. intros (-> & H); split; auto. Qed.
Lemma risen_with_imb s' s v : risen s' s -> risen (with_imb s' v) (with_imb s v). Proof. intros (-> & H); split; auto. Qed.
Lemma risen_with_uq s' s v : risen s' s -> risen (with_uq s' v) (with_uq s v). Proof. intros (-> & H); split; auto. Qed.
Lemma risen_with_cur s' s v : risen s' s -> risen (with_cur s' v) (with_cur s v). Proof. intros (-> & H); split; auto. Qed.
Lemma risen_with_flows s' s v : risen s' s -> risen (with_flows s' v) (with_flows s v). Proof. intros (-> & H); split; auto. Qed.
Hint Resolve risen_with_fa risen_with_nodes risen_with_imb risen_with_uq risen_with_cur risen_with_flows : core.

Lemma q_risen s' s e : risen s' s -> q s' e = q s e.
Proof.
  intros (-> & _). unfold q. cbn [with_scal f_edges f_scal f_n f_flows f_M]. destruct (vget (f_edges s) e) as [x|]; cbn [bind]; [|reflexivity].
  rewrite !vget_map. destruct (vget (f_scal s) (o_i x)) as [a|]; cbn [bind]; [|reflexivity].
  destruct (vget (f_scal s) (o_j x)) as [b|]; cbn [bind]; [|reflexivity]. replace (c + a - (c + b)) with (a - b) by lia. reflexivity.
Qed.

Ltac eqs := repeat (apply fwd_bind_eq; intro).

Lemma add_flow_risen s' s e x : risen s' s -> fwd risen (add_flow_of_edge s' e x) (add_flow_of_edge s e x).
Proof. intro H. unfold add_flow_of_edge. same H. eqs. apply fwd_ok. auto. Qed.

Lemma link_risen fuel s' s p : risen s' s -> fwd risen (link fuel s' p) (link fuel s p).
Proof.
  intro H. unfold link. same H. apply fwd_bind_eq; intro g. apply fwd_bind_eq; intro k. apply fwd_bind_eq; intro e_id. apply fwd_bind_eq; intro e.
  apply fwd_bind_eq; intro fa. cbv zeta. apply (risen_with_fa _ _ fa) in H. revert H. generalize (with_fa s' fa) (with_fa s fa). clear s' s.
  intros s' s H. rewrite (q_risen _ _ _ H). same H. eqs. apply fwd_ok. auto.
Qed.

Lemma flow_cut_risen fuel s' s p : risen s' s -> fwd risen (flow_cut fuel s' p) (flow_cut fuel s p).
Proof.
  intro H. unfold flow_cut. same H. apply fwd_bind_eq; intro fa. cbv zeta.
  apply (risen_with_fa _ _ fa) in H. revert H. generalize (with_fa s' fa) (with_fa s fa). clear s' s. intros s' s H. same H.
  apply fwd_bind_eq; intro h. apply (risen_with_nodes _ _ h) in H. revert H. generalize (with_nodes s' h) (with_nodes s h). clear s' s. intros s' s H.
  same H. apply fwd_bind_eq; intro g. apply fwd_bind_eq; intro k. apply fwd_bind_eq; intro e_id.
  rewrite (q_risen _ _ _ H). apply fwd_bind_eq; intro a. apply fwd_bind_eq; intros [h' v].
  apply add_flow_risen. auto.
Qed.

Lemma send_push_risen fuel s' s p r x : risen s' s -> fwd risen (send_push fuel s' p r x) (send_push fuel s p r x).
Proof.
  intro H. unfold send_push. same H. apply fwd_bind_eq; intro h. cbv zeta.
  apply (risen_with_nodes _ _ h) in H. revert H. generalize (with_nodes s' h) (with_nodes s h). clear s' s. intros s' s H. same H.
  do 4 (apply fwd_bind_eq; intro). apply fwd_bind_eq; intro y. apply (risen_with_imb _ _ a2) in H. destruct (dlt dzero y); [|apply fwd_ok; exact H].
  same H. eqs. apply fwd_ok. auto.
Qed.

Lemma send_loop_risen fuel0 fuel : forall s' s p r, risen s' s -> fwd risen (send_loop fuel0 fuel s' p r) (send_loop fuel0 fuel s p r).
Proof.
  induction fuel as [|fuel IH]; intros s' s p r H; cbn [send_loop]; destruct (Nat.eqb p r); try (apply fwd_ok; exact H); [apply fwd_err|].
  same H. apply fwd_bind_eq. intros [h m]. cbv zeta.
  apply (risen_with_nodes _ _ h) in H. revert H. generalize (with_nodes s' h) (with_nodes s h). clear s' s. intros s' s H. same H.
  apply fwd_bind_eq. intro a. destruct (dlt a (fst m)); [apply send_push_risen; exact H|].
  eapply fwd_bind; [apply send_push_risen; exact H|]. clear s' s H. intros s' s H. destruct (snd m) as [r'|]; [|apply fwd_err].
  eapply fwd_bind; [apply flow_cut_risen; exact H|]. intros a1 a2 H1. apply IH. exact H1.
Qed.

Lemma send_risen fuel s' s p : risen s' s -> fwd risen (send fuel s' p) (send fuel s p).
Proof. intro H. unfold send. same H. apply fwd_bind_eq. intros [h r]. apply send_loop_risen. auto. Qed.

Lemma update_scaling_risen fuel s' s p : risen s' s -> fwd risen (update_scaling fuel s' p) (update_scaling fuel s p).
Proof.
  intro H. unfold update_scaling. same H. apply fwd_bind_eq; intro g. eapply fwd_bind.
  - apply fwd_for_each; [|exact H]. clear s' s H. intros s' s e H. same H. apply fwd_bind_eq; intro x. apply fwd_bind_eq; intro y.
    destruct (ptr_eqb y (Some p)); [apply flow_cut_risen; exact H|apply fwd_ok; exact H].
  - clear s' s H. intros s' s (-> & H1 & H2). cbn [with_scal f_scal f_eps f_cur]. rewrite vget_map. destruct (vget (f_scal s) p) as [a|] eqn:Ea; cbn [bind]; [|apply fwd_err]. apply vget_inv in Ea.
    assert (Ha : 0 <= a /\ c + a <= INT_MAX) by (rewrite Forall_forall in H1; apply H1; eapply nth_error_In; eauto).
    assert (He : 0 <= Z.quot (f_eps s) 2) by (apply Z.quot_pos; lia).
    intros t E. apply bind_inv in E. destruct E as (b & E1 & E2). apply ck_inv in E1. destruct E1 as [-> E1].
    destruct (Z.lt_ge_cases INT_MAX (c + a + Z.quot (f_eps s) 2)) as [Hov|Hov].
    { left. unfold ck. replace (c + a + Z.quot (f_eps s) 2 <=? INT_MAX) with false by (symmetry; apply Z.leb_gt; lia). rewrite andb_false_r. reflexivity. }
    right. rewrite ck_ok by (unfold INT_MIN in *; lia). cbn [bind]. unfold vset in E2 |- *. rewrite map_length. destruct (p <? length (f_scal s))%nat; [|discriminate].
    cbn [bind] in E2 |- *. destruct (p <? length (f_cur s))%nat; [|discriminate]. cbn [bind] in E2 |- *. injection E2 as <-. eexists. split; [reflexivity|]. split; [|split].
    + unfold with_cur, with_scal. cbn [f_n f_M f_eps f_nodes f_imb f_cur f_uq f_fa f_edges f_flows f_G f_scal]. rewrite map_upd, Z.add_assoc. reflexivity.
    + cbn [with_cur with_scal f_scal]. apply Forall_upd; [exact H1|lia].
    + exact H2.
Qed.

Lemma choice_loop_risen fuel0 fuel : forall s' s p, risen s' s -> fwd risen (choice_loop fuel0 fuel s' p) (choice_loop fuel0 fuel s p).
Proof.
  induction fuel as [|fuel IH]; intros s' s p H; cbn [choice_loop]; [apply fwd_err|]. same H.
  apply fwd_bind_eq; intro k. apply fwd_bind_eq; intro g. destruct (k <? length g)%nat; [|apply update_scaling_risen; exact H].
  apply fwd_bind_eq; intro e. rewrite (q_risen _ _ _ H). apply fwd_bind_eq; intro v. destruct (dlt dzero v).
  - eapply fwd_bind; [apply link_risen; exact H|]. intros a b Hab. apply send_risen. exact Hab.
  - apply fwd_bind_eq; intro cu. apply IH. auto.
Qed.

Lemma round_risen fuel s' s : risen s' s -> fwd risen (round fuel s') (round fuel s).
Proof.
  intro H. unfold round. same H. apply fwd_bind_eq; intro p. eapply fwd_bind; [apply choice_loop_risen; exact H|].
  clear s' s H. intros s' s H. same H. apply fwd_bind_eq; intro p'. apply fwd_bind_eq; intro a. destruct (deq a dzero); [|apply fwd_ok; exact H].
  apply fwd_bind_eq; intro u. apply fwd_ok. auto.
Qed.

End Rise.
