(** * Adding a constant to all potentials

    The algorithm looks at differences of potentials ([scaling] in the code)
    only.  When all of them are raised by [c >= 0] a step either leaves the
    range of int or does what it did before. *)
From Verif Require Import Base BaseLemmas Data UniqueQueue LCT ProblemDefine Flow Sim.
Local Open Scope Z_scope.

Section Shift.
Context {D : Type} {ops : DataOps D}.
Context (c : Z) (Hc : 0 <= c).

Definition raised (s' s : flow D) : Prop :=
  s' = with_scal s (map (Z.add c) (f_scal s)) /\ Forall (fun x => 0 <= x) (f_scal s) /\ 0 <= f_eps s.

Lemma raised_G s' s : raised s' s -> f_G s' = f_G s. Proof. intros (-> & _); reflexivity. Qed.
Lemma raised_cur s' s : raised s' s -> f_cur s' = f_cur s. Proof. intros (-> & _); reflexivity. Qed.
Lemma raised_edges s' s : raised s' s -> f_edges s' = f_edges s. Proof. intros (-> & _); reflexivity. Qed.
Lemma raised_fa s' s : raised s' s -> f_fa s' = f_fa s. Proof. intros (-> & _); reflexivity. Qed.
Lemma raised_nodes s' s : raised s' s -> f_nodes s' = f_nodes s. Proof. intros (-> & _); reflexivity. Qed.
Lemma raised_uq s' s : raised s' s -> f_uq s' = f_uq s. Proof. intros (-> & _); reflexivity. Qed.
Lemma raised_imb s' s : raised s' s -> f_imb s' = f_imb s. Proof. intros (-> & _); reflexivity. Qed.
Lemma raised_flows s' s : raised s' s -> f_flows s' = f_flows s. Proof. intros (-> & _); reflexivity. Qed.
Lemma raised_eps s' s : raised s' s -> f_eps s' = f_eps s. Proof. intros (-> & _); reflexivity. Qed.
Ltac same H := rewrite ?(raised_G _ _ H), ?(raised_cur _ _ H), ?(raised_edges _ _ H), ?(raised_fa _ _ H), ?(raised_nodes _ _ H),
  ?(raised_uq _ _ H), ?(raised_imb _ _ H), ?(raised_flows _ _ H), ?(raised_eps _ _ H).

Lemma raised_with_fa s' s v : raised s' s -> raised (with_fa s' v) (with_fa s v). Proof. intros (-> & H); split; auto. Qed.
Lemma raised_with_nodes s' s v : raised s' s -> raised (with_nodes s' v) (with_nodes s v). Proof. intros (-> & H); split; auto. Qed.
Lemma raised_with_imb s' s v : raised s' s -> raised (with_imb s' v) (with_imb s v). Proof. intros (-> & H); split; auto. Qed.
Lemma raised_with_uq s' s v : raised s' s -> raised (with_uq s' v) (with_uq s v). Proof. intros (-> & H); split; auto. Qed.
Lemma raised_with_cur s' s v : raised s' s -> raised (with_cur s' v) (with_cur s v). Proof. intros (-> & H); split; auto. Qed.
Lemma raised_with_flows s' s v : raised s' s -> raised (with_flows s' v) (with_flows s v). Proof. intros (-> & H); split; auto. Qed.
Hint Resolve raised_with_fa raised_with_nodes raised_with_imb raised_with_uq raised_with_cur raised_with_flows : core.

Lemma vget_map {A B} (f : A -> B) l i : vget (map f l) i = bind (vget l i) (fun a => Ok (f a)).
Proof. unfold vget. rewrite nth_error_map. destruct (nth_error l i); reflexivity. Qed.

Lemma q_raised s' s e : raised s' s -> q s' e = q s e.
Proof.
  intros (-> & _). unfold q. cbn [with_scal f_edges f_scal f_n f_flows f_M]. destruct (vget (f_edges s) e) as [x|]; cbn [bind]; [|reflexivity].
  rewrite !vget_map. destruct (vget (f_scal s) (o_i x)) as [a|]; cbn [bind]; [|reflexivity].
  destruct (vget (f_scal s) (o_j x)) as [b|]; cbn [bind]; [|reflexivity]. replace (c + a - (c + b)) with (a - b) by lia. reflexivity.
Qed.

Ltac eqs := repeat (apply sim_bind_eq; intro).

Lemma add_flow_raised s' s e x : raised s' s -> sim raised (add_flow_of_edge s' e x) (add_flow_of_edge s e x).
Proof. intro H. unfold add_flow_of_edge. same H. eqs. apply sim_ok. auto. Qed.

Lemma link_raised fuel s' s p : raised s' s -> sim raised (link fuel s' p) (link fuel s p).
Proof.
  intro H. unfold link. same H. apply sim_bind_eq; intro g. apply sim_bind_eq; intro k. apply sim_bind_eq; intro e_id. apply sim_bind_eq; intro e.
  apply sim_bind_eq; intro fa. cbv zeta. apply (raised_with_fa _ _ fa) in H. revert H. generalize (with_fa s' fa) (with_fa s fa). clear s' s.
  intros s' s H. rewrite (q_raised _ _ _ H). same H. eqs. apply sim_ok. auto.
Qed.

Lemma flow_cut_raised fuel s' s p : raised s' s -> sim raised (flow_cut fuel s' p) (flow_cut fuel s p).
Proof.
  intro H. unfold flow_cut. same H. apply sim_bind_eq; intro fa. cbv zeta.
  apply (raised_with_fa _ _ fa) in H. revert H. generalize (with_fa s' fa) (with_fa s fa). clear s' s. intros s' s H. same H.
  apply sim_bind_eq; intro h. apply (raised_with_nodes _ _ h) in H. revert H. generalize (with_nodes s' h) (with_nodes s h). clear s' s. intros s' s H.
  same H. apply sim_bind_eq; intro g. apply sim_bind_eq; intro k. apply sim_bind_eq; intro e_id.
  rewrite (q_raised _ _ _ H). apply sim_bind_eq; intro a. apply sim_bind_eq; intros [h' v].
  apply add_flow_raised. auto.
Qed.

Lemma send_push_raised fuel s' s p r x : raised s' s -> sim raised (send_push fuel s' p r x) (send_push fuel s p r x).
Proof.
  intro H. unfold send_push. same H. apply sim_bind_eq; intro h. cbv zeta.
  apply (raised_with_nodes _ _ h) in H. revert H. generalize (with_nodes s' h) (with_nodes s h). clear s' s. intros s' s H. same H.
  do 4 (apply sim_bind_eq; intro). apply sim_bind_eq; intro y. apply (raised_with_imb _ _ a2) in H. destruct (dlt dzero y); [|apply sim_ok; exact H].
  same H. eqs. apply sim_ok. auto.
Qed.

Lemma send_loop_raised fuel0 fuel : forall s' s p r, raised s' s -> sim raised (send_loop fuel0 fuel s' p r) (send_loop fuel0 fuel s p r).
Proof.
  induction fuel as [|fuel IH]; intros s' s p r H; cbn [send_loop]; destruct (Nat.eqb p r); try (apply sim_ok; exact H); [apply sim_err|].
  same H. apply sim_bind_eq. intros [h m]. cbv zeta.
  apply (raised_with_nodes _ _ h) in H. revert H. generalize (with_nodes s' h) (with_nodes s h). clear s' s. intros s' s H. same H.
  apply sim_bind_eq. intro a. destruct (dlt a (fst m)); [apply send_push_raised; exact H|].
  eapply sim_bind; [apply send_push_raised; exact H|]. clear s' s H. intros s' s H. destruct (snd m) as [r'|]; [|apply sim_err].
  eapply sim_bind; [apply flow_cut_raised; exact H|]. intros a1 a2 H1. apply IH. exact H1.
Qed.

Lemma send_raised fuel s' s p : raised s' s -> sim raised (send fuel s' p) (send fuel s p).
Proof. intro H. unfold send. same H. apply sim_bind_eq. intros [h r]. apply send_loop_raised. auto. Qed.

Lemma ck_between a b d : ck (d + a) = Ok b -> 0 <= d -> 0 <= a -> ck a = Ok a /\ b = d + a.
Proof.
  unfold ck. intros E Hd Ha. destruct ((INT_MIN <=? d + a) && (d + a <=? INT_MAX)) eqn:X; [|discriminate]. injection E as <-.
  apply andb_true_iff in X. destruct X as [X1 X2]. apply Z.leb_le in X1, X2. split; [|reflexivity].
  replace ((INT_MIN <=? a) && (a <=? INT_MAX)) with true; [reflexivity|]. symmetry. apply andb_true_iff. split; apply Z.leb_le; unfold INT_MIN in *; lia.
Qed.

Lemma map_upd {A B} (f : A -> B) l i a : map f (upd l i a) = upd (map f l) i (f a).
Proof. revert i; induction l as [|x l IH]; intros [|i]; cbn; try rewrite IH; reflexivity. Qed.

Lemma Forall_upd {A} (P : A -> Prop) l i a : Forall P l -> P a -> Forall P (upd l i a).
Proof. intros H Ha. revert i. induction H; intros [|i]; cbn; constructor; auto. Qed.

Lemma update_scaling_raised fuel s' s p : raised s' s -> sim raised (update_scaling fuel s' p) (update_scaling fuel s p).
Proof.
  intro H. unfold update_scaling. same H. apply sim_bind_eq; intro g. eapply sim_bind.
  - apply sim_for_each; [|exact H]. clear s' s H. intros s' s e H. same H. apply sim_bind_eq; intro x. apply sim_bind_eq; intro y.
    destruct (ptr_eqb y (Some p)); [apply flow_cut_raised; exact H|apply sim_ok; exact H].
  - clear s' s H. intros s' s (-> & H1 & H2). cbn [with_scal f_scal f_eps f_cur]. rewrite vget_map. destruct (vget (f_scal s) p) as [a|] eqn:Ea; cbn [bind]; [|apply sim_err]. apply vget_inv in Ea.
    assert (Ha : 0 <= a) by (rewrite Forall_forall in H1; apply H1; eapply nth_error_In; eauto).
    assert (He : 0 <= Z.quot (f_eps s) 2) by (apply Z.quot_pos; lia).
    intros t' E. apply bind_inv in E. destruct E as (b & E1 & E2). rewrite <- Z.add_assoc in E1. apply ck_between in E1; [|lia|lia]. destruct E1 as [E1 ->].
    rewrite E1. cbn [bind]. unfold vset in E2 |- *. rewrite map_length in E2. destruct (p <? length (f_scal s))%nat; [|discriminate]. cbn [bind] in E2 |- *.
    destruct (p <? length (f_cur s))%nat; [|discriminate]. cbn [bind] in E2 |- *. injection E2 as <-. eexists. split; [reflexivity|]. split; [|split].
    + unfold with_cur, with_scal. cbn [f_n f_M f_eps f_nodes f_imb f_cur f_uq f_fa f_edges f_flows f_G f_scal]. rewrite map_upd. reflexivity.
    + cbn [with_cur with_scal f_scal]. apply Forall_upd; [exact H1|lia].
    + exact H2.
Qed.

Lemma choice_loop_raised fuel0 fuel : forall s' s p, raised s' s -> sim raised (choice_loop fuel0 fuel s' p) (choice_loop fuel0 fuel s p).
Proof.
  induction fuel as [|fuel IH]; intros s' s p H; cbn [choice_loop]; [apply sim_err|]. same H.
  apply sim_bind_eq; intro k. apply sim_bind_eq; intro g. destruct (k <? length g)%nat; [|apply update_scaling_raised; exact H].
  apply sim_bind_eq; intro e. rewrite (q_raised _ _ _ H). apply sim_bind_eq; intro v. destruct (dlt dzero v).
  - eapply sim_bind; [apply link_raised; exact H|]. intros a b Hab. apply send_raised. exact Hab.
  - apply sim_bind_eq; intro cu. apply IH. auto.
Qed.

(** one round of the loop of [refine] *)
Definition round (fuel : nat) (s : flow D) : res (flow D) :=
  p <- uq_front (f_uq s) ;;
  s <- choice_operator fuel s p ;;
  p <- uq_front (f_uq s) ;;
  a <- vget (f_imb s) p ;;
  (if deq a dzero then u <- uq_pop (f_uq s) ;; Ok (with_uq s u) else Ok s).

Lemma round_raised fuel s' s : raised s' s -> sim raised (round fuel s') (round fuel s).
Proof.
  intro H. unfold round. same H. apply sim_bind_eq; intro p. eapply sim_bind; [apply choice_loop_raised; exact H|].
  clear s' s H. intros s' s H. same H. apply sim_bind_eq; intro p'. apply sim_bind_eq; intro a. destruct (deq a dzero); [|apply sim_ok; exact H].
  apply sim_bind_eq; intro u. apply sim_ok. auto.
Qed.

End Shift.
