(** * The steps inside the iterations of the flow solver

    The steps are paid for by the advances of the current edges, the edges that
    leave the forest, and the rises of the potentials. *)
From Verif Require Import Base BaseLemmas Data UniqueQueue LCT ProblemDefine Flow.
From Verif Require Import LCTChecked Sums FlowChecked FlowFrame FuelMono WorkSpec.
Local Open Scope Z_scope.

Lemma vset_inv {A} (l l' : list A) i a : vset l i a = Ok l' -> (i < length l)%nat /\ l' = upd l i a.
Proof. unfold vset. destruct (Nat.ltb_spec i (length l)); [|discriminate]. intro H0. inversion H0. auto. Qed.

(** ** Sums over the entries of a vector *)
Definition vsum {A} (d : A) (f : nat -> A -> Z) (l : list A) : Z := zsum (seq 0 (length l)) (fun u => f u (nth u l d)).

Lemma vsum_upd {A} (d : A) f (l : list A) i a : (i < length l)%nat ->
  vsum d f (upd l i a) = vsum d f l - f i (nth i l d) + f i a.
Proof.
  intro Hi. unfold vsum. rewrite upd_length.
  rewrite (zsum_point (seq 0 (length l)) i (fun u => f u (nth u l d)) (fun u => f u (nth u (upd l i a) d))).
  - rewrite nth_upd_eq by exact Hi. lia.
  - apply seq_NoDup.
  - apply in_seq. lia.
  - intros k _ Hk. rewrite nth_upd_neq by auto. reflexivity.
Qed.

Section Steps.
Context {ops : DataOps Z}.
Variable okd : Z -> bool.

Definition somes (fa : list (option nat)) : Z := vsum None (fun _ a => match a with Some _ => 1 | None => 0 end) fa.
Definition curs (l : list nat) : Z := vsum O (fun _ c => Z.of_nat c) l.
Definition degree (G : list (list nat)) (u : nat) : Z := Z.of_nat (length (nth u G [])).
Definition heights (G : list (list nat)) (l : list Z) : Z := vsum 0 (fun u a => degree G u * a) l.

Lemma somes_nonneg fa : 0 <= somes fa <= Z.of_nat (length fa).
Proof.
  unfold somes, vsum. split.
  - apply zsum_nonneg. intros k _. destruct (nth k fa None); lia.
  - assert (H : zsum (seq 0 (length fa)) (fun u => match nth u fa None with Some _ => 1 | None => 0 end) <= zsum (seq 0 (length fa)) (fun _ => 1)).
    { apply zsum_le. intros k _. destruct (nth k fa None); lia. }
    assert (H1 : forall L : list nat, zsum L (fun _ => 1) = Z.of_nat (length L)) by (induction L as [|a L IH]; [reflexivity|cbn [zsum length]; lia]).
    rewrite H1, seq_length in H. exact H.
Qed.

(** everything but the forest, the flow and the imbalances is the same *)
Record kept (s s' : flow Z) : Prop := {
  kp_cur : f_cur s' = f_cur s;
  kp_G : f_G s' = f_G s;
  kp_scal : f_scal s' = f_scal s;
  kp_eps : f_eps s' = f_eps s;
  kp_fa : length (f_fa s') = length (f_fa s)
}.

Lemma kept_refl s : kept s s. Proof. constructor; reflexivity. Qed.
Lemma kept_trans s1 s2 s3 : kept s1 s2 -> kept s2 s3 -> kept s1 s3.
Proof. intros [A1 A2 A3 A4 A5] [B1 B2 B3 B4 B5]. constructor; congruence. Qed.

Ltac binv H := let a := fresh "a" in let E := fresh "E" in apply bind_inv in H; destruct H as (a & E & H); cbv beta zeta in H.

Lemma add_flow_same s e d s' : add_flow_chk okd s e d = Ok s' -> kept s s' /\ f_fa s' = f_fa s.
Proof. unfold add_flow_chk. intro H. repeat binv H. inversion H; subst. split; [constructor|]; reflexivity. Qed.

Lemma flow_cut_counts fuel s p s' : flow_cut_chk okd fuel s p = Ok s' -> kept s s' /\ somes (f_fa s') = somes (f_fa s) - 1.
Proof.
  unfold flow_cut_chk. intro H. binv H.
  destruct (has_parent (f_fa s) p) eqn:HP; [|discriminate]. binv H. apply vset_inv in E0. destruct E0 as [Hp ->].
  repeat binv H. destruct a5 as [h v]. binv H. apply add_flow_same in H. destruct H as [[K1 K2 K3 K4 K5] Ef].
  cbn [f_cur f_G f_scal f_eps f_fa with_nodes with_fa] in *.
  split; [constructor; try assumption; rewrite K5, upd_length; reflexivity|].
  rewrite Ef. unfold somes. rewrite vsum_upd by exact Hp.
  unfold has_parent in HP. destruct (nth_error (f_fa s) p) as [[j|]|] eqn:En; try discriminate. rewrite (nth_error_nth _ _ _ En). lia.
Qed.

Lemma send_push_same fuel s p r x s' : send_push_chk okd fuel s p r x = Ok s' -> kept s s' /\ f_fa s' = f_fa s.
Proof.
  unfold send_push_chk. intro H. repeat binv H. destruct (dlt dzero _).
  - binv H. inversion H; subst. split; [constructor|]; reflexivity.
  - inversion H; subst. split; [constructor|]; reflexivity.
Qed.

Lemma send_loop_counts fuel0 : forall k s p r s', send_loop_chk okd fuel0 k s p r = Ok s' ->
  kept s s' /\ exists c, send_loop fuel0 c s p r = Ok s' /\ Z.of_nat c + somes (f_fa s') <= somes (f_fa s) + 1.
Proof.
  induction k as [|k IH]; intros s p r s' H; cbn [send_loop_chk] in H.
  - destruct (Nat.eqb p r) eqn:Epr; [|discriminate]. inversion H; subst. split; [apply kept_refl|]. exists O. cbn [send_loop]. rewrite Epr. split; [reflexivity|lia].
  - destruct (Nat.eqb p r) eqn:Epr.
    { inversion H; subst. split; [apply kept_refl|]. exists O. cbn [send_loop]. rewrite Epr. split; [reflexivity|lia]. }
    binv H. binv H. apply bind_inv in H. destruct H as ([h mn] & E1 & H). cbv beta zeta in H. binv H.
    apply (get_min_chk_sim okd) in E1.
    destruct (dlt a1 (fst mn)) eqn:Ed.
    + destruct (send_push_same _ _ _ _ _ _ H) as [K Ef]. split; [eapply kept_trans; [|exact K]; constructor; reflexivity|].
      exists 1%nat. cbn [send_loop]. rewrite Epr, E1. cbn [bind]. rewrite E2. cbn [bind]. rewrite Ed. rewrite Ef.
      split; [apply (send_push_chk_sim okd); exact H|cbn [f_fa with_nodes]; lia].
    + binv H. destruct (snd mn) as [y|] eqn:Ey; [|discriminate]. binv H.
      destruct (send_push_same _ _ _ _ _ _ E3) as [K3 F3]. destruct (flow_cut_counts _ _ _ _ E4) as [K4 F4].
      destruct (IH _ _ _ _ H) as [K5 (c & Ec & Hc)].
      split; [eapply kept_trans; [|eapply kept_trans; [exact K3|eapply kept_trans; [exact K4|exact K5]]]; constructor; reflexivity|].
      exists (S c). cbn [send_loop]. rewrite Epr, E1. cbn [bind]. rewrite E2. cbn [bind]. rewrite Ed.
      apply (send_push_chk_sim okd) in E3. rewrite E3. cbn [bind]. rewrite Ey. apply (flow_cut_chk_sim okd) in E4. rewrite E4. cbn [bind].
      split; [exact Ec|]. rewrite F4, F3 in Hc. cbn [f_fa with_nodes] in Hc. lia.
Qed.

Lemma link_counts fuel s p s' : link_chk okd fuel s p = Ok s' -> kept s s' /\ somes (f_fa s') = somes (f_fa s) + 1.
Proof.
  unfold link_chk. intro H. binv H. binv H. destruct a as [|]; [|discriminate]. unfold link_pre in E. do 4 binv E.
  inversion E as [HP]. apply andb_true_iff in HP. destruct HP as [HP _].
  do 4 binv H. binv H. apply vset_inv in E9. destruct E9 as [Hp ->]. repeat binv H. inversion H; subst. clear H.
  cbn [f_cur f_G f_scal f_eps f_fa with_nodes with_fa] in *.
  split; [constructor; try reflexivity; cbn [f_fa with_nodes with_fa]; apply upd_length|].
  unfold somes. rewrite vsum_upd by exact Hp.
  unfold is_root in HP. destruct (nth_error (f_fa s) p) as [[j|]|] eqn:En; try discriminate. rewrite (nth_error_nth _ _ _ En). lia.
Qed.

(** the current edge of every node is one of its edges or the end *)
Record pointers (s : flow Z) : Prop := {
  pt_cur : length (f_cur s) = length (f_G s);
  pt_scal : length (f_scal s) = length (f_G s);
  pt_le : forall u, (nth u (f_cur s) O <= length (nth u (f_G s) []))%nat
}.

Lemma kept_pointers s s' : kept s s' -> pointers s -> pointers s'.
Proof. intros [A1 A2 A3 A4 A5] [B1 B2 B3]. constructor; rewrite ?A1, ?A2, ?A3; assumption. Qed.

Lemma kept_sums s s' : kept s s' -> curs (f_cur s') = curs (f_cur s) /\ heights (f_G s') (f_scal s') = heights (f_G s) (f_scal s).
Proof. intros [A1 A2 A3 A4 A5]. rewrite A1, A2, A3. split; reflexivity. Qed.

Lemma pointers_upd s p c : pointers s -> (c <= length (nth p (f_G s) []))%nat -> pointers (with_cur s (upd (f_cur s) p c)).
Proof.
  intros [B1 B2 B3] Hc. constructor; cbn [f_cur f_G f_scal with_cur]; rewrite ?upd_length; try assumption.
  intro u. destruct (Nat.eq_dec p u) as [->|Hn]; [|rewrite nth_upd_neq by auto; apply B3].
  destruct (Nat.ltb_spec u (length (f_cur s))) as [Hl|Hl]; [rewrite nth_upd_eq by exact Hl; exact Hc|].
  rewrite nth_overflow by (rewrite upd_length; lia). lia.
Qed.

Lemma update_scaling_counts fuel s p s' : update_scaling_chk okd fuel s p = Ok s' -> pointers s ->
  pointers s' /\ f_G s' = f_G s /\ f_eps s' = f_eps s /\
  somes (f_fa s') <= somes (f_fa s) /\
  curs (f_cur s') = curs (f_cur s) - Z.of_nat (nth p (f_cur s) O) /\
  heights (f_G s') (f_scal s') = heights (f_G s) (f_scal s) + degree (f_G s) p * Z.quot (f_eps s) 2.
Proof.
  unfold update_scaling_chk. intros H PT. binv H. binv H.
  assert (E2 : kept s a0 /\ somes (f_fa a0) <= somes (f_fa s)).
  { clear H. revert E0. generalize a at 1. clear E PT. intro l. revert s a0. induction l as [|e l IH]; intros s a0 H; cbn [for_each] in H.
    - inversion H; subst. split; [apply kept_refl|lia].
    - binv H. assert (E1 : kept s a1 /\ somes (f_fa a1) <= somes (f_fa s)).
      { binv E. binv E. destruct (ptr_eqb a3 (Some p)).
        - apply flow_cut_counts in E. destruct E as [K ->]. split; [exact K|lia].
        - inversion E; subst. split; [apply kept_refl|lia]. }
      destruct (IH _ _ H) as [K2 L2]. split; [eapply kept_trans; [apply E1|exact K2]|lia]. }
  destruct E2 as [K L]. pose proof (kept_pointers _ _ K PT) as PT0. destruct (kept_sums _ _ K) as [S1 S2].
  binv H. binv H. binv H. binv H. apply vget_inv in E1. apply ck_inv in E2. destruct E2 as [-> _].
  apply vset_inv in E3. destruct E3 as [Hp ->]. apply vset_inv in E4. destruct E4 as [Hp2 ->].
  cbn [f_cur with_scal] in Hp2. inversion H; subst s'. clear H.
  destruct K as [A1 A2 A3 A4 A5].
  destruct (pointers_upd (with_scal a0 (upd (f_scal a0) p (a1 + Z.quot (f_eps a0) 2))) p O) as [P1 P2 P3].
  { destruct PT0 as [B1 B2 B3]. constructor; cbn [f_cur f_G f_scal with_scal]; rewrite ?upd_length; assumption. }
  { lia. }
  split; [constructor; assumption|]. cbn [f_cur f_G f_scal f_eps f_fa with_scal with_cur].
  split; [exact A2|]. split; [exact A4|]. split; [exact L|]. split.
  - unfold curs in *. rewrite vsum_upd by exact Hp2. rewrite S1, A1. lia.
  - rewrite <- S2. rewrite A2. unfold heights. rewrite vsum_upd by exact Hp. rewrite (nth_error_nth _ _ _ E1). rewrite A4. lia.
Qed.

(** ** One call of choice_operator() *)
Lemma choice_counts fuel0 : forall k s p s', choice_loop_chk okd fuel0 k s p = Ok s' -> pointers s ->
  0 <= Z.quot (f_eps s) 2 ->
  pointers s' /\ f_G s' = f_G s /\ f_eps s' = f_eps s /\
  exists c, choice_run fuel0 c s p s' /\
    let h := Z.quot (f_eps s) 2 in
    h * Z.of_nat c <= h * (curs (f_cur s') - curs (f_cur s) + 3 + somes (f_fa s) - somes (f_fa s')) +
                      2 * (heights (f_G s) (f_scal s') - heights (f_G s) (f_scal s)).
Proof.
  induction k as [|k IH]; intros s p s' H PT Hh; cbn [choice_loop_chk] in H; [discriminate|].
  binv H. binv H. destruct (Nat.ltb_spec a (length a0)) as [Hc|Hc].
  - binv H. binv H. destruct (dlt dzero a2) eqn:Ed.
    + binv H. unfold send_chk in H. apply bind_inv in H. destruct H as ([hp r] & E4 & H). cbv beta zeta in H.
      destruct (link_counts _ _ _ _ E3) as [K3 L3]. destruct (send_loop_counts _ _ _ _ _ _ H) as [K4 (c & Ec & Lc)].
      assert (K : kept s s') by (eapply kept_trans; [exact K3|]; eapply kept_trans; [|exact K4]; constructor; reflexivity).
      split; [apply (kept_pointers _ _ K PT)|]. split; [apply (kp_G _ _ K)|]. split; [apply (kp_eps _ _ K)|].
      exists (S c). split.
      { eapply cr_send; eauto. apply (q_chk_sim okd); exact E2. apply (link_chk_sim okd); exact E3. apply (find_root_chk_sim okd); exact E4. }
      cbv zeta. cbn [f_fa with_nodes] in Lc. rewrite (kp_scal _ _ K), (kp_cur _ _ K).
      assert (X : Z.quot (f_eps s) 2 * Z.of_nat (S c) <= Z.quot (f_eps s) 2 * (3 + somes (f_fa s) - somes (f_fa s'))) by (apply Z.mul_le_mono_nonneg_l; [exact Hh|lia]).
      replace (curs (f_cur s) - curs (f_cur s) + 3 + somes (f_fa s) - somes (f_fa s')) with (3 + somes (f_fa s) - somes (f_fa s')) by lia. lia.
    + binv H. apply vset_inv in E3. destruct E3 as [Hp ->]. apply vget_inv in E0. apply vget_inv in E.
      assert (PT1 : pointers (with_cur s (upd (f_cur s) p (a + 1)%nat))).
      { apply pointers_upd; [exact PT|]. rewrite (nth_error_nth _ _ _ E0). lia. }
      destruct (IH _ _ _ H PT1 Hh) as (P' & G' & e' & c & Rc & Lc). cbn [f_G f_eps with_cur] in G', e'. cbv zeta in Lc.
      cbn [f_G f_eps f_cur f_fa f_scal with_cur] in Lc.
      split; [exact P'|]. split; [exact G'|]. split; [exact e'|]. exists (S c). split.
      { eapply cr_next; eauto. unfold vget. rewrite E. reflexivity. unfold vget. rewrite E0. reflexivity. apply (q_chk_sim okd); exact E2. unfold vset. rewrite (proj2 (Nat.ltb_lt _ _) Hp). reflexivity. }
      cbv zeta. unfold curs in *. rewrite vsum_upd in Lc by exact Hp. rewrite (nth_error_nth _ _ _ E) in Lc. nia.
  - destruct (update_scaling_counts _ _ _ _ H PT) as (P' & G' & e' & L1 & L2 & L3).
    split; [exact P'|]. split; [exact G'|]. split; [exact e'|]. exists (S (length a0)). split.
    { eapply cr_rise; eauto. apply (update_scaling_chk_sim okd); exact H. }
    cbv zeta. rewrite G' in L3. rewrite L2, L3. apply vget_inv in E0. apply vget_inv in E.
    pose proof (pt_le _ PT p) as Hle. unfold degree. rewrite (nth_error_nth _ _ _ E0) in *. rewrite (nth_error_nth _ _ _ E) in *.
    assert (a = length a0) by lia. subst a. nia.
Qed.

(** ** The loop of refine() *)
Lemma refine_counts fuel0 : forall k s s', refine_loop_chk okd fuel0 k s = Ok s' -> pointers s ->
  0 <= Z.quot (f_eps s) 2 ->
  pointers s' /\ f_G s' = f_G s /\ f_eps s' = f_eps s /\
  exists c, refine_run fuel0 c s s' /\
    let h := Z.quot (f_eps s) 2 in
    h * Z.of_nat c <= h * (curs (f_cur s') - curs (f_cur s) + 4 * Z.of_nat k + somes (f_fa s) - somes (f_fa s')) +
                      2 * (heights (f_G s) (f_scal s') - heights (f_G s) (f_scal s)).
Proof.
  induction k as [|k IH]; intros s s' H PT Hh; cbn [refine_loop_chk] in H; destruct (uq_empty (f_uq s)) eqn:Eu; try discriminate.
  - inversion H; subst. repeat (split; [first [exact PT|reflexivity]|]). exists O. split; [apply rr_done; exact Eu|]. cbv zeta. nia.
  - inversion H; subst. repeat (split; [first [exact PT|reflexivity]|]). exists O. split; [apply rr_done; exact Eu|]. cbv zeta. nia.
  - binv H. binv H. binv H. destruct (choice_counts _ _ _ _ _ E1 PT Hh) as (P1 & G1 & e1 & c1 & R1 & L1). cbv zeta in L1.
    binv H. binv H. binv H.
    assert (ES : settle a1 = Ok a4) by (unfold settle; rewrite E2; cbn [bind]; rewrite E3; exact E4).
    assert (K : f_cur a4 = f_cur a1 /\ f_fa a4 = f_fa a1 /\ f_scal a4 = f_scal a1 /\ f_G a4 = f_G a1 /\ f_eps a4 = f_eps a1).
    { destruct (deq a3 dzero); [binv E4|]; inversion E4; subst; repeat split. }
    destruct K as (K1 & K2 & K3 & K4 & K5).
    assert (P2 : pointers a4) by (destruct P1 as [B1 B2 B3]; constructor; rewrite ?K1, ?K3, ?K4; assumption).
    destruct (IH _ _ H P2) as (P' & G' & e' & c2 & R2 & L2); [rewrite K5, e1; exact Hh|]. cbv zeta in L2.
    split; [exact P'|]. split; [congruence|]. split; [congruence|]. exists (S (c1 + c2)). split.
    { eapply rr_step; eauto. }
    cbv zeta. rewrite K5, e1, K4, G1, K1, K2, K3 in L2. nia.
Qed.
End Steps.
