(** * CostScaling::Refine halves the error of an approximately optimal circulation *)
From Verif Require Import Base BaseLemmas Data ProblemDefine Flow CostScaling Sums NetMath ScaleNet.
Local Open Scope Z_scope.

Section Refine.
Variable one : Z.
#[local] Hint Extern 0 (DataOps Z) => exact (exact_ops one) : typeclass_instances.

Variables (n : nat) (A : list (InputEdge Z)).
Notation m := (length A).
Hypothesis HA : arcs_ok n A.
Variables (nx : nat -> option nat) (hd : nat -> option nat).
Hypothesis Hlink : forall u, (u <= n)%nat -> linked nx (hd u) (sG A u).

Notation sei := (sei A).
Notation sej := (sej A).
Notation pe := (pe sei sej).
Notation exc := (exc m sei sej).
Notation opt := (opt m sei sej (slft one A)).
Notation nodes := (nodes n).
Notation rc := (rc A).
Notation cpi := (cpi one A).
Notation rinv := (rinv one n A).
Notation net := (scale_netok one n A HA).

(** the arc records *)
Definition arcf (x : nat -> Z) (e : nat) : Arc Z := mkArc (nx e) (sej e) (sc A e) (rc x e).

Lemma cost_pi_ok P p x e : vec P (n + 1) p -> (e < 2 * m)%nat -> cost_pi P (sei e) (arcf x e) = Ok (cpi p e).
Proof.
  intros HP He. assert (B1 := sei_le n A HA e He). assert (B2 := sej_le n A HA e He).
  unfold cost_pi, arcf. cbn [a_v a_cost]. rewrite (vec_get _ _ _ _ HP) by lia. cbn [bind].
  rewrite (vec_get _ _ _ _ HP) by lia. cbn [bind]. f_equal.
  unfold of_int, ScaleNet.cpi, NetMath.pe. cbn [dadd dsub dmuli done exact_ops]. lia.
Qed.

(** moving [d] units along [e] in the arc array *)
Lemma arcf_push E x e d a1 a2 : vec E (2 * m) (arcf x) -> (e < 2 * m)%nat ->
  a1 = with_cap (arcf x e) (rc x e - d) -> a2 = with_cap (arcf x (rev_id e)) (rc x (rev_id e) + d) ->
  vec (upd (upd E e a1) (rev_id e) a2) (2 * m) (arcf (xadd x e d)).
Proof.
  intros HE He -> ->. assert (Hr := rev_lt _ _ He). assert (Hn := rev_neq e).
  eapply vec_ext; [apply vec_upd; [apply vec_upd; [exact HE|auto]|auto]|].
  intros i Hi. unfold fup. destruct (Nat.eqb_spec i (rev_id e)) as [->|N1].
  - unfold arcf, with_cap. cbn [a_next a_v a_cost]. rewrite rc_xadd_rev. reflexivity.
  - destruct (Nat.eqb_spec i e) as [->|N2].
    + unfold arcf, with_cap. cbn [a_next a_v a_cost]. rewrite rc_xadd_eq. reflexivity.
    + unfold arcf. rewrite rc_xadd_neq by auto. reflexivity.
Qed.

Lemma arcf_push' E x e d a1 a2 : vec E (2 * m) (arcf x) -> (e < 2 * m)%nat ->
  a1 = with_cap (arcf x e) (rc x e - d) -> a2 = with_cap (arcf x (rev_id e)) (rc x (rev_id e) + d) ->
  vec (upd (upd E (rev_id e) a2) e a1) (2 * m) (arcf (xadd x e d)).
Proof.
  intros HE He -> ->. assert (Hr := rev_lt _ _ He). assert (Hn := rev_neq e).
  eapply vec_ext; [apply vec_upd; [apply vec_upd; [exact HE|auto]|auto]|].
  intros i Hi. unfold fup. destruct (Nat.eqb_spec i e) as [->|N2].
  - unfold arcf, with_cap. cbn [a_next a_v a_cost]. rewrite rc_xadd_eq. reflexivity.
  - destruct (Nat.eqb_spec i (rev_id e)) as [->|N1].
    + unfold arcf, with_cap. cbn [a_next a_v a_cost]. rewrite rc_xadd_rev. reflexivity.
    + unfold arcf. rewrite rc_xadd_neq by auto. reflexivity.
Qed.

Lemma exc_push X x e d a b : vec X (n + 1) (exc x) -> (e < 2 * m)%nat ->
  a = exc x (sei e) - d -> b = exc x (sej e) + d ->
  vec (upd (upd X (sei e) a) (sej e) b) (n + 1) (exc (xadd x e d)).
Proof.
  intros HX He -> ->. assert (B1 := sei_le n A HA e He). assert (B2 := sej_le n A HA e He).
  assert (NL := no_loop n A HA e He).
  eapply vec_ext; [apply vec_upd; [apply vec_upd; [exact HX|lia]|lia]|].
  intros i Hi. rewrite (exc_xadd _ _ _ _ _ _ _ net) by auto. unfold fup.
  destruct (Nat.eqb_spec i (sej e)) as [->|N1].
  - rewrite Nat.eqb_refl. destruct (Nat.eqb_spec (sei e) (sej e)); [contradiction|]. lia.
  - destruct (Nat.eqb_spec (sej e) i); [congruence|]. destruct (Nat.eqb_spec i (sei e)) as [->|N2].
    + rewrite Nat.eqb_refl. lia.
    + destruct (Nat.eqb_spec (sei e) i); [congruence|]. lia.
Qed.

(** ** Saturating all arcs of negative reduced cost: CostScaling.cpp:15-24 *)
Section Saturate.
Variables (P : list Z) (p : nat -> Z).
Hypothesis HP : vec P (n + 1) p.

Definition sat_inv (E : list (Arc Z)) (X : list Z) (x : nat -> Z) (L : nat -> Prop) : Prop :=
  vec E (2 * m) (arcf x) /\ vec X (n + 1) (exc x) /\ inrange A x /\
  forall e, (e < 2 * m)%nat -> L e -> cpi p e < 0 -> rc x e = 0.

Lemma saturate_ok u L : forall fuel h E X x D, (length L <= fuel)%nat -> linked nx h L ->
  (forall e, In e L -> (e < 2 * m)%nat /\ sei e = u) -> sat_inv E X x D ->
  exists E' X' x', saturate fuel P u h E X = Ok (E', X') /\ sat_inv E' X' x' (fun e => D e \/ In e L).
Proof.
  induction L as [|e L IH]; intros fuel h E X x D Hf Hl HL HI.
  - cbn [linked] in Hl. subst h. exists E, X, x. split; [destruct fuel; reflexivity|].
    destruct HI as (I1 & I2 & I3 & I4). repeat (split; auto). intros e He [Hd|[]]. auto.
  - cbn [linked] in Hl. destruct Hl as [-> Hl]. destruct fuel as [|fuel]; [simpl in Hf; lia|]. simpl in Hf.
    destruct (HL e (or_introl eq_refl)) as [He Eu]. destruct HI as (I1 & I2 & I3 & I4).
    cbn [saturate]. rewrite (vec_get _ _ _ _ I1) by auto. cbn [bind].
    rewrite <- Eu, (cost_pi_ok P p x e HP He). cbn [bind dlt dzero exact_ops].
    assert (B1 := sei_le n A HA e He). assert (B2 := sej_le n A HA e He). assert (NL := no_loop n A HA e He).
    assert (Hr := rev_lt _ _ He).
    assert (Hstep : exists E' X' x', (if cpi p e <? 0 then
               excess <- vsub X (sei e) (a_cap (arcf x e)) ;;
               excess <- vadd excess (a_v (arcf x e)) (a_cap (arcf x e)) ;;
               edge <- add_cap E (rev_id e) (a_cap (arcf x e)) ;;
               a' <- vget edge e ;;
               edge <- vset edge e (with_cap a' 0) ;;
               Ok (edge, excess)
             else Ok (E, X)) = Ok (E', X') /\ sat_inv E' X' x' (fun i => D i \/ i = e)).
    { destruct (Z.ltb_spec (cpi p e) 0) as [Hc|Hc].
      - unfold vsub. rewrite (vec_get _ _ _ _ I2) by lia. cbn [bind]. rewrite (vec_set _ _ _ _ _ I2) by lia. cbn [bind].
        assert (V1 := vec_upd _ _ _ (sei e) (dsub (exc x (sei e)) (a_cap (arcf x e))) I2 ltac:(lia)).
        unfold vadd. rewrite (vec_get _ _ _ _ V1) by (cbn [arcf a_v]; lia). cbn [bind].
        rewrite (vec_set _ _ _ _ _ V1) by (cbn [arcf a_v]; lia). cbn [bind].
        unfold add_cap. rewrite (vec_get _ _ _ _ I1) by auto. cbn [bind]. rewrite (vec_set _ _ _ _ _ I1) by auto. cbn [bind].
        assert (V2 := vec_upd _ _ _ (rev_id e) (with_cap (arcf x (rev_id e)) (dadd (a_cap (arcf x (rev_id e))) (a_cap (arcf x e)))) I1 Hr).
        rewrite (vec_get _ _ _ _ V2) by auto. cbn [bind]. rewrite (vec_set _ _ _ _ _ V2) by auto. cbn [bind].
        eexists _, _, (xadd x e (rc x e)). split; [reflexivity|]. split; [|split; [|split]].
        + apply arcf_push'; auto. rewrite fup_neq by (intros Q; apply (rev_neq e); congruence). rewrite Z.sub_diag. reflexivity.
        + cbn [arcf a_v]. apply exc_push; auto. rewrite fup_neq by auto. reflexivity.
        + intros i Hi. destruct (Nat.eq_dec i e) as [->|N1]; [rewrite rc_xadd_eq; lia|].
          destruct (Nat.eq_dec i (rev_id e)) as [->|N2].
          * rewrite rc_xadd_rev. assert (Q1 := I3 _ He). assert (Q2 := I3 _ Hr). lia.
          * rewrite rc_xadd_neq by auto. auto.
        + intros i Hi Hd Hci. destruct (Nat.eq_dec i e) as [->|N1]; [rewrite rc_xadd_eq; lia|].
          destruct (Nat.eq_dec i (rev_id e)) as [->|N2].
          * rewrite (cpi_rev one n A HA) in Hci by auto. lia.
          * rewrite rc_xadd_neq by auto. destruct Hd as [Hd|Hd]; [auto|contradiction].
      - exists E, X, x. split; auto. split; auto. split; auto. split; auto.
        intros i Hi [Hd|Hd] Hci; [auto|]. subst i. lia. }
    destruct Hstep as (E1 & X1 & x1 & HS & HI1). rewrite HS. cbn [bind arcf a_next]. rewrite Eu.
    destruct (IH fuel (nx e) E1 X1 x1 (fun i => D i \/ i = e)) as (E' & X' & x' & R1 & R2); auto; [lia| |].
    { intros i Hi. apply HL. simpl; auto. }
    exists E', X', x'. split; auto. destruct R2 as (J1 & J2 & J3 & J4). repeat (split; auto).
    intros i Hi [Hd|[Hd|Hd]] Hci; apply J4; auto.
Qed.

Lemma saturate_all_ok fuel cs x : (2 * m <= fuel)%nat -> c_N cs = (n + 1)%nat -> c_p cs = P ->
  vec (c_head cs) (n + 1) hd -> vec (c_edge cs) (2 * m) (arcf x) -> inrange A x ->
  (forall v, (v <= n)%nat -> exc x v = 0) ->
  exists E X x', saturate_all fuel cs = Ok (E, X) /\ vec E (2 * m) (arcf x') /\ vec X (n + 1) (exc x') /\ opt 0 p x'.
Proof.
  intros Hf EN EP Hh HE Hr Hc. unfold saturate_all. rewrite EN, EP.
  destruct (for_each_inv (fun pre (st : list (Arc Z) * list Z) => exists x', sat_inv (fst st) (snd st) x' (fun e => In (sei e) pre))
    (fun '(edge, excess) u => i <- vget (c_head cs) u ;; saturate fuel P u i edge excess)
    (seq 0 (n + 1)) (c_edge cs, repeat dzero (n + 1))) as ([E X] & E1 & x' & H1 & H2 & H3 & H4).
  - exists x. split; [exact HE|]. split; [|split; [exact Hr|intros e He []]].
    eapply vec_ext; [apply vec_repeat|]. intros i Hi. cbv beta. rewrite Hc by lia. reflexivity.
  - intros pre u post [E X] Ep (x1 & HI). cbn [fst snd] in *.
    assert (Hu : (u <= n)%nat).
    { assert (Hin : In u (seq 0 (n + 1))) by (rewrite Ep; apply in_or_app; simpl; auto). apply in_seq in Hin. lia. }
    rewrite (vec_get _ _ _ _ Hh) by lia. cbn [bind].
    destruct (saturate_ok u (sG A u) fuel (hd u) E X x1 (fun e => In (sei e) pre)) as (E' & X' & x' & R1 & R2); auto.
    { assert (B := sG_len A u). lia. }
    { intros e He. apply in_sG in He. auto. }
    exists (E', X'). split; auto. exists x'. cbn [fst snd]. destruct R2 as (J1 & J2 & J3 & J4). repeat (split; auto).
    intros e He Hi. apply J4; auto. apply in_app_or in Hi. destruct Hi as [Hi|[Hi|[]]]; auto. right. apply in_sG. auto.
  - exists E, X, x'. cbn [fst snd] in *. repeat (split; auto). apply (opt_iff one n A HA). split; auto.
    intros e He Hr'. destruct (Z.le_gt_cases (-0) (cpi p e)); auto. exfalso.
    rewrite H4 in Hr'; auto; [lia|]. apply in_seq. assert (B := sei_le n A HA e He). lia.
Qed.

End Saturate.

(** ** The main loop *)
Variables (p0 x0 : nat -> Z) (h eps : Z).
Hypothesis Hh : 0 < h.
Hypothesis Heps : eps = 2 * h.
Hypothesis Hr0 : inrange A x0.
Hypothesis Hcirc0 : forall v, (v <= n)%nat -> exc x0 v = 0.

Record rst (s : refine_st Z) (p x : nat -> Z) (todo : nat -> list nat) (vis : nat -> bool) : Prop := {
  rs_edge : vec (r_edge s) (2 * m) (arcf x);
  rs_p : vec (r_p s) (n + 1) p;
  rs_exc : vec (r_exc s) (n + 1) (exc x);
  rs_inc : vec (r_inc s) (n + 1) (fun v => p v - p0 v);
  rs_cur : exists cur, vec (r_cur s) (n + 1) cur /\ forall v, (v <= n)%nat -> linked nx (cur v) (todo v);
  rs_vis : vec (r_vis s) (n + 1) vis;
  rs_st : NoDup (r_st s) /\ forall v, In v (r_st s) <-> (v <= n)%nat /\ vis v = true
}.

Definition act (x : nat -> Z) (v : nat) : bool := 0 <? exc x v.

Lemma push_ok s p x todo vis e d : rst s p x todo vis -> (e < 2 * m)%nat ->
  (forall v, (v <= n)%nat -> v <> sei e -> vis v = act x v) -> vis (sei e) = false -> 0 <= d <= exc x (sei e) ->
  exists s' vis', push (sei e) e d s = Ok s' /\ rst s' p (xadd x e d) todo vis' /\
    (forall v, (v <= n)%nat -> v <> sei e -> vis' v = act (xadd x e d) v) /\ vis' (sei e) = false.
Proof.
  intros [H1 H2 H3 H4 H5 H6 [H7 H8]] He Hv Hu Hd.
  assert (B1 := sei_le n A HA e He). assert (B2 := sej_le n A HA e He). assert (NL := no_loop n A HA e He).
  assert (Hr := rev_lt _ _ He).
  unfold push. rewrite (vec_get _ _ _ _ H1) by auto. cbn [bind]. rewrite (vec_set _ _ _ _ _ H1) by auto. cbn [bind].
  assert (V1 := vec_upd _ _ _ e (with_cap (arcf x e) (dsub (a_cap (arcf x e)) d)) H1 He).
  unfold add_cap. rewrite (vec_get _ _ _ _ V1) by auto. cbn [bind]. rewrite (vec_set _ _ _ _ _ V1) by auto. cbn [bind].
  unfold vsub. rewrite (vec_get _ _ _ _ H3) by lia. cbn [bind]. rewrite (vec_set _ _ _ _ _ H3) by lia. cbn [bind].
  assert (V2 := vec_upd _ _ _ (sei e) (dsub (exc x (sei e)) d) H3 ltac:(lia)).
  unfold vadd. cbn [arcf a_v]. rewrite (vec_get _ _ _ _ V2) by lia. cbn [bind].
  rewrite (vec_set _ _ _ _ _ V2) by lia. cbn [bind].
  match goal with |- context[vget (upd (upd (r_exc s) _ _) _ ?b) _] =>
    assert (V3 : vec (upd (upd (r_exc s) (sei e) (dsub (exc x (sei e)) d)) (sej e) b) (n + 1) (exc (xadd x e d)));
    [apply exc_push; auto; rewrite fup_neq by auto; reflexivity|] end.
  rewrite (vec_get _ _ _ _ V3) by lia. cbn [bind]. rewrite (vec_get _ _ _ _ H6) by lia. cbn [bind].
  match goal with |- context[mkR (upd (upd (r_edge s) e ?a) (rev_id e) ?b)] =>
    assert (V4 : vec (upd (upd (r_edge s) e a) (rev_id e) b) (2 * m) (arcf (xadd x e d)));
    [apply arcf_push; auto; rewrite fup_neq by (apply rev_neq); reflexivity|] end.
  cbn [dlt dzero exact_ops].
  assert (Eother : forall v, (v <= n)%nat -> v <> sei e -> v <> sej e -> act (xadd x e d) v = act x v).
  { intros v Hv1 N1 N2. unfold act. rewrite (exc_xadd _ _ _ _ _ _ _ net) by auto.
    destruct (Nat.eqb_spec (sej e) v); [congruence|]. destruct (Nat.eqb_spec (sei e) v); [congruence|]. f_equal. lia. }
  assert (Ej : exc (xadd x e d) (sej e) = exc x (sej e) + d).
  { rewrite (exc_xadd _ _ _ _ _ _ _ net) by auto. rewrite Nat.eqb_refl. destruct (Nat.eqb_spec (sei e) (sej e)); [contradiction|lia]. }
  destruct (Z.ltb_spec 0 (exc (xadd x e d) (sej e))) as [Hp|Hp]; destruct (vis (sej e)) eqn:Ev; cbn [andb negb].
  - eexists _, vis. split; [reflexivity|]. split; [constructor; auto; split; auto|]. split; auto.
    intros v Hv1 N1. destruct (Nat.eq_dec v (sej e)) as [->|N2]; [|rewrite Eother; auto].
    rewrite Ev. unfold act. symmetry. apply Z.ltb_lt. auto.
  - rewrite (vec_set _ _ _ _ _ H6) by lia. cbn [bind].
    eexists _, (fup vis (sej e) true). split; [reflexivity|]. split; [|split].
    + constructor; auto; cbn [r_vis r_st]; [apply vec_upd; auto; lia|]. split.
      * constructor; auto. intros Hi. apply H8 in Hi. destruct Hi. congruence.
      * intros v. cbn [In]. rewrite H8. unfold fup. destruct (Nat.eqb_spec v (sej e)) as [->|N]; intuition congruence.
    + intros v Hv1 N1. destruct (Nat.eq_dec v (sej e)) as [->|N2].
      * rewrite fup_eq. symmetry. apply Z.ltb_lt; auto.
      * rewrite fup_neq by auto. rewrite Eother; auto.
    + rewrite fup_neq by auto. auto.
  - exfalso. rewrite Hv in Ev by auto. unfold act in Ev. apply Z.ltb_lt in Ev. lia.
  - eexists _, vis. split; [reflexivity|]. split; [constructor; auto; split; auto|]. split; auto.
    intros v Hv1 N1. destruct (Nat.eq_dec v (sej e)) as [->|N2]; [|rewrite Eother; auto].
    rewrite Ev. unfold act. symmetry. apply Z.ltb_ge. auto.
Qed.

(** measures *)
Definition Cm (todo : nat -> list nat) : Z := zsum nodes (fun v => Z.of_nat (length (todo v))).
Definition Phi (x : nat -> Z) (rank : nat -> nat) : Z :=
  zsum nodes (fun v => if 0 <? exc x v then Z.of_nat (rank v) + 1 else 0).
Notation Bm := (Z.of_nat n + 2).

Lemma Cm_next todo u e L : (u <= n)%nat -> todo u = e :: L -> Cm (fup todo u L) = Cm todo - 1.
Proof.
  intros Hu E. unfold Cm. rewrite (zsum_point nodes u (fun v => Z.of_nat (length (todo v)))).
  - rewrite fup_eq, E. cbn [length]. lia.
  - apply seq_NoDup.
  - apply in_nodes; auto.
  - intros k _ Hk. rewrite fup_neq by auto. reflexivity.
Qed.

Lemma Phi_add x rank e d : (e < 2 * m)%nat -> (forall v, (v <= n)%nat -> (rank v <= n)%nat) -> 0 <= d <= exc x (sei e) ->
  Phi (xadd x e d) rank <= Phi x rank + (Z.of_nat n + 1).
Proof.
  intros He Hrk Hd. assert (B2 := sej_le n A HA e He).
  assert (Ei := zsum_indicator nodes (sej e) (fun _ => Z.of_nat n + 1) (seq_NoDup _ _)).
  destruct (in_dec Nat.eq_dec (sej e) nodes) as [Hi|Hi]; [|exfalso; apply Hi, in_nodes; auto].
  rewrite <- Ei. unfold Phi. rewrite <- zsum_add. apply zsum_le. intros v Hv. apply in_nodes in Hv. specialize (Hrk v Hv).
  rewrite (exc_xadd _ _ _ _ _ _ _ net) by auto.
  destruct (Nat.eqb_spec (sej e) v), (Nat.eqb_spec (sei e) v); subst;
    repeat match goal with |- context[0 <? ?a] => destruct (Z.ltb_spec 0 a) end; try lia.
Qed.

Lemma Phi_return x rank e : (e < 2 * m)%nat -> (rank (sej e) < rank (sei e))%nat -> 0 < exc x (sei e) ->
  Phi (xadd x e (exc x (sei e))) rank + 1 <= Phi x rank.
Proof.
  intros He Hrk Hd. assert (B1 := sei_le n A HA e He). assert (B2 := sej_le n A HA e He). assert (NL := no_loop n A HA e He).
  assert (Ei := zsum_indicator nodes (sei e) (fun v => Z.of_nat (rank v) + 1) (seq_NoDup _ _)).
  assert (Ej := zsum_indicator nodes (sej e) (fun v => Z.of_nat (rank v) + 1) (seq_NoDup _ _)).
  destruct (in_dec Nat.eq_dec (sei e) nodes) as [Hi|Hi]; [|exfalso; apply Hi, in_nodes; auto].
  destruct (in_dec Nat.eq_dec (sej e) nodes) as [Hj|Hj]; [|exfalso; apply Hj, in_nodes; auto].
  enough (Q : Phi (xadd x e (exc x (sei e))) rank <=
    Phi x rank + zsum nodes (fun v => if (sej e =? v)%nat then Z.of_nat (rank v) + 1 else 0)
    - zsum nodes (fun v => if (sei e =? v)%nat then Z.of_nat (rank v) + 1 else 0)).
  { rewrite Ei, Ej in Q. lia. }
  unfold Phi. rewrite <- zsum_add, <- zsum_sub. apply zsum_le. intros v Hv.
  rewrite (exc_xadd _ _ _ _ _ _ _ net) by auto.
  destruct (Nat.eqb_spec (sej e) v) as [E1|E1], (Nat.eqb_spec (sei e) v) as [E2|E2]; try congruence;
    [rewrite <- E1 in *|rewrite <- E2 in *|];
    repeat match goal with |- context[0 <? ?a] => destruct (Z.ltb_spec 0 a) end; try lia.
Qed.

(** CostScaling.cpp:55-63 *)
Lemma scan_ok u p rank : (u <= n)%nat -> forall L fuel s x todo vis, (length L <= fuel)%nat ->
  rst s p x todo vis -> rinv h p x rank todo -> todo u = L -> 0 < exc x u ->
  (forall v, (v <= n)%nat -> v <> u -> vis v = act x v) -> vis u = false ->
  (forall v, (v <= n)%nat -> exc x v < 0 -> p v = p0 v) ->
  exists b s' x' todo' vis', scan fuel u s = Ok (b, s') /\ rst s' p x' todo' vis' /\ rinv h p x' rank todo' /\
    (forall v, (v <= n)%nat -> v <> u -> vis' v = act x' v) /\ vis' u = false /\
    (forall v, (v <= n)%nat -> exc x' v < 0 -> p v = p0 v) /\
    Bm * Cm todo' + Phi x' rank + (if (b : bool) then 1 else 0) <= Bm * Cm todo + Phi x rank /\
    (if b then exc x' u = 0 else todo' u = [] /\ 0 < exc x' u).
Proof.
  intros Hu. induction L as [|e L IH]; intros fuel s x todo vis Hf HS HI Et Hx Hv Hvu Hneg.
  - destruct (rs_cur _ _ _ _ _ HS) as (cur & C1 & C2). assert (Cu := C2 u Hu). rewrite Et in Cu. cbn [linked] in Cu.
    exists false, s, x, todo, vis.
    assert (E : scan fuel u s = Ok (false, s)).
    { destruct fuel; cbn [scan]; rewrite (vec_get _ _ _ _ C1) by lia; cbn [bind]; rewrite Cu; reflexivity. }
    rewrite E. repeat (split; auto). lia.
  - destruct fuel as [|fuel]; [simpl in Hf; lia|]. simpl in Hf.
    destruct (rs_cur _ _ _ _ _ HS) as (cur & C1 & C2). assert (Cu := C2 u Hu). rewrite Et in Cu. cbn [linked] in Cu.
    destruct Cu as [Cu Cl].
    assert (Hin : In e (sG A u)).
    { destruct (ri_sub _ _ _ _ _ _ _ _ HI u Hu) as (pre & Ep). rewrite Ep, Et. apply in_or_app. simpl; auto. }
    apply in_sG in Hin. destruct Hin as [He Eu].
    cbn [scan]. rewrite (vec_get _ _ _ _ C1) by lia. cbn [bind]. rewrite Cu.
    rewrite (vec_get _ _ _ _ (rs_edge _ _ _ _ _ HS)) by auto. cbn [bind].
    assert (Ecp : cost_pi (r_p s) u (arcf x e) = Ok (cpi p e)).
    { rewrite <- Eu. apply cost_pi_ok; auto. apply (rs_p _ _ _ _ _ HS). }
    rewrite Ecp. cbn [bind dlt dzero exact_ops].
    assert (Hrange := proj1 (proj1 (opt_iff one n A HA h p x) (ri_opt _ _ _ _ _ _ _ _ HI)) e He).
    destruct (Z.ltb_spec (cpi p e) 0) as [Hc|Hc].
    + rewrite (vec_get _ _ _ _ (rs_exc _ _ _ _ _ HS)) by lia. cbn [bind arcf a_cap].
      set (d := dmin (rc x e) (exc x u)).
      assert (Ed : d = Z.min (rc x e) (exc x u)).
      { unfold d, dmin. cbn [dlt exact_ops]. destruct (Z.ltb_spec (exc x u) (rc x e)); lia. }
      clearbody d.
      destruct (push_ok s p x todo vis e d) as (s1 & vis1 & E1 & R1 & V1 & V2); auto; try (rewrite Eu; auto; lia).

      rewrite Eu in E1, V1, V2. rewrite E1. cbn [bind].
      rewrite (vec_get _ _ _ _ (rs_exc _ _ _ _ _ R1)) by lia. cbn [bind deq dzero exact_ops].
      assert (NL := no_loop n A HA e He).
      assert (Exu : exc (xadd x e d) u = exc x u - d).
      { rewrite (exc_xadd _ _ _ _ _ _ _ net) by auto. rewrite Eu, Nat.eqb_refl. destruct (Nat.eqb_spec (sej e) u); [congruence|lia]. }
      assert (I1 : rinv h p (xadd x e d) rank todo) by (apply rinv_push; auto; lia).
      assert (Hneg1 : forall v, (v <= n)%nat -> exc (xadd x e d) v < 0 -> p v = p0 v).
      { intros v Hv1 Hn. apply Hneg; auto. rewrite (exc_xadd _ _ _ _ _ _ _ net) in Hn by auto. rewrite Eu in Hn.
        destruct (Nat.eqb_spec (sej e) v), (Nat.eqb_spec u v); subst; lia. }
      destruct (Z.eqb_spec (exc (xadd x e d) u) 0) as [Ez|Ez].
      * assert (d = exc x u) by lia.
        exists true, s1, (xadd x e d), todo, vis1. repeat (split; auto).
        assert (Ha : adm one A p x e) by (split; lia).
        assert (Rk := ri_rank _ _ _ _ _ _ _ _ HI e He Ha).
        assert (Q := Phi_return x rank e He Rk). rewrite Eu in Q. subst d. rewrite H in *. specialize (Q ltac:(lia)). lia.
      * destruct (rs_cur _ _ _ _ _ R1) as (cur1 & D1 & D2). rewrite (vec_set _ _ _ _ _ D1) by lia. cbn [bind a_next].
        assert (Hd2 : d = rc x e) by lia.
        destruct (IH fuel (with_cur s1 (upd (r_cur s1) u (nx e))) (xadd x e d) (fup todo u L) vis1)
          as (b & s' & x' & todo' & vis' & Q1 & Q2 & Q3 & Q4 & Q5 & Q6 & Q7 & Q8); auto; try lia.
        { destruct R1 as [T1 T2 T3 T4 T5 T6 T7]. constructor; auto. cbn [with_cur r_cur].
          exists (fup cur1 u (nx e)). split; [apply vec_upd; auto; lia|].
          intros v Hv1. unfold fup. destruct (Nat.eqb_spec v u); auto. }
        { apply rinv_next with e; auto. intros [Z1 _]. rewrite rc_xadd_eq in Z1. lia. }
        { apply fup_eq. }
        exists b, s', x', todo', vis'. repeat (split; auto).
        rewrite (Cm_next todo u e L Hu Et) in Q7.
        assert (P := Phi_add x rank e d He (ri_rk_le _ _ _ _ _ _ _ _ HI)). rewrite Eu in P. specialize (P ltac:(lia)). lia.
    + cbn [bind]. rewrite (vec_get _ _ _ _ (rs_exc _ _ _ _ _ HS)) by lia. cbn [bind deq dzero exact_ops].
      destruct (Z.eqb_spec (exc x u) 0) as [Ez|Ez]; [lia|].
      rewrite (vec_set _ _ _ _ _ C1) by lia. cbn [bind arcf a_next].
      destruct (IH fuel (with_cur s (upd (r_cur s) u (nx e))) x (fup todo u L) vis)
        as (b & s' & x' & todo' & vis' & Q1 & Q2 & Q3 & Q4 & Q5 & Q6 & Q7 & Q8); auto; try lia.
      { destruct HS as [T1 T2 T3 T4 T5 T6 T7]. constructor; auto. cbn [with_cur r_cur].
        exists (fup cur u (nx e)). split; [apply vec_upd; auto; lia|].
        intros v Hv1. unfold fup. destruct (Nat.eqb_spec v u); auto. }
      { apply rinv_next with e; auto. intros [_ Z1]. lia. }
      { apply fup_eq. }
      exists b, s', x', todo', vis'. repeat (split; auto).
      rewrite (Cm_next todo u e L Hu Et) in Q7. lia.
Qed.

(** bounds of the measures *)
(** how often a node is raised before the failure test stops the loop *)
Notation Kmax := (6 * Z.of_nat n + 7).
Definition Rm (kf : nat -> Z) : Z := zsum nodes (fun v => Kmax - kf v).
Notation Cmax := ((Z.of_nat n + 1) * (2 * Z.of_nat m)).
Notation Pmax := ((Z.of_nat n + 1) * (Z.of_nat n + 1)).
Notation Am := (Bm * Cmax + Pmax + 1).

Lemma zsum_const_le (L : list nat) f c : (forall v, In v L -> f v <= c) -> zsum L f <= Z.of_nat (length L) * c.
Proof.
  clear. induction L as [|a L IH]; intros H; cbn [zsum length]; [lia|].
  assert (H1 := H a (or_introl eq_refl)). assert (H2 := IH (fun v Hv => H v (or_intror Hv))). lia.
Qed.

Lemma nodes_len : length nodes = (n + 1)%nat.
Proof. apply seq_length. Qed.

Lemma Cm_le todo h1 p x rank : rinv h1 p x rank todo -> Cm todo <= Cmax.
Proof.
  intros HI. unfold Cm. eapply Z.le_trans; [apply (zsum_const_le _ _ (2 * Z.of_nat m))|rewrite nodes_len; lia].
  intros v Hv. apply in_nodes in Hv. destruct (ri_sub _ _ _ _ _ _ _ _ HI v Hv) as (pre & E).
  assert (B := sG_len A v). rewrite E, app_length in B. lia.
Qed.

Lemma Cm_nonneg todo : 0 <= Cm todo.
Proof. apply zsum_nonneg. intros; lia. Qed.

Lemma Phi_le todo h1 p x rank : rinv h1 p x rank todo -> Phi x rank <= Pmax.
Proof.
  intros HI. unfold Phi. eapply Z.le_trans; [apply (zsum_const_le _ _ (Z.of_nat n + 1))|rewrite nodes_len; lia].
  intros v Hv. apply in_nodes in Hv. assert (B := ri_rk_le _ _ _ _ _ _ _ _ HI v Hv). destruct (_ <? _); lia.
Qed.

Lemma Phi_nonneg x rank : 0 <= Phi x rank.
Proof. apply zsum_nonneg. intros v _. destruct (_ <? _); lia. Qed.

(** the invariant of the while loop *)
Record linv (p x : nat -> Z) (rank : nat -> nat) (todo : nat -> list nat) (kf : nat -> Z) : Prop := {
  li_r : rinv h p x rank todo;
  li_p : forall v, (v <= n)%nat -> p v = p0 v + h * kf v;
  li_k : forall v, (v <= n)%nat -> 0 <= kf v <= Kmax;
  li_neg : forall v, (v <= n)%nat -> exc x v < 0 -> p v = p0 v
}.

Definition work (x : nat -> Z) rank todo kf : Z := Am * Rm kf + Bm * Cm todo + Phi x rank.

Lemma Rm_nonneg p x rank todo kf : linv p x rank todo kf -> 0 <= Rm kf.
Proof. intros HI. apply zsum_nonneg. intros v Hv. apply in_nodes in Hv. assert (B := li_k _ _ _ _ _ HI v Hv). lia. Qed.

(** a node with positive excess has been raised at most 3n times *)
Lemma raised p x rank todo kf u : opt eps p0 x0 -> linv p x rank todo kf -> (u <= n)%nat -> 0 < exc x u -> kf u <= 3 * Z.of_nat n.
Proof.
  intros Hopt0 [H1 H2 H3 H4] Hu Hx.
  assert (B := pot_bound _ _ _ _ _ _ _ net eps h p0 x0 p x u ltac:(lia) Hopt0 Hcirc0 (ri_opt _ _ _ _ _ _ _ _ H1)).
  specialize (B ltac:(intros v Hv; rewrite H2 by auto; specialize (H3 v Hv); nia) H4 Hu Hx).
  rewrite H2 in B by auto. nia.
Qed.

Variable head : list (option nat).
Hypothesis Hhead : vec head (n + 1) hd.

Lemma modify_ok fuel s u p x rank todo kf vis : (2 * m <= fuel)%nat -> (u <= n)%nat ->
  rst s p x todo vis -> linv p x rank todo kf -> 0 < exc x u -> kf u < Kmax ->
  (forall v, (v <= n)%nat -> v <> u -> vis v = act x v) -> vis u = false ->
  exists s' p' x' rank' todo' kf', modify fuel eps head u s = Ok s' /\ rst s' p' x' todo' (act x') /\
    linv p' x' rank' todo' kf' /\ work x' rank' todo' kf' < work x rank todo kf.
Proof.
  intros Hf Hu HS HI Hx Hk Hv Hvu. unfold modify.
  rewrite (vec_get _ _ _ _ (rs_exc _ _ _ _ _ HS)) by lia. cbn [bind dlt dzero exact_ops].
  assert (Ex : (0 <? exc x u) = true) by (apply Z.ltb_lt; auto). rewrite Ex. cbn [assert_ bind].
  assert (HI' := HI). destruct HI' as [I1 I2 I3 I4].
  assert (Hlen : (length (todo u) <= fuel)%nat).
  { destruct (ri_sub _ _ _ _ _ _ _ _ I1 u Hu) as (pre & E). assert (B := sG_len A u). rewrite E, app_length in B. lia. }
  destruct (scan_ok u p rank Hu (todo u) fuel s x todo vis Hlen HS I1 eq_refl Hx Hv Hvu I4)
    as (b & s1 & x1 & todo1 & vis1 & Q1 & Q2 & Q3 & Q4 & Q5 & Q6 & Q7 & Q8).
  rewrite Q1. cbn [bind]. destruct b.
  - exists s1, p, x1, rank, todo1, kf. split; [reflexivity|]. split; [|split].
    + destruct Q2 as [T1 T2 T3 T4 T5 T6 [T7 T8]].
      assert (Ea : forall v, (v <= n)%nat -> vis1 v = act x1 v).
      { intros v Hv1. destruct (Nat.eq_dec v u) as [->|N]; auto. rewrite Q5. unfold act. rewrite Q8. reflexivity. }
      constructor; auto; [eapply vec_ext; [exact T6|intros i Hi; apply Ea; lia]|].
      split; auto. intros v. rewrite T8. split; intros [Z1 Z2]; split; auto; [rewrite <- Ea|rewrite Ea]; auto.
    + constructor; auto.
    + unfold work. lia.
  - destruct Q8 as [Q8 Q9]. rewrite (vec_get _ _ _ _ (rs_exc _ _ _ _ _ Q2)) by lia. cbn [bind dlt dzero exact_ops].
    assert (Ex1 : (0 <? exc x1 u) = true) by (apply Z.ltb_lt; auto). rewrite Ex1. cbn [assert_ bind].
    destruct Q2 as [T1 T2 T3 T4 T5 T6 [T7 T8]].
    unfold relabel, vadd. rewrite (vec_get _ _ _ _ T2) by lia. cbn [bind]. rewrite (vec_set _ _ _ _ _ T2) by lia. cbn [bind].
    rewrite (vec_get _ _ _ _ T4) by lia. cbn [bind]. rewrite (vec_set _ _ _ _ _ T4) by lia. cbn [bind].
    rewrite (vec_get _ _ _ _ Hhead) by lia. cbn [bind r_cur r_vis r_edge r_p r_exc r_inc r_st].
    destruct T5 as (cur & T5 & T5'). rewrite (vec_set _ _ _ _ _ T5) by lia. cbn [bind].
    rewrite (vec_set _ _ _ _ _ T6) by lia. cbn [bind dhalf dadd exact_ops].
    assert (Eh : Z.quot eps 2 = h) by (rewrite Heps, Z.mul_comm; apply Z.quot_mul; lia). rewrite Eh.
    assert (L1 : linv p x1 rank todo1 kf) by (constructor; auto).
    assert (Hk0 := I3 u Hu).
    set (kf' := fup kf u (kf u + 1)).
    assert (LI : linv (fup p u (p u + h)) x1 (rerank n rank u) (fup todo1 u (sG A u)) kf').
    { constructor.
      - apply rinv_relabel; auto.
      - intros v Hv1. unfold kf', fup. destruct (Nat.eqb_spec v u) as [->|N]; [rewrite I2 by auto; lia|auto].
      - intros v Hv1. unfold kf', fup. destruct (Nat.eqb_spec v u) as [->|N]; [lia|auto].
      - intros v Hv1 Hn. unfold fup. destruct (Nat.eqb_spec v u) as [->|N]; [lia|auto]. }
    eexists _, (fup p u (p u + h)), x1, (rerank n rank u), (fup todo1 u (sG A u)), kf'.
    split; [reflexivity|]. split; [|split; [exact LI|]].
    + constructor; cbn [r_edge r_p r_exc r_inc r_cur r_vis r_st]; auto.
      * apply vec_upd; auto; lia.
      * eapply vec_ext; [apply vec_upd; [exact T4|lia]|]. intros i Hi. unfold fup.
        destruct (Nat.eqb_spec i u) as [->|N]; [lia|reflexivity].
      * exists (fup cur u (hd u)). split; [apply vec_upd; auto; lia|].
        intros v Hv1. unfold fup. destruct (Nat.eqb_spec v u) as [->|N]; auto.
      * eapply vec_ext; [apply vec_upd; [exact T6|lia]|]. intros i Hi. unfold fup.
        destruct (Nat.eqb_spec i u) as [->|N]; [unfold act; symmetry; apply Z.ltb_lt; auto|apply Q4; auto; lia].
      * split.
        -- constructor; auto. intros Hi. apply T8 in Hi. destruct Hi; congruence.
        -- intros v. cbn [In]. rewrite T8. split.
           ++ intros [<-|[Z1 Z2]]; [split; auto; unfold act; apply Z.ltb_lt; auto|]. split; auto.
              rewrite <- Q4; auto. intros ->. congruence.
           ++ intros [Z1 Z2]. destruct (Nat.eq_dec v u) as [->|N]; auto. right. split; auto. rewrite Q4; auto.
    + assert (ER : Rm kf' = Rm kf - 1).
      { unfold Rm. rewrite (zsum_point nodes u (fun v => Kmax - kf v)).
        - unfold kf'. rewrite fup_eq. lia.
        - apply seq_NoDup.
        - apply in_nodes; auto.
        - intros k _ Hk2. unfold kf'. rewrite fup_neq by auto. reflexivity. }
      assert (C1 := Cm_le _ _ _ _ _ (li_r _ _ _ _ _ LI)). assert (P1 := Phi_le _ _ _ _ _ (li_r _ _ _ _ _ LI)).
      assert (C0 := Cm_nonneg todo). assert (P0 := Phi_nonneg x rank). assert (R0 := Rm_nonneg _ _ _ _ _ LI).
      unfold work. rewrite ER. clear - C1 P1 C0 P0. nia.
Qed.

Lemma all_zero x : (forall v, (v <= n)%nat -> exc x v <= 0) -> forall v, (v <= n)%nat -> exc x v = 0.
Proof.
  intros H v Hv. destruct (Z.eq_dec (exc x v) 0) as [|Hn]; auto. exfalso.
  destruct (sum_neg_exists nodes (fun v => - exc x v) v) as (u & Hu & Hun).
  - rewrite (zsum_ext _ _ (fun v => (-1) * exc x v)) by (intros; lia). rewrite zsum_scale, (sum_exc_all _ _ _ _ _ _ _ net). lia.
  - apply in_nodes; auto.
  - specialize (H v Hv). lia.
  - apply in_nodes in Hu. specialize (H u Hu). lia.
Qed.

(** CostScaling.cpp:70-78 *)
Lemma refine_loop_ok fuel : (2 * m <= fuel)%nat -> forall k s p x rank todo kf, work x rank todo kf < Z.of_nat k ->
  rst s p x todo (act x) -> linv p x rank todo kf ->
  exists b s', refine_loop fuel k eps (n + 1) head s = Ok (b, s') /\ (opt eps p0 x0 -> b = true) /\
    (b = true -> exists p' x', vec (r_edge s') (2 * m) (arcf x') /\ vec (r_p s') (n + 1) p' /\ opt h p' x' /\
       forall v, (v <= n)%nat -> exc x' v = 0).
Proof.
  intros Hf. induction k as [|k IH]; intros s p x rank todo kf Hk HS HI.
  - exfalso. assert (R0 := Rm_nonneg _ _ _ _ _ HI). assert (C0 := Cm_nonneg todo). assert (P0 := Phi_nonneg x rank).
    unfold work in Hk. assert (0 <= Bm * Cm todo) by (apply Z.mul_nonneg_nonneg; lia).
    assert (0 <= Am * Rm kf) by (apply Z.mul_nonneg_nonneg; auto; clear; nia). lia.
  - cbn [refine_loop]. destruct (rs_st _ _ _ _ _ HS) as [S1 S2]. destruct (r_st s) as [|u st] eqn:Es.
    + exists true, s. split; [reflexivity|]. split; [reflexivity|]. intros _. exists p, x. split; [apply (rs_edge _ _ _ _ _ HS)|]. split; [apply (rs_p _ _ _ _ _ HS)|].
      split; [apply (ri_opt _ _ _ _ _ _ _ _ (li_r _ _ _ _ _ HI))|]. apply all_zero. intros v Hv.
      destruct (Z.le_gt_cases (exc x v) 0); auto. exfalso. apply (S2 v). split; auto. unfold act. apply Z.ltb_lt. lia.
    + destruct (proj1 (S2 u) (or_introl eq_refl)) as [Hu Hact]. unfold act in Hact. apply Z.ltb_lt in Hact.
      rewrite (vec_set _ _ _ _ _ (rs_vis _ _ _ _ _ HS)) by lia. cbn [bind r_inc].
      rewrite (vec_get _ _ _ _ (rs_inc _ _ _ _ _ HS)) by lia. cbn [bind dlt dmuli exact_ops].
      assert (Hk0 := li_k _ _ _ _ _ HI u Hu). assert (Ep := li_p _ _ _ _ _ HI u Hu).
      destruct (Z.ltb_spec (eps * 3 * Z.of_nat (n + 1)) (p u - p0 u)) as [Hbig|Hsm].
      { eexists false, _. split; [reflexivity|]. split; [|discriminate]. intros Ho.
        assert (Hr := raised _ _ _ _ _ u Ho HI Hu Hact). exfalso. rewrite Ep in Hbig. clear - Hbig Hr Hk0 Hh Heps. nia. }
      assert (Hku : kf u < Kmax) by (rewrite Ep in Hsm; clear - Hsm Hk0 Hh Heps; nia).
      destruct (modify_ok fuel (mkR (r_edge s) (r_p s) (r_exc s) (r_inc s) (r_cur s) (upd (r_vis s) u false) st) u p x rank todo kf (fup (act x) u false))
        as (s1 & p1 & x1 & rank1 & todo1 & kf1 & M1 & M2 & M3 & M4); auto.
      { destruct HS as [T1 T2 T3 T4 T5 T6 T7]. constructor; cbn [r_edge r_p r_exc r_inc r_cur r_vis r_st]; auto.
        - apply vec_upd; auto; lia.
        - inversion S1; subst. split; auto. intros v. unfold fup. destruct (Nat.eqb_spec v u) as [->|N].
          + split; [intros; contradiction|intros [_ Q]; discriminate].
          + rewrite <- S2. cbn [In]. intuition congruence. }
      { intros v Hv N. apply fup_neq; auto. }
      { apply fup_eq. }
      rewrite M1. cbn [bind]. apply (IH s1 p1 x1 rank1 todo1 kf1); auto. lia.
Qed.

Definition refine_fuel : Z := Am * ((Z.of_nat n + 1) * Kmax) + Bm * Cmax + Pmax + 1.

Lemma init_stack_ok X x : vec X (n + 1) (exc x) -> exists vis st,
  init_stack X (repeat false (n + 1)) (n + 1) = Ok (vis, st) /\ vec vis (n + 1) (act x) /\
  NoDup st /\ forall v, In v st <-> (v <= n)%nat /\ act x v = true.
Proof.
  intros HX. unfold init_stack.
  destruct (for_each_inv (fun pre (st : list bool * list nat) =>
      vec (fst st) (n + 1) (fun v => if in_dec Nat.eq_dec v pre then act x v else false) /\
      NoDup (snd st) /\ forall v, In v (snd st) <-> In v pre /\ act x v = true)
    (fun '(vis, st) u => y <- vget X u ;; if dlt dzero y then vis <- vset vis u true ;; Ok (vis, u :: st) else Ok (vis, st))
    (seq 0 (n + 1)) (repeat false (n + 1), [])) as ([vis st] & E & H1 & H2 & H3).
  - cbn [fst snd]. split; [eapply vec_ext; [apply vec_repeat|reflexivity]|]. split; [constructor|]. intros v. cbn [In]. tauto.
  - intros pre u post [vis st] Ep (H1 & H2 & H3). cbn [fst snd] in *.
    assert (Hu : (u <= n)%nat).
    { assert (Hin : In u (seq 0 (n + 1))) by (rewrite Ep; apply in_or_app; simpl; auto). apply in_seq in Hin. lia. }
    assert (Hnp : ~ In u pre).
    { assert (ND := seq_NoDup (n + 1) 0). rewrite Ep in ND. apply NoDup_remove_2 in ND. intros Hi. apply ND, in_or_app; auto. }
    rewrite (vec_get _ _ _ _ HX) by lia. cbn [bind dlt dzero exact_ops].
    assert (Hcase : forall v, v <> u -> (if in_dec Nat.eq_dec v pre then act x v else false) =
       (if in_dec Nat.eq_dec v (pre ++ [u]) then act x v else false)).
    { intros v N. destruct (in_dec Nat.eq_dec v pre) as [I1|I1], (in_dec Nat.eq_dec v (pre ++ [u])) as [I2|I2]; auto; exfalso.
      - apply I2, in_or_app; auto.
      - apply in_app_or in I2. destruct I2 as [I2|[I2|[]]]; congruence. }
    assert (Huu : (if in_dec Nat.eq_dec u (pre ++ [u]) then act x u else false) = act x u).
    { destruct (in_dec Nat.eq_dec u (pre ++ [u])) as [|I]; auto. exfalso. apply I, in_or_app. simpl; auto. }
    fold (act x u). destruct (act x u) eqn:Ea.
    + rewrite (vec_set _ _ _ _ _ H1) by lia. cbn [bind]. eexists (_, _). split; [reflexivity|]. cbn [fst snd]. split; [|split].
      * eapply vec_ext; [apply vec_upd; [exact H1|lia]|]. intros i Hi. unfold fup.
        destruct (Nat.eqb_spec i u) as [->|N]; [rewrite Ea, Huu; auto|auto].
      * constructor; auto. rewrite H3. tauto.
      * intros v. cbn [In]. rewrite H3, in_app_iff. cbn [In]. intuition (subst; auto).
    + exists (vis, st). split; [reflexivity|]. cbn [fst snd]. split; [|split]; auto.
      * eapply vec_ext; [exact H1|]. intros i Hi. cbv beta. destruct (Nat.eq_dec i u) as [->|N]; [|auto].
        rewrite Ea, Huu. destruct (in_dec Nat.eq_dec u pre); [contradiction|auto].
      * intros v. rewrite H3, in_app_iff. cbn [In]. intuition (subst; try congruence; auto).
  - exists vis, st. cbn [fst snd] in *. split; auto. split; [|split; auto].
    + eapply vec_ext; [exact H1|]. intros i Hi. cbv beta. destruct (in_dec Nat.eq_dec i (seq 0 (n + 1))) as [|I]; auto.
      exfalso. apply I, in_seq. lia.
    + intros v. rewrite H3, in_seq. intuition lia.
Qed.

Theorem refine_ok fuel cs : refine_fuel <= Z.of_nat fuel -> c_N cs = (n + 1)%nat -> c_eps cs = eps -> c_head cs = head ->
  vec (c_p cs) (n + 1) p0 -> vec (c_edge cs) (2 * m) (arcf x0) ->
  exists b cs', refine fuel cs = Ok (b, cs') /\ (opt eps p0 x0 -> b = true) /\
    (b = true -> c_N cs' = c_N cs /\ c_eps cs' = eps /\ c_head cs' = head /\ c_total cs' = c_total cs /\
     exists p' x', vec (c_p cs') (n + 1) p' /\ vec (c_edge cs') (2 * m) (arcf x') /\ opt h p' x' /\
       forall v, (v <= n)%nat -> exc x' v = 0).
Proof.
  intros Hf EN Ee Eh HP HE. unfold refine. rewrite EN, Ee, Eh.
  assert (Hm : (2 * m <= fuel)%nat).
  { unfold refine_fuel in Hf. assert (2 * Z.of_nat m <= Z.of_nat fuel) by (clear - Hf; nia). lia. }
  destruct (saturate_all_ok (c_p cs) p0 HP fuel cs x0) as (E & X & x1 & S1 & S2 & S3 & S4); auto.
  { rewrite Eh; auto. }
  rewrite S1. cbn [bind]. destruct (init_stack_ok X x1 S3) as (vis & st & T1 & T2 & T3 & T4). rewrite T1. cbn [bind].
  assert (LI : linv p0 x1 (fun v => v) (sG A) (fun _ => 0)).
  { constructor.
    - apply rinv_init; auto. lia.
    - intros; lia.
    - intros; lia.
    - auto. }
  destruct (refine_loop_ok fuel Hm fuel (mkR E (c_p cs) X (repeat dzero (n + 1)) head vis st) p0 x1 (fun v => v) (sG A) (fun _ => 0))
    as (b & s' & R1 & R2 & R3); auto.
  - assert (C1 := Cm_le _ _ _ _ _ (li_r _ _ _ _ _ LI)). assert (P1 := Phi_le _ _ _ _ _ (li_r _ _ _ _ _ LI)).
    assert (ER : Rm (fun _ => 0) <= (Z.of_nat n + 1) * Kmax).
    { unfold Rm. eapply Z.le_trans; [apply (zsum_const_le _ _ Kmax); intros; lia|]. rewrite nodes_len. lia. }
    unfold work, refine_fuel in *. assert (0 < Am) by (clear; nia).
    assert (Am * Rm (fun _ => 0) <= Am * ((Z.of_nat n + 1) * Kmax)) by (apply Z.mul_le_mono_nonneg_l; lia).
    assert (Bm * Cm (sG A) <= Bm * Cmax) by (apply Z.mul_le_mono_nonneg_l; lia). lia.
  - constructor; cbn [r_edge r_p r_exc r_inc r_cur r_vis r_st]; auto.
    + eapply vec_ext; [apply vec_repeat|]. intros i Hi. cbn [dzero exact_ops]. lia.
    + exists hd. split; auto.
  - rewrite R1. cbn [bind]. eexists b, _. split; [reflexivity|]. split; auto. cbn [c_N c_eps c_head c_total c_p c_edge].
    intros Eb. destruct (R3 Eb) as (p' & x' & Q1 & Q2 & Q3 & Q4). repeat (split; auto). exists p', x'. auto.
Qed.

End Refine.
