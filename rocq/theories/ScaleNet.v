(** * The network of CostScaling, on plain functions *)
From Verif Require Import Base BaseLemmas Data ProblemDefine Flow CostScaling Sums NetMath.
Local Open Scope Z_scope.

(** following the links of an adjacency list *)
Fixpoint linked (nx : nat -> option nat) (h : option nat) (L : list nat) : Prop :=
  match L with [] => h = None | e :: L => h = Some e /\ linked nx (nx e) L end.

Section Net.
Variable one : Z.
Variables (n : nat) (A : list (InputEdge Z)).
Notation m := (length A).

Definition ak (k : nat) : InputEdge Z := nth k A (mkIn 0 0 0 0).
Definition sei (e : nat) : nat := if Nat.even e then in_u (ak (Nat.div2 e)) else in_v (ak (Nat.div2 e)).
Definition sej (e : nat) : nat := if Nat.even e then in_v (ak (Nat.div2 e)) else in_u (ak (Nat.div2 e)).
Definition sc (e : nat) : Z := if Nat.even e then in_cost (ak (Nat.div2 e)) else - in_cost (ak (Nat.div2 e)).
Definition scap (e : nat) : Z := in_cap (ak (Nat.div2 e)).
(** largest flow along [e] *)
Definition sub (e : nat) : Z := if Nat.even e then scap e else 0.
Definition slft (e : nat) (a : Z) : Z := if one * sc e <? a then sub e else sub e - scap e.
Definition sG (u : nat) : list nat := filter (fun e => Nat.eqb (sei e) u) (rev (seq 0 (2 * m))).

Record arcs_ok : Prop := {
  ao_u : forall a, In a A -> (in_u a <= n)%nat /\ (in_v a <= n)%nat /\ in_u a <> in_v a;
  ao_cap : forall a, In a A -> 0 <= in_cap a
}.
Hypothesis HA : arcs_ok.

Lemma ak_in k : (k < m)%nat -> In (ak k) A.
Proof. intros H. apply nth_In; auto. Qed.

Lemma in_sG u e : In e (sG u) <-> (e < 2 * m)%nat /\ sei e = u.
Proof.
  unfold sG. rewrite filter_In, <- in_rev, in_seq, Nat.eqb_eq. intuition lia.
Qed.

Lemma sG_len u : (length (sG u) <= 2 * m)%nat.
Proof.
  apply Nat.le_trans with (length (rev (seq 0 (2 * m)))); [|rewrite rev_length, seq_length; lia].
  unfold sG. generalize (rev (seq 0 (2 * m))). intros L. induction L as [|a L IH]; cbn [filter length]; [lia|].
  destruct (Nat.eqb (sei a) u); cbn [length]; lia.
Qed.

Lemma sc_rev e : sc (rev_id e) = - sc e.
Proof. unfold sc. rewrite even_rev, div2_rev. destruct (Nat.even e); simpl; lia. Qed.
Lemma scap_rev e : scap (rev_id e) = scap e.
Proof. unfold scap. rewrite div2_rev. reflexivity. Qed.
Lemma sub_rev e : sub (rev_id e) = scap e - sub e.
Proof. unfold sub. rewrite even_rev, scap_rev. destruct (Nat.even e); simpl; lia. Qed.
Lemma sei_rev e : sei (rev_id e) = sej e.
Proof. unfold sei, sej. rewrite even_rev, div2_rev. destruct (Nat.even e); reflexivity. Qed.
Lemma sej_rev e : sej (rev_id e) = sei e.
Proof. unfold sei, sej. rewrite even_rev, div2_rev. destruct (Nat.even e); reflexivity. Qed.

Lemma scap_nonneg e : (e < 2 * m)%nat -> 0 <= scap e.
Proof. intros H. apply (ao_cap HA), ak_in, div2_lt; auto. Qed.
Lemma sub_bounds e : (e < 2 * m)%nat -> 0 <= sub e <= scap e.
Proof. intros H. assert (B := scap_nonneg e H). unfold sub. destruct (Nat.even e); lia. Qed.
Lemma sei_le e : (e < 2 * m)%nat -> (sei e <= n)%nat.
Proof.
  intros H. destruct (ao_u HA (ak (Nat.div2 e))) as (H1 & H2 & _); [apply ak_in, div2_lt; auto|].
  unfold sei. destruct (Nat.even e); auto.
Qed.
Lemma sej_le e : (e < 2 * m)%nat -> (sej e <= n)%nat.
Proof. intros H. rewrite <- sei_rev. apply sei_le, rev_lt; auto. Qed.
Lemma no_loop e : (e < 2 * m)%nat -> sei e <> sej e.
Proof.
  intros H. destruct (ao_u HA (ak (Nat.div2 e))) as (_ & _ & H3); [apply ak_in, div2_lt; auto|].
  unfold sei, sej. destruct (Nat.even e); auto.
Qed.

Definition allcap : Z := zsum A in_cap.
Lemma scap_all e : (e < 2 * m)%nat -> scap e <= allcap.
Proof.
  intros H. unfold scap, allcap.
  assert (Hi := ak_in _ (div2_lt _ _ H)). apply in_split in Hi. destruct Hi as (l1 & l2 & E).
  assert (C := ao_cap HA). rewrite E in C |- *. rewrite zsum_app. cbn [zsum].
  assert (B1 := zsum_nonneg l1 in_cap ltac:(intros; apply C, in_or_app; auto)).
  assert (B2 := zsum_nonneg l2 in_cap ltac:(intros; apply C, in_or_app; simpl; auto)). rewrite <- E in *. lia.
Qed.

Lemma scale_netok : netok n m allcap sei sej sG slft.
Proof.
  constructor.
  - apply sei_le.
  - intros e _. apply sei_rev.
  - intros v e _. apply in_sG.
  - intros e a He. assert (B := sub_bounds e He). assert (C := scap_all e He). unfold slft. destruct (_ <? _); lia.
  - intros e a b He Hab. assert (B := scap_nonneg e He). unfold slft.
    destruct (Z.ltb_spec (one * sc e) a), (Z.ltb_spec (one * sc e) b); lia.
  - intros e a He. assert (B := scap_nonneg e He). unfold slft. rewrite sc_rev, sub_rev, scap_rev.
    destruct (Z.ltb_spec (one * sc e) a), (Z.ltb_spec (one * - sc e) (- a)); lia.
  - intros e a b He Hab. assert (B := scap_nonneg e He). unfold slft. rewrite sc_rev, sub_rev, scap_rev.
    destruct (Z.ltb_spec (one * sc e) b), (Z.ltb_spec (one * - sc e) (- a)); lia.
Qed.

Notation pe := (pe sei sej).
Notation exc := (exc m sei sej).
Notation opt := (opt m sei sej slft).
Notation nodes := (nodes n).

(** residual capacity: the number stored in [edge[e].capacity] *)
Definition rc (x : nat -> Z) (e : nat) : Z := sub e - xd x e.
(** the value of CostPi *)
Definition cpi (p : nat -> Z) (e : nat) : Z := one * sc e - pe p e.

Lemma rc_rev x e : rc x (rev_id e) = scap e - rc x e.
Proof. unfold rc. rewrite sub_rev, xd_rev. lia. Qed.
Lemma cpi_rev p e : (e < 2 * m)%nat -> cpi p (rev_id e) = - cpi p e.
Proof. intros H. unfold cpi. rewrite sc_rev, (pe_rev _ _ _ _ _ _ _ scale_netok) by auto. lia. Qed.

Definition inrange (x : nat -> Z) : Prop := forall e, (e < 2 * m)%nat -> 0 <= rc x e.

Lemma opt_iff k p x : opt k p x <-> inrange x /\ forall e, (e < 2 * m)%nat -> 0 < rc x e -> - k <= cpi p e.
Proof.
  unfold NetMath.opt, inrange. split.
  - intros H. split.
    + intros e He. assert (A1 := H _ (rev_lt _ _ He)). assert (B := scap_nonneg e He).
      unfold slft in A1. rewrite sc_rev, sub_rev, scap_rev, xd_rev in A1. unfold rc.
      destruct (_ <? _); lia.
    + intros e He Hr. assert (A1 := H e He). unfold slft, rc, cpi in *.
      destruct (Z.ltb_spec (one * sc e) (pe p e - k)); lia.
  - intros [H1 H2] e He. specialize (H2 e He). assert (A1 := H1 _ (rev_lt _ _ He)). specialize (H1 e He).
    rewrite rc_rev in A1. unfold slft, rc, cpi in *. destruct (Z.ltb_spec (one * sc e) (pe p e - k)); lia.
Qed.

Lemma rc_xadd_eq x e d : rc (xadd x e d) e = rc x e - d.
Proof. unfold rc. rewrite xd_xadd_eq. lia. Qed.
Lemma rc_xadd_rev x e d : rc (xadd x e d) (rev_id e) = rc x (rev_id e) + d.
Proof. unfold rc. rewrite xd_xadd_rev. lia. Qed.
Lemma rc_xadd_neq x e d e' : e' <> e -> e' <> rev_id e -> rc (xadd x e d) e' = rc x e'.
Proof.
  intros H1 H2. unfold rc. rewrite xd_xadd_neq; auto. intros H. symmetry in H. apply same_arc in H. tauto.
Qed.

(** ** The invariant of Refine *)
Definition adm (p x : nat -> Z) (e : nat) : Prop := 0 < rc x e /\ cpi p e < 0.

Record rinv (h : Z) (p x : nat -> Z) (rank : nat -> nat) (todo : nat -> list nat) : Prop := {
  ri_opt : opt h p x;
  ri_rank : forall e, (e < 2 * m)%nat -> adm p x e -> (rank (sej e) < rank (sei e))%nat;
  ri_rk_le : forall v, (v <= n)%nat -> (rank v <= n)%nat;
  ri_rk_inj : forall v w, (v <= n)%nat -> (w <= n)%nat -> rank v = rank w -> v = w;
  ri_todo : forall e, (e < 2 * m)%nat -> ~ In e (todo (sei e)) -> ~ adm p x e;
  ri_sub : forall v, (v <= n)%nat -> exists pre, sG v = pre ++ todo v
}.

Lemma opt_weaken k k' p x : k <= k' -> opt k p x -> opt k' p x.
Proof. intros Hk. rewrite !opt_iff. intros [H1 H2]. split; auto. intros e He Hr. specialize (H2 e He Hr). lia. Qed.

Lemma rinv_init h p x : 0 <= h -> opt 0 p x -> rinv h p x (fun v => v) sG.
Proof.
  intros Hh Ho. assert (Hc : forall e, (e < 2 * m)%nat -> ~ adm p x e).
  { intros e He [H1 H2]. apply opt_iff in Ho. destruct Ho as [_ Ho]. specialize (Ho e He H1). lia. }
  constructor; auto.
  - apply opt_weaken with 0; auto.
  - intros e He Ha. destruct (Hc e He Ha).
  - intros v Hv. exists []. reflexivity.
Qed.

(** pushing [d] along an arc with negative reduced cost *)
Lemma rinv_push h p x rank todo e d : 0 <= h -> rinv h p x rank todo -> (e < 2 * m)%nat -> cpi p e < 0 -> 0 <= d <= rc x e ->
  rinv h p (xadd x e d) rank todo.
Proof.
  intros Hh [H1 H2 H3 H4 H5 H6] He Hc Hd. apply opt_iff in H1. destruct H1 as [R1 R2].
  assert (Cr := cpi_rev p e He).
  assert (Hcase : forall e', (e' < 2 * m)%nat -> e' = rev_id e \/ (0 < rc (xadd x e d) e' -> 0 < rc x e')).
  { intros e' He'. destruct (Nat.eq_dec e' (rev_id e)) as [->|N1]; auto. right.
    destruct (Nat.eq_dec e' e) as [->|N2]; [rewrite rc_xadd_eq; lia|]. rewrite rc_xadd_neq; auto. }
  assert (Hadm : forall e', (e' < 2 * m)%nat -> adm p (xadd x e d) e' -> adm p x e').
  { intros e' He' [Q1 Q2]. destruct (Hcase e' He') as [->|Q]; [lia|]. split; auto. }
  constructor; auto.
  - apply opt_iff. split.
    + intros e' He'. destruct (Nat.eq_dec e' (rev_id e)) as [->|N1].
      * rewrite rc_xadd_rev. specialize (R1 _ (rev_lt _ _ He)). lia.
      * destruct (Nat.eq_dec e' e) as [->|N2]; [rewrite rc_xadd_eq; lia|]. rewrite rc_xadd_neq; auto.
    + intros e' He' Hr. destruct (Hcase e' He') as [->|Q]; [lia|auto].
  - intros e' He' Hn Ha. apply (H5 e' He' Hn). auto.
Qed.

(** advancing the current arc of [u] past [e] *)
Lemma rinv_next h p x rank todo u e L : rinv h p x rank todo -> (u <= n)%nat -> todo u = e :: L -> ~ adm p x e ->
  rinv h p x rank (fup todo u L).
Proof.
  intros [H1 H2 H3 H4 H5 H6] Hu Et Hn. constructor; auto.
  - intros e' He' Hi Ha. destruct (Nat.eq_dec e' e) as [->|N1]; [auto|].
    apply (H5 e' He'); auto. intros Hin. apply Hi. destruct (Nat.eq_dec (sei e') u) as [Eu|Nu].
    + rewrite Eu in *. rewrite fup_eq. rewrite Et in Hin. destruct Hin; congruence.
    + rewrite fup_neq by auto. auto.
  - intros v Hv. destruct (Nat.eq_dec v u) as [->|Nu].
    + rewrite fup_eq. destruct (H6 u Hu) as (pre & E). exists (pre ++ [e]). rewrite E, Et, <- app_assoc. reflexivity.
    + rewrite fup_neq by auto. auto.
Qed.

(** raising the potential of a node without admissible arcs *)
Definition rerank (rank : nat -> nat) (u : nat) : nat -> nat :=
  fun v => if Nat.eqb v u then n else if (rank u <? rank v)%nat then pred (rank v) else rank v.

Lemma cpi_raise p u h e : (e < 2 * m)%nat ->
  cpi (fup p u (p u + h)) e = cpi p e - (if Nat.eqb (sei e) u then h else 0) + (if Nat.eqb (sej e) u then h else 0).
Proof.
  intros He. unfold cpi, NetMath.pe, fup.
  destruct (Nat.eqb_spec (sei e) u) as [E1|E1], (Nat.eqb_spec (sej e) u) as [E2|E2]; rewrite ?E1, ?E2; lia.
Qed.

Lemma rinv_relabel h p x rank todo u : 0 < h -> rinv h p x rank todo -> (u <= n)%nat -> todo u = [] ->
  rinv h (fup p u (p u + h)) x (rerank rank u) (fup todo u (sG u)).
Proof.
  intros Hh [H1 H2 H3 H4 H5 H6] Hu Et. apply opt_iff in H1. destruct H1 as [R1 R2].
  assert (Hout : forall e, (e < 2 * m)%nat -> sei e = u -> 0 < rc x e -> 0 <= cpi p e).
  { intros e He Eu Hr. destruct (Z.le_gt_cases 0 (cpi p e)); auto. exfalso. apply (H5 e He); [|split; auto].
    rewrite Eu, Et. intros []. }
  assert (Hin : forall e, (e < 2 * m)%nat -> sej e = u -> ~ adm (fup p u (p u + h)) x e).
  { intros e He Eu [Q1 Q2]. rewrite cpi_raise in Q2 by auto. rewrite Eu, Nat.eqb_refl in Q2.
    assert (NL := no_loop e He). destruct (Nat.eqb_spec (sei e) u); [congruence|]. specialize (R2 e He Q1). lia. }
  assert (Hsame : forall e, (e < 2 * m)%nat -> sei e <> u -> sej e <> u -> adm (fup p u (p u + h)) x e -> adm p x e).
  { intros e He N1 N2 [Q1 Q2]. split; auto. rewrite cpi_raise in Q2 by auto.
    destruct (Nat.eqb_spec (sei e) u), (Nat.eqb_spec (sej e) u); try contradiction. lia. }
  constructor.
  - apply opt_iff. split; auto. intros e He Hr. rewrite cpi_raise by auto. specialize (R2 e He Hr).
    assert (NL := no_loop e He).
    destruct (Nat.eqb_spec (sei e) u), (Nat.eqb_spec (sej e) u); try congruence; try lia.
    specialize (Hout e He ltac:(auto) Hr). lia.
  - intros e He Ha. assert (NL := no_loop e He).
    assert (B1 := sei_le e He). assert (B2 := sej_le e He).
    destruct (Nat.eq_dec (sej e) u) as [Ej|Nj]; [destruct (Hin e He Ej Ha)|].
    assert (K1 := H3 _ B2). assert (K2 := H3 _ B1). assert (K3 := H3 u Hu).
    assert (I1 := H4 _ _ B2 Hu). assert (I2 := H4 _ _ B1 Hu).
    unfold rerank. destruct (Nat.eqb_spec (sej e) u); [congruence|].
    destruct (Nat.eqb_spec (sei e) u) as [Ei|Ni].
    + destruct (Nat.ltb_spec (rank u) (rank (sej e))); [lia|].
      destruct (Nat.eq_dec (rank (sej e)) (rank u)); [exfalso; auto|lia].
    + assert (K := H2 e He (Hsame e He Ni Nj Ha)).
      destruct (Nat.ltb_spec (rank u) (rank (sej e))), (Nat.ltb_spec (rank u) (rank (sei e))); try lia.
  - intros v Hv. unfold rerank. destruct (Nat.eqb_spec v u); [lia|]. specialize (H3 v Hv).
    destruct (Nat.ltb_spec (rank u) (rank v)); lia.
  - intros v w Hv Hw E. unfold rerank in E.
    assert (K1 := H3 v Hv). assert (K2 := H3 w Hw). assert (K3 := H3 u Hu).
    assert (I0 := H4 v w Hv Hw). assert (I1 := H4 v u Hv Hu). assert (I2 := H4 w u Hw Hu).
    destruct (Nat.eqb_spec v u) as [Ev|Nv], (Nat.eqb_spec w u) as [Ew|Nw].
    + congruence.
    + exfalso. destruct (Nat.ltb_spec (rank u) (rank w)); [lia|]. apply Nw, I2. lia.
    + exfalso. destruct (Nat.ltb_spec (rank u) (rank v)); [lia|]. apply Nv, I1. lia.
    + apply I0. destruct (Nat.ltb_spec (rank u) (rank v)), (Nat.ltb_spec (rank u) (rank w)); try lia.
  - intros e He Hi Ha. assert (NL := no_loop e He).
    destruct (Nat.eq_dec (sei e) u) as [Ei|Ni].
    { apply Hi. rewrite Ei, fup_eq. apply in_sG. auto. }
    rewrite fup_neq in Hi by auto.
    destruct (Nat.eq_dec (sej e) u) as [Ej|Nj]; [apply (Hin e He Ej Ha)|].
    apply (H5 e He Hi). auto.
  - intros v Hv. destruct (Nat.eq_dec v u) as [->|Nv]; [rewrite fup_eq; exists []; reflexivity|].
    rewrite fup_neq by auto. auto.
Qed.

End Net.
