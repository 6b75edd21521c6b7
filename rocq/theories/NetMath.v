(** * The mathematics of the circulation algorithm, on plain functions *)
From Verif Require Import Base BaseLemmas Sums LCTSpec LCTForest LCTOps Flow.
Local Open Scope Z_scope.

(** ** Paired edges *)
Lemma rev_even k : rev_id (2 * k) = (2 * k + 1)%nat.
Proof.
  unfold rev_id. apply Nat.bits_inj. intros i. rewrite Nat.lxor_spec.
  destruct i as [|i].
  - rewrite Nat.testbit_even_0, Nat.testbit_odd_0. reflexivity.
  - rewrite Nat.testbit_even_succ, Nat.testbit_odd_succ by lia.
    change 1%nat with (2 * 0 + 1)%nat. rewrite Nat.testbit_odd_succ by lia. rewrite Nat.bits_0. apply xorb_false_r.
Qed.

Lemma rev_odd k : rev_id (2 * k + 1) = (2 * k)%nat.
Proof.
  rewrite <- rev_even. unfold rev_id. rewrite Nat.lxor_assoc, Nat.lxor_nilpotent, Nat.lxor_0_r. reflexivity.
Qed.

Lemma rev_rev e : rev_id (rev_id e) = e.
Proof. unfold rev_id. rewrite Nat.lxor_assoc, Nat.lxor_nilpotent, Nat.lxor_0_r. reflexivity. Qed.

Lemma edge_cases e : exists k, e = (2 * k)%nat \/ e = (2 * k + 1)%nat.
Proof. destruct (Nat.Even_or_Odd e) as [[k H]|[k H]]; exists k; auto. Qed.

Lemma div2_2k k : Nat.div2 (2 * k) = k.
Proof. apply Nat.div2_double. Qed.
Lemma div2_2k1 k : Nat.div2 (2 * k + 1) = k.
Proof. rewrite Nat.add_1_r. apply Nat.div2_succ_double. Qed.
Lemma even_2k k : Nat.even (2 * k) = true.
Proof. rewrite Nat.even_mul. reflexivity. Qed.
Lemma even_2k1 k : Nat.even (2 * k + 1) = false.
Proof. rewrite Nat.even_add, even_2k. reflexivity. Qed.

Lemma div2_rev e : Nat.div2 (rev_id e) = Nat.div2 e.
Proof.
  destruct (edge_cases e) as [k [->| ->]].
  - rewrite rev_even, div2_2k, div2_2k1. reflexivity.
  - rewrite rev_odd, div2_2k, div2_2k1. reflexivity.
Qed.

Lemma even_rev e : Nat.even (rev_id e) = negb (Nat.even e).
Proof.
  destruct (edge_cases e) as [k [->| ->]].
  - rewrite rev_even, even_2k, even_2k1. reflexivity.
  - rewrite rev_odd, even_2k, even_2k1. reflexivity.
Qed.

Lemma rev_lt e m : (e < 2 * m)%nat -> (rev_id e < 2 * m)%nat.
Proof.
  destruct (edge_cases e) as [k [->| ->]]; [rewrite rev_even|rewrite rev_odd]; lia.
Qed.

Lemma rev_neq e : rev_id e <> e.
Proof. destruct (edge_cases e) as [k [->| ->]]; [rewrite rev_even|rewrite rev_odd]; lia. Qed.

Lemma same_arc e e' : Nat.div2 e = Nat.div2 e' -> e' = e \/ e' = rev_id e.
Proof.
  destruct (edge_cases e) as [k [->| ->]]; destruct (edge_cases e') as [k' [->| ->]];
    rewrite ?div2_2k, ?div2_2k1, ?rev_even, ?rev_odd; intros ->; auto.
Qed.

Lemma div2_lt e m : (e < 2 * m)%nat -> (Nat.div2 e < m)%nat.
Proof. destruct (edge_cases e) as [k [->| ->]]; rewrite ?div2_2k, ?div2_2k1; lia. Qed.

(** flow on a directed edge, from the flow on its arc *)
Definition xd (x : nat -> Z) (e : nat) : Z := if Nat.even e then x (Nat.div2 e) else - x (Nat.div2 e).

Lemma xd_rev x e : xd x (rev_id e) = - xd x e.
Proof. unfold xd. rewrite div2_rev, even_rev. destruct (Nat.even e); simpl; lia. Qed.

Lemma xd_even x k : xd x (2 * k) = x k.
Proof. unfold xd. rewrite even_2k, div2_2k. reflexivity. Qed.

(** add [d] to the flow on the directed edge [e] *)
Definition xadd (x : nat -> Z) (e : nat) (d : Z) : nat -> Z :=
  fun k => if Nat.eqb k (Nat.div2 e) then x k + (if Nat.even e then d else - d) else x k.

Lemma xd_xadd_eq x e d : xd (xadd x e d) e = xd x e + d.
Proof. unfold xd, xadd. rewrite Nat.eqb_refl. destruct (Nat.even e); lia. Qed.

Lemma xd_xadd_rev x e d : xd (xadd x e d) (rev_id e) = xd x (rev_id e) - d.
Proof. rewrite !xd_rev, xd_xadd_eq. lia. Qed.

Lemma xd_xadd_neq x e d e' : Nat.div2 e' <> Nat.div2 e -> xd (xadd x e d) e' = xd x e'.
Proof.
  intros H. unfold xd, xadd. destruct (Nat.eqb_spec (Nat.div2 e') (Nat.div2 e)); [congruence|reflexivity].
Qed.

(** ** Static data *)
Record netok (n m : nat) (M : Z) (ei ej : nat -> nat) (G : nat -> list nat) (lft : nat -> Z -> Z) : Prop := {
  net_ei : forall e, (e < 2 * m)%nat -> (ei e <= n)%nat;
  net_rev : forall e, (e < 2 * m)%nat -> ei (rev_id e) = ej e;
  net_G : forall v e, (v <= n)%nat -> (In e (G v) <-> (e < 2 * m)%nat /\ ei e = v);
  net_M : forall e a, (e < 2 * m)%nat -> - M <= lft e a <= M;
  net_mono : forall e a b, (e < 2 * m)%nat -> a <= b -> lft e a <= lft e b;
  net_Q : forall e a, (e < 2 * m)%nat -> lft e a <= - lft (rev_id e) (- a);
  net_P : forall e a b, (e < 2 * m)%nat -> a < b -> - lft (rev_id e) (- a) <= lft e b
}.

Section Net.
Variables (n m : nat) (M : Z) (ei ej : nat -> nat) (G : nat -> list nat) (lft : nat -> Z -> Z).
Hypothesis net : netok n m M ei ej G lft.

Lemma net_rev' e : (e < 2 * m)%nat -> ej (rev_id e) = ei e.
Proof.
  intros He. rewrite <- (net_rev _ _ _ _ _ _ _ net) by (apply rev_lt; auto). rewrite rev_rev. reflexivity.
Qed.

Lemma net_ej e : (e < 2 * m)%nat -> (ej e <= n)%nat.
Proof.
  intros He. rewrite <- (net_rev _ _ _ _ _ _ _ net e He). apply (net_ei _ _ _ _ _ _ _ net), rev_lt; auto.
Qed.

Definition pe (p : nat -> Z) (e : nat) : Z := p (ei e) - p (ej e).

Lemma pe_rev p e : (e < 2 * m)%nat -> pe p (rev_id e) = - pe p e.
Proof.
  intros He. unfold pe. rewrite (net_rev _ _ _ _ _ _ _ net e He), (net_rev' e He). lia.
Qed.

(** [net inflow of v] *)
Definition exc (x : nat -> Z) (v : nat) : Z :=
  zsum (seq 0 m) (fun k => (if Nat.eqb (ej (2 * k)) v then x k else 0)
                         - (if Nat.eqb (ei (2 * k)) v then x k else 0)).

Lemma exc_xadd x e d v : (e < 2 * m)%nat ->
  exc (xadd x e d) v = exc x v + (if Nat.eqb (ej e) v then d else 0) - (if Nat.eqb (ei e) v then d else 0).
Proof.
  intros He. unfold exc.
  rewrite (zsum_point (seq 0 m) (Nat.div2 e)
     (fun k => (if Nat.eqb (ej (2 * k)) v then x k else 0) - (if Nat.eqb (ei (2 * k)) v then x k else 0))).
  - cbv beta. set (S0 := zsum _ _). unfold xadd. rewrite Nat.eqb_refl.
    destruct (edge_cases e) as [k [Ek|Ek]].
    + assert (D : Nat.div2 e = k) by (rewrite Ek; apply div2_2k). rewrite D, <- Ek.
      assert (E : Nat.even e = true) by (rewrite Ek; apply even_2k). rewrite E.
      destruct (Nat.eqb (ej e) v), (Nat.eqb (ei e) v); lia.
    + assert (D : Nat.div2 e = k) by (rewrite Ek; apply div2_2k1). rewrite D.
      assert (E : Nat.even e = false) by (rewrite Ek; apply even_2k1). rewrite E.
      assert (R : rev_id e = (2 * k)%nat) by (rewrite Ek; apply rev_odd). rewrite <- R.
      rewrite (net_rev _ _ _ _ _ _ _ net e He), (net_rev' e He).
      destruct (Nat.eqb (ej e) v), (Nat.eqb (ei e) v); lia.
  - apply seq_NoDup.
  - apply in_seq. assert (H := div2_lt _ _ He). lia.
  - intros k Hk Hn. cbv beta. unfold xadd. destruct (Nat.eqb_spec k (Nat.div2 e)); [congruence|reflexivity].
Qed.

(** ** Sums over node sets *)
Definition nodes := seq 0 (n + 1).

Lemma in_nodes v : In v nodes <-> (v <= n)%nat.
Proof. unfold nodes. rewrite in_seq. lia. Qed.

Definition ind (S : nat -> bool) (v : nat) (z : Z) : Z := if S v then z else 0.

Lemma sum_exc (S : nat -> Z) x :
  zsum nodes (fun v => S v * exc x v) =
  zsum (seq 0 m) (fun k => x k * (S (ej (2 * k)%nat) - S (ei (2 * k)%nat))).
Proof.
  unfold exc.
  rewrite (zsum_ext nodes _ (fun v => zsum (seq 0 m) (fun k =>
     (if Nat.eqb (ej (2 * k)) v then S v * x k else 0) - (if Nat.eqb (ei (2 * k)) v then S v * x k else 0)))).
  2:{ intros v _. rewrite <- zsum_scale. apply zsum_ext. intros k _.
      destruct (Nat.eqb (ej (2 * k)) v), (Nat.eqb (ei (2 * k)) v); lia. }
  rewrite zsum_swap. apply zsum_ext. intros k Hk. apply in_seq in Hk.
  rewrite zsum_sub.
  rewrite (zsum_indicator nodes (ej (2 * k)) (fun v => S v * x k)) by apply seq_NoDup.
  rewrite (zsum_indicator nodes (ei (2 * k)) (fun v => S v * x k)) by apply seq_NoDup.
  destruct (in_dec Nat.eq_dec (ej (2 * k)) nodes) as [Ha|Ha].
  2:{ exfalso. apply Ha, in_nodes, net_ej. lia. }
  destruct (in_dec Nat.eq_dec (ei (2 * k)) nodes) as [Hb|Hb].
  2:{ exfalso. apply Hb, in_nodes, (net_ei _ _ _ _ _ _ _ net). lia. }
  lia.
Qed.

Lemma sum_exc_all x : zsum nodes (exc x) = 0.
Proof.
  rewrite (zsum_ext nodes _ (fun v => 1 * exc x v)) by (intros; lia).
  rewrite (sum_exc (fun _ => 1)). apply zsum_zero. intros; lia.
Qed.

Lemma sum_neg_exists (L : list nat) f v : zsum L f <= 0 -> In v L -> 0 < f v -> exists u, In u L /\ f u < 0.
Proof.
  intros HS Hv Hp.
  destruct (existsb (fun u => f u <? 0) L) eqn:E.
  - apply existsb_exists in E. destruct E as (u & Hu & E). apply Z.ltb_lt in E. eauto.
  - exfalso. assert (HA : forall u, In u L -> 0 <= f u).
    { intros u Hu. destruct (Z.leb_spec 0 (f u)); auto. exfalso.
      assert (existsb (fun u => f u <? 0) L = true); [|congruence].
      apply existsb_exists. exists u. split; auto. apply Z.ltb_lt; auto. }
    assert (zsum L f > 0); [|lia]. clear HS E. induction L as [|a L IH]; [destruct Hv|].
    simpl. assert (0 <= f a) by (apply HA; simpl; auto).
    assert (0 <= zsum L f) by (apply zsum_nonneg; intros; apply HA; simpl; auto).
    destruct Hv as [->|Hv]; [lia|]. assert (zsum L f > 0) by (apply IH; auto; intros; apply HA; simpl; auto). lia.
Qed.

(** ** The bound on potentials *)
Lemma empty_band (f : nat -> Z) u v w :
  0 < w -> (u <= n)%nat -> (v <= n)%nat -> f u = 0 -> (forall a, (a <= n)%nat -> 0 <= f a) ->
  Z.of_nat n * w < f v ->
  exists T, 0 <= T /\ T + w < f v /\ forall a, (a <= n)%nat -> f a <= T \/ T + w < f a.
Proof.
  intros Hw Hu Hv Hfu Hf Hfv.
  set (g := fun a => (f a - 1) / w).
  assert (Hdec : forall k, {In k (map g nodes)} + {~ In k (map g nodes)}) by (intros; apply in_dec, Z.eq_dec).
  destruct (Forall_Exists_dec (fun k => In k (map g nodes)) Hdec (map Z.of_nat (seq 0 n))) as [HA|HE].
  - exfalso.
    assert (Hlen : (length ((-1)%Z :: g v :: map Z.of_nat (seq 0 n)) <= length (map g nodes))%nat).
    { apply NoDup_incl_length.
      - assert (Hgv : Z.of_nat n <= g v) by (unfold g; apply Z.div_le_lower_bound; lia).
        constructor; [|constructor].
        + intros [H|H]; [lia|]. apply in_map_iff in H. destruct H as (k & Hk & _). lia.
        + intros H. apply in_map_iff in H. destruct H as (k & Hk & Hi). apply in_seq in Hi. lia.
        + apply FinFun.Injective_map_NoDup; [|apply seq_NoDup]. intros a b; lia.
      - intros k [<-|[<-|Hk]].
        + apply in_map_iff. exists u. split; [|apply in_nodes; auto]. unfold g. rewrite Hfu.
          change (0 - 1) with (-1). symmetry. apply Z.div_unique with (r := w - 1); lia.
        + apply in_map_iff. exists v. split; auto. apply in_nodes; auto.
        + rewrite Forall_forall in HA. apply HA; auto. }
    simpl in Hlen. rewrite !map_length, seq_length in Hlen. unfold nodes in Hlen. rewrite seq_length in Hlen. lia.
  - apply Exists_exists in HE. destruct HE as (k & Hk & Hn). apply in_map_iff in Hk. destruct Hk as (k0 & <- & Hk).
    apply in_seq in Hk. exists (Z.of_nat k0 * w). split; [nia|]. split; [nia|].
    intros a Ha. destruct (Z.le_gt_cases (f a) (Z.of_nat k0 * w)); auto. right.
    destruct (Z.lt_ge_cases (Z.of_nat k0 * w + w) (f a)); auto. exfalso. apply Hn.
    apply in_map_iff. exists a. split; [|apply in_nodes; auto]. unfold g.
    symmetry. apply Z.div_unique with (r := f a - 1 - Z.of_nat k0 * w); nia.
Qed.

Definition opt (k : Z) (p x : nat -> Z) : Prop :=
  forall e, (e < 2 * m)%nat -> lft e (pe p e - k) <= xd x e.

(** The key lemma: a node with positive excess cannot be far above. *)
Lemma pot_bound kap h p0 x0 p x v :
  0 < kap + h -> opt kap p0 x0 -> (forall u, (u <= n)%nat -> exc x0 u = 0) ->
  opt h p x -> (forall u, (u <= n)%nat -> p0 u <= p u) ->
  (forall u, (u <= n)%nat -> exc x u < 0 -> p u = p0 u) ->
  (v <= n)%nat -> 0 < exc x v -> p v - p0 v <= Z.of_nat n * (kap + h).
Proof.
  intros Hw H0 Hc Hh Hp Hneg Hv Hev.
  destruct (Z.le_gt_cases (p v - p0 v) (Z.of_nat n * (kap + h))) as [|Hgt]; auto. exfalso.
  destruct (sum_neg_exists nodes (exc x) v) as (u & Hu & Hun); auto.
  { rewrite sum_exc_all; lia. } { apply in_nodes; auto. }
  apply in_nodes in Hu.
  destruct (empty_band (fun a => p a - p0 a) u v (kap + h)) as (T & HT0 & HTv & HT); auto.
  { rewrite Hneg; auto; lia. } { intros a Ha. specialize (Hp a Ha). lia. }
  set (S := fun a => if T + (kap + h) <? p a - p0 a then 1 else 0).
  assert (HS : forall a, S a = 0 \/ S a = 1) by (intros a; unfold S; destruct (_ <? _); auto).
  assert (HS1 : forall a, S a = 1 -> T + (kap + h) < p a - p0 a).
  { intros a. unfold S. destruct (Z.ltb_spec (T + (kap + h)) (p a - p0 a)); auto; lia. }
  assert (HS0 : forall a, (a <= n)%nat -> S a = 0 -> p a - p0 a <= T).
  { intros a Ha. unfold S. destruct (Z.ltb_spec (T + (kap + h)) (p a - p0 a)); [lia|]. intros _.
    destruct (HT a Ha); lia. }
  assert (Hcross : forall e, (e < 2 * m)%nat -> S (ei e) = 1 -> S (ej e) = 0 -> xd x0 e <= xd x e).
  { intros e He Hi Hj. apply HS1 in Hi. apply HS0 in Hj; [|apply net_ej; auto].
    assert (A1 := Hh e He). assert (A2 := H0 (rev_id e) (rev_lt _ _ He)).
    rewrite xd_rev, pe_rev in A2 by auto.
    assert (A3 := net_P _ _ _ _ _ _ _ net e (pe p0 e + kap) (pe p e - h) He).
    replace (- (pe p0 e + kap)) with (- pe p0 e - kap) in A3 by lia.
    assert (A4 : pe p0 e + kap < pe p e - h) by (unfold pe; lia).
    specialize (A3 A4). lia. }
  assert (Hsum : zsum nodes (fun a => S a * exc x a) <= 0).
  { assert (E0 : zsum nodes (fun a => S a * exc x0 a) = 0).
    { apply zsum_zero. intros a Ha. apply in_nodes in Ha. rewrite Hc; auto; lia. }
    rewrite (sum_exc S) in *. rewrite <- E0. apply zsum_le. intros k Hk. apply in_seq in Hk.
    assert (He : (2 * k < 2 * m)%nat) by lia.
    assert (B1 := Hcross (2 * k)%nat He). assert (B2 := Hcross (rev_id (2 * k)) (rev_lt _ _ He)).
    rewrite (net_rev _ _ _ _ _ _ _ net _ He), (net_rev' _ He), !xd_rev in B2.
    rewrite !xd_even in *.
    destruct (HS (ei (2 * k))) as [Ei|Ei], (HS (ej (2 * k))) as [Ej|Ej]; rewrite Ei, Ej in *; try lia.
    }
  assert (Hpos : 0 < zsum nodes (fun a => S a * exc x a)).
  { assert (HN : forall a, In a nodes -> 0 <= S a * exc x a).
    { intros a Ha. apply in_nodes in Ha. destruct (HS a) as [E|E]; rewrite E; [lia|].
      destruct (Z.le_gt_cases 0 (exc x a)); [lia|]. apply HS1 in E. rewrite Hneg in E by (auto; lia). lia. }
    assert (HV : 0 < S v * exc x v).
    { unfold S. destruct (Z.ltb_spec (T + (kap + h)) (p v - p0 v)); lia. }
    assert (In v nodes) by (apply in_nodes; auto).
    revert HN H. generalize nodes as L. induction L as [|a L IH]; intros HN Hi; [destruct Hi|]; simpl; destruct Hi as [->|Hi].
    - assert (0 <= zsum L (fun a => S a * exc x a)) by (apply zsum_nonneg; intros; apply HN; simpl; auto). lia.
    - assert (0 <= S a * exc x a) by (apply HN; simpl; auto).
      assert (0 < zsum L (fun a => S a * exc x a)) by (apply IH; auto; intros; apply HN; simpl; auto). lia. }
  lia.
Qed.

(** ** The invariant of a phase (tree, stored flows, actual flow, ranks) *)
Section Inv.
Variable h : Z.
Hypothesis Hh : 0 < h.

Definition tree_edge (par : nat -> option nat) (cur : nat -> nat) (c e : nat) : Prop :=
  par c <> None /\ nth_error (G c) (cur c) = Some e.

(** what a parent link means *)
Definition tree_ok1 val cur p fl x rank (c j e : nat) : Prop :=
  nth_error (G c) (cur c) = Some e /\ ej e = j /\
  val c = lft e (pe p e) - xd x e /\ 0 <= val c /\ fl e < lft e (pe p e) /\ (rank j < rank c)%nat.

Record minv (par : nat -> option nat) (val : nat -> Z) (cur : nat -> nat) (p fl x : nat -> Z) (rank : nat -> nat) : Prop := {
  mi_anti : forall e, (e < 2 * m)%nat -> fl (rev_id e) = - fl e;
  mi_flM : forall e, (e < 2 * m)%nat -> - M <= fl e;
  mi_fl : forall e, (e < 2 * m)%nat ->
    (forall c e', (c <= n)%nat -> tree_edge par cur c e' -> Nat.div2 e' <> Nat.div2 e) -> fl e = xd x e;
  mi_tree : forall c j, (c <= n)%nat -> par c = Some j -> exists e, tree_ok1 val cur p fl x rank c j e;
  mi_opt : opt h p x;
  mi_xM : forall e, (e < 2 * m)%nat -> - M <= xd x e;
  mi_before : forall c i e, (c <= n)%nat -> (i < cur c)%nat -> nth_error (G c) i = Some e -> lft e (pe p e) <= xd x e;
  mi_rank : forall e, (e < 2 * m)%nat -> xd x e < lft e (pe p e) -> (rank (ej e) < rank (ei e))%nat
}.

Lemma G_edge v i e : (v <= n)%nat -> nth_error (G v) i = Some e -> (e < 2 * m)%nat /\ ei e = v.
Proof. intros Hv He. apply nth_error_In in He. apply (net_G _ _ _ _ _ _ _ net) in He; auto. Qed.

Lemma tree_arc_inj par val cur p fl x rank c c' e e' :
  minv par val cur p fl x rank -> (c <= n)%nat -> (c' <= n)%nat ->
  tree_edge par cur c e -> tree_edge par cur c' e' -> Nat.div2 e = Nat.div2 e' -> c = c'.
Proof.
  intros HI Hc Hc' [P1 N1] [P2 N2] HD.
  destruct (par c) as [j|] eqn:Ej; [|congruence]. destruct (par c') as [j'|] eqn:Ej'; [|congruence].
  destruct (mi_tree _ _ _ _ _ _ _ HI c j Hc Ej) as (e1 & T1 & T2 & _ & _ & _ & T3).
  destruct (mi_tree _ _ _ _ _ _ _ HI c' j' Hc' Ej') as (e2 & U1 & U2 & _ & _ & _ & U3).
  assert (e1 = e) by congruence. assert (e2 = e') by congruence. subst e1 e2.
  destruct (G_edge _ _ _ Hc N1) as [L1 I1]. destruct (G_edge _ _ _ Hc' N2) as [L2 I2].
  destruct (same_arc _ _ HD) as [->| ->]; [congruence|].
  rewrite (net_rev _ _ _ _ _ _ _ net) in I2 by auto. rewrite net_rev' in U2 by auto. exfalso.
  assert (j = c') by congruence. assert (j' = c) by congruence. subst. lia.
Qed.

(** the reverse of a tree edge is not admissible, for either flow *)
Lemma tree_rev par val cur p fl x rank c e :
  minv par val cur p fl x rank -> (c <= n)%nat -> tree_edge par cur c e ->
  lft (rev_id e) (pe p (rev_id e)) <= xd x (rev_id e) /\
  lft (rev_id e) (pe p (rev_id e)) <= fl (rev_id e).
Proof.
  intros HI Hc [P1 N1]. destruct (par c) as [j|] eqn:Ej; [|congruence].
  destruct (mi_tree _ _ _ _ _ _ _ HI c j Hc Ej) as (e1 & T1 & T2 & T3 & T4 & T5 & T6).
  assert (e1 = e) by congruence. subst e1.
  destruct (G_edge _ _ _ Hc N1) as [L1 I1].
  assert (HQ := net_Q _ _ _ _ _ _ _ net e (pe p e) L1).
  rewrite pe_rev, xd_rev, (mi_anti _ _ _ _ _ _ _ HI) by auto. lia.
Qed.

(** the test the code makes, for a root *)
Lemma adm_test par val cur p fl x rank c e :
  minv par val cur p fl x rank -> (c <= n)%nat -> par c = None -> In e (G c) ->
  (fl e < lft e (pe p e) <-> xd x e < lft e (pe p e)) /\
  (xd x e < lft e (pe p e) -> fl e = xd x e /\
     forall c' e', (c' <= n)%nat -> tree_edge par cur c' e' -> Nat.div2 e' <> Nat.div2 e).
Proof.
  intros HI Hc Hr He. apply (net_G _ _ _ _ _ _ _ net) in He; auto. destruct He as [He Hi].
  assert (Hcase : (exists c' e', (c' <= n)%nat /\ tree_edge par cur c' e' /\ Nat.div2 e' = Nat.div2 e) \/
     (forall c' e', (c' <= n)%nat -> tree_edge par cur c' e' -> Nat.div2 e' <> Nat.div2 e)).
  { destruct (Exists_dec (fun c' => par c' <> None /\
        exists e', nth_error (G c') (cur c') = Some e' /\ Nat.div2 e' = Nat.div2 e) nodes) as [HE|HE].
    - intros c'. destruct (par c') as [j|]; [|right; intros [H _]; congruence].
      destruct (nth_error (G c') (cur c')) as [e'|]; [|right; intros (_ & e' & H & _); congruence].
      destruct (Nat.eq_dec (Nat.div2 e') (Nat.div2 e)) as [Hd|Hd].
      + left. split; [congruence|]. eauto.
      + right. intros (_ & e2 & H & H2). congruence.
    - left. apply Exists_exists in HE. destruct HE as (c' & Hc' & H1 & e' & H2 & H3).
      apply in_nodes in Hc'. exists c', e'. repeat split; auto.
    - right. intros c' e' Hc' [H1 H2] H3. apply HE. apply Exists_exists. exists c'. split; [apply in_nodes; auto|].
      split; auto. exists e'; auto. }
  destruct Hcase as [(c' & e' & Hc' & HT & HD)|Hno].
  - assert (Hr' : e = rev_id e').
    { destruct (same_arc _ _ HD) as [->| ->]; auto. exfalso. destruct HT as [HT1 HT2].
      destruct (G_edge _ _ _ Hc' HT2) as [_ I2]. congruence. }
    destruct (tree_rev _ _ _ _ _ _ _ c' e' HI Hc' HT) as [A1 A2]. rewrite <- Hr' in *.
    split; [|intros; lia]. lia.
  - assert (E := mi_fl _ _ _ _ _ _ _ HI e He Hno). rewrite E. split; [tauto|]. intros _. split; auto.
Qed.

(** *** Steps *)
Lemma minv_scan par val cur p fl x rank c e :
  minv par val cur p fl x rank -> (c <= n)%nat -> par c = None ->
  nth_error (G c) (cur c) = Some e -> lft e (pe p e) <= xd x e ->
  minv par val (fup cur c (cur c + 1)%nat) p fl x rank.
Proof.
  intros HI Hc Hr He Hadm. destruct HI as [I1 I2 I3 I4 I5 I6 I7 I8]. constructor; auto.
  - intros e1 He1 Hno. apply I3; auto. intros c' e' Hc' [H1 H2]. apply Hno with (c := c'); auto.
    split; auto. rewrite fup_neq; auto. intros ->; congruence.
  - intros c' j Hc' Hj. destruct (I4 c' j Hc' Hj) as (e' & T1 & T). exists e'. split; auto.
    rewrite fup_neq; auto. intros ->; congruence.
  - intros c' i e' Hc' Hi Hn. unfold fup in Hi. destruct (Nat.eqb_spec c' c) as [->|].
    + destruct (Nat.eq_dec i (cur c)) as [->|]; [|apply (I7 c i); auto; lia]. congruence.
    + apply (I7 c' i); auto.
Qed.

Lemma minv_link par val cur p fl x rank c e :
  minv par val cur p fl x rank -> (c <= n)%nat -> par c = None ->
  nth_error (G c) (cur c) = Some e -> xd x e < lft e (pe p e) ->
  minv (set_parent par c (Some (ej e))) (set_value val c (lft e (pe p e) - xd x e)) cur p fl x rank.
Proof.
  intros HI Hc Hr He Hadm.
  destruct (adm_test _ _ _ _ _ _ _ c e HI Hc Hr (nth_error_In _ _ He)) as [_ HA]. destruct (HA Hadm) as [HA1 HA2].
  destruct (G_edge _ _ _ Hc He) as [Hle Hie].
  destruct HI as [I1 I2 I3 I4 I5 I6 I7 I8]. constructor; auto.
  - intros e1 He1 Hno. apply I3; auto. intros c' e' Hc' [H1 H2]. apply Hno with (c := c'); auto.
    split; auto. rewrite set_parent_neq; auto. intros ->; congruence.
  - intros c' j Hc' Hj. destruct (Nat.eq_dec c' c) as [->|Hn].
    + rewrite set_parent_eq in Hj. inversion Hj; subst j. exists e. repeat split; auto.
      * rewrite set_value_eq. reflexivity.
      * rewrite set_value_eq. lia.
      * lia.
      * rewrite <- Hie. apply I8; auto.
    + rewrite set_parent_neq in Hj by auto. destruct (I4 c' j Hc' Hj) as (e' & T1 & T2 & T3 & T4 & T).
      exists e'. unfold tree_ok1. rewrite set_value_neq by auto. auto.
Qed.

Lemma minv_cut par val cur p fl x rank c j e fl' :
  minv par val cur p fl x rank -> (c <= n)%nat -> par c = Some j ->
  nth_error (G c) (cur c) = Some e ->
  (forall e', fl' e' = if Nat.eqb e' (rev_id e) then - (lft e (pe p e) - val c)
                       else if Nat.eqb e' e then lft e (pe p e) - val c else fl e') ->
  minv (set_parent par c None) val cur p fl' x rank.
Proof.
  intros HI Hc Hj He Hfl.
  destruct (G_edge _ _ _ Hc He) as [Hle Hie].
  destruct (mi_tree _ _ _ _ _ _ _ HI c j Hc Hj) as (e1 & T1 & T2 & T3 & T4 & T5 & T6).
  assert (e1 = e) by congruence. subst e1. rewrite T3 in Hfl.
  assert (Ee : fl' e = xd x e).
  { rewrite Hfl. destruct (Nat.eqb_spec e (rev_id e)); [exfalso; eapply rev_neq; eauto|].
    rewrite Nat.eqb_refl. lia. }
  assert (Er : fl' (rev_id e) = xd x (rev_id e)).
  { rewrite Hfl, Nat.eqb_refl, xd_rev. lia. }
  assert (Eo : forall e', Nat.div2 e' <> Nat.div2 e -> fl' e' = fl e').
  { intros e' Hn. rewrite Hfl. destruct (Nat.eqb_spec e' (rev_id e)) as [->|].
    - rewrite div2_rev in Hn. congruence.
    - destruct (Nat.eqb_spec e' e); [congruence|reflexivity]. }
  pose proof HI as [I1 I2 I3 I4 I5 I6 I7 I8]. constructor; auto.
  - intros e' He'. destruct (Nat.eq_dec (Nat.div2 e) (Nat.div2 e')) as [Hd|Hd].
    + destruct (same_arc _ _ Hd) as [->| ->].
      * rewrite Er, Ee, xd_rev. reflexivity.
      * rewrite rev_rev, Er, Ee, xd_rev. lia.
    + rewrite !Eo by (rewrite ?div2_rev; auto). auto.
  - intros e' He'. destruct (Nat.eq_dec (Nat.div2 e) (Nat.div2 e')) as [Hd|Hd].
    + destruct (same_arc _ _ Hd) as [->| ->]; rewrite ?Ee, ?Er; apply I6; auto.
    + rewrite !Eo by auto. auto.
  - intros e' He' Hno. destruct (Nat.eq_dec (Nat.div2 e) (Nat.div2 e')) as [Hd|Hd].
    + destruct (same_arc _ _ Hd) as [->| ->]; auto.
    + rewrite Eo by auto. apply I3; auto. intros c' e2 Hc' [H1 H2].
      destruct (Nat.eq_dec c' c) as [->|Hn]; [congruence|]. apply Hno with (c := c'); auto.
      split; auto. rewrite set_parent_neq; auto.
  - intros c' j' Hc' Hj'. destruct (Nat.eq_dec c' c) as [->|Hn]; [rewrite set_parent_eq in Hj'; congruence|].
    rewrite set_parent_neq in Hj' by auto. destruct (I4 c' j' Hc' Hj') as (e' & U1 & U2 & U3 & U4 & U5 & U6).
    exists e'. repeat split; auto. rewrite Eo; auto. intros Hd.
    apply Hn. symmetry.
    eapply (tree_arc_inj par val cur p fl x rank c c' e e'); auto.
    + split; [congruence|auto].
    + split; [congruence|auto].
Qed.

(** push [d] over the tree edge of [c] *)
Lemma minv_push1 par val cur p fl x rank c j e d :
  minv par val cur p fl x rank -> (c <= n)%nat -> par c = Some j ->
  nth_error (G c) (cur c) = Some e -> 0 <= d <= val c ->
  minv par (set_value val c (val c - d)) cur p fl (xadd x e d) rank /\
  (forall e', (e' < 2 * m)%nat -> xd (xadd x e d) e' < lft e' (pe p e') -> xd x e' < lft e' (pe p e')).
Proof.
  intros HI Hc Hj He Hd.
  destruct (G_edge _ _ _ Hc He) as [Hle Hie].
  destruct (mi_tree _ _ _ _ _ _ _ HI c j Hc Hj) as (e1 & T1 & T2 & T3 & T4 & T5 & T6).
  assert (e1 = e) by congruence. subst e1.
  assert (HTE : tree_edge par cur c e) by (split; congruence).
  assert (HQ := net_Q _ _ _ _ _ _ _ net e (pe p e) Hle).
  assert (HB := net_M _ _ _ _ _ _ _ net e (pe p e) Hle).
  (* every directed edge: unchanged, increased, or still not admissible *)
  assert (HX : forall e', (e' < 2 * m)%nat ->
     (xd (xadd x e d) e' = xd x e' /\ Nat.div2 e' <> Nat.div2 e) \/
     (e' = e /\ xd (xadd x e d) e' = xd x e + d) \/
     (e' = rev_id e /\ xd (xadd x e d) e' = xd x (rev_id e) - d /\
        lft e' (pe p e') <= xd (xadd x e d) e')).
  { intros e' He'. destruct (Nat.eq_dec (Nat.div2 e) (Nat.div2 e')) as [Hdd|Hdd].
    - destruct (same_arc _ _ Hdd) as [->| ->].
      + right; left. split; auto. apply xd_xadd_eq.
      + right; right. split; auto. split; [apply xd_xadd_rev|].
        rewrite xd_xadd_rev, pe_rev, xd_rev by auto. lia.
    - left. split; auto. apply xd_xadd_neq; auto. }
  assert (HTI := tree_arc_inj par val cur p fl x rank c).
  split; cycle 1.
  { intros e' He' Ha. destruct (HX e' He') as [[Hx _]|[[-> Hx]|(-> & Hx & Hl)]]; lia. }
  pose proof HI as [I1 I2 I3 I4 I5 I6 I7 I8]. constructor; auto.
  - intros e' He' Hno. destruct (HX e' He') as [[-> Hn]|[[-> _]|[-> _]]].
    + apply I3; auto.
    + exfalso. apply (Hno c e); auto.
    + exfalso. apply (Hno c e); auto. rewrite div2_rev; auto.
  - intros c' j' Hc' Hj'. destruct (Nat.eq_dec c' c) as [->|Hn].
    + exists e. rewrite Hj in Hj'. inversion Hj'; subst j'. unfold tree_ok1. rewrite set_value_eq, xd_xadd_eq.
      repeat split; auto; try lia.
    + destruct (I4 c' j' Hc' Hj') as (e' & U1 & U2 & U3 & U4 & U5 & U6).
      exists e'. unfold tree_ok1. rewrite set_value_neq by auto. rewrite xd_xadd_neq.
      * repeat split; auto.
      * intros Hdd. apply Hn. symmetry. apply (HTI c' e e'); auto. split; congruence.
  - intros e' He'. assert (O := I5 e' He'). destruct (HX e' He') as [[-> _]|[[-> ->]|(-> & E1 & E2)]]; auto; try lia.
    eapply Z.le_trans; [|exact E2]. apply (net_mono _ _ _ _ _ _ _ net); [apply rev_lt; auto|lia].
  - intros e' He'. assert (O := I6 e' He'). destruct (HX e' He') as [[-> _]|[[-> ->]|(-> & E1 & E2)]]; auto; try lia.
    rewrite E1, xd_rev. lia.
  - intros c' i e' Hc' Hi Hn. assert (O := I7 c' i e' Hc' Hi Hn).
    destruct (G_edge _ _ _ Hc' Hn) as [He' _].
    destruct (HX e' He') as [[-> _]|[[-> ->]|(-> & E1 & E2)]]; auto; lia.
  - intros e' He'. assert (O := I8 e' He'). destruct (HX e' He') as [[-> _]|[[-> ->]|(-> & E1 & E2)]]; auto; try lia.
Qed.

(** the value of a root does not matter *)
Lemma minv_val par val val' cur p fl x rank :
  minv par val cur p fl x rank -> (forall c, par c <> None -> val' c = val c) ->
  minv par val' cur p fl x rank.
Proof.
  intros [I1 I2 I3 I4 I5 I6 I7 I8] HE. constructor; auto.
  intros c j Hc Hj. destruct (I4 c j Hc Hj) as (e & T). exists e. unfold tree_ok1 in *.
  rewrite HE by congruence. exact T.
Qed.

(** push [d] along a whole path *)
Lemma minv_push_path : forall par lp v l r val cur p fl x rank d,
  path par v lp -> lp = l ++ [r] ->
  (forall c, In c lp -> (c <= n)%nat) ->
  minv par val cur p fl x rank -> 0 <= d -> (forall c, In c l -> d <= val c) ->
  exists x', minv par (add_values val (l ++ [r]) (- d)) cur p fl x' rank /\
    (forall w, exc x' w = exc x w + (if Nat.eqb r w then d else 0) - (if Nat.eqb v w then d else 0)) /\
    (forall e', (e' < 2 * m)%nat -> xd x' e' < lft e' (pe p e') -> xd x e' < lft e' (pe p e')).
Proof.
  intros par lp v l r val cur p fl x rank d HP.
  revert l val x. induction HP as [v Hv|v y lp Hv HP IH]; intros l val x El Hn HI Hd Hval.
  - destruct l as [|a l]; [|destruct l; discriminate]. inversion El; subst r.
    exists x. split; [|split; [|auto]].
    + eapply minv_val; [exact HI|]. intros c Hc. unfold add_values. simpl.
      destruct (Nat.eqb_spec c v) as [->|]; [congruence|reflexivity].
    + intros w. destruct (Nat.eqb v w); lia.
  - destruct l as [|a l].
    { inversion El; subst. exfalso. destruct (path_hd _ _ _ HP) as [l' E]. discriminate. }
    inversion El; subst a lp.
    assert (Hvn : (v <= n)%nat) by (apply Hn; simpl; auto).
    destruct (mi_tree _ _ _ _ _ _ _ HI v y Hvn Hv) as (e & T1 & T2 & T3 & T4 & T5 & T6).
    destruct (minv_push1 _ _ _ _ _ _ _ v y e d HI Hvn Hv T1 (conj Hd (Hval v (or_introl eq_refl)))) as [HI1 HM1].
    destruct (G_edge _ _ _ Hvn T1) as [Hle Hie].
    assert (Hnotin : ~ In v (l ++ [r])).
    { assert (ND : NoDup (v :: l ++ [r])) by (eapply path_nodup; econstructor; eauto). inversion ND; auto. }
    destruct (IH l (set_value val v (val v - d)) (xadd x e d) eq_refl) as (x' & HI' & HE' & HM').
    + intros c Hc. apply Hn. simpl; auto.
    + exact HI1.
    + exact Hd.
    + intros c Hc. rewrite set_value_neq; [apply Hval; simpl; auto|]. intros ->. apply Hnotin, in_or_app; auto.
    + exists x'. split; [|split; [|auto]].
      * eapply minv_val; [exact HI'|]. intros c _. unfold add_values. cbn [app existsb].
        destruct (Nat.eqb_spec c v) as [->|Hcv].
        -- rewrite existsb_eqb_false by auto. cbn [orb]. rewrite set_value_eq. lia.
        -- cbn [orb]. rewrite set_value_neq by auto. reflexivity.
      * intros w. rewrite HE', exc_xadd, T2, Hie by auto.
        destruct (Nat.eqb r w), (Nat.eqb v w), (Nat.eqb y w); lia.
Qed.

(** relabel *)
Definition maxrank (rank : nat -> nat) : nat := fold_right Nat.max 0%nat (map rank nodes).

Lemma maxrank_le rank v : (v <= n)%nat -> (rank v <= maxrank rank)%nat.
Proof.
  intros Hv. apply in_nodes in Hv. unfold maxrank. induction nodes as [|a L IH]; [destruct Hv|].
  simpl. destruct Hv as [->|Hv]; [lia|]. specialize (IH Hv). lia.
Qed.

Lemma minv_relabel par val cur p fl x rank c :
  minv par val cur p fl x rank -> (c <= n)%nat -> par c = None ->
  (forall v, (v <= n)%nat -> par v <> Some c) ->
  (length (G c) <= cur c)%nat ->
  minv par val (fup cur c 0%nat) (fup p c (p c + h)) fl x (fup rank c (S (maxrank rank))).
Proof.
  intros HI Hc Hr Hch Hcur.
  pose proof HI as [I1 I2 I3 I4 I5 I6 I7 I8].
  set (p' := fup p c (p c + h)).
  assert (Hout : forall e, (e < 2 * m)%nat -> ei e = c -> lft e (pe p e) <= xd x e).
  { intros e He Hi. assert (Hin : In e (G c)) by (apply (net_G _ _ _ _ _ _ _ net); auto).
    apply In_nth_error in Hin. destruct Hin as [i Hi2]. apply (I7 c i); auto.
    apply nth_error_lt in Hi2. lia. }
  assert (Hpe : forall e, (e < 2 * m)%nat ->
     (ei e = c /\ ej e <> c /\ pe p' e = pe p e + h) \/
     (ei e <> c /\ ej e = c /\ pe p' e = pe p e - h) \/
     (pe p' e = pe p e /\ (ei e = c -> ej e = c) /\ (ej e = c -> ei e = c))).
  { intros e He. unfold pe, p', fup.
    destruct (Nat.eqb_spec (ei e) c) as [Ea|Ea], (Nat.eqb_spec (ej e) c) as [Eb|Eb].
    - right; right. split; [rewrite Ea, Eb; lia|auto].
    - left. split; [auto|]. split; [auto|]. rewrite Ea; lia.
    - right; left. split; [auto|]. split; [auto|]. rewrite Eb; lia.
    - right; right. split; [lia|]. split; intros; congruence. }
  constructor; auto.
  - intros e He Hno. apply I3; auto. intros c' e' Hc' [H1 H2]. apply Hno with (c := c'); auto.
    split; auto. rewrite fup_neq; auto. intros ->; congruence.
  - intros c' j Hc' Hj. assert (Hn1 : c' <> c) by (intros ->; congruence).
    assert (Hn2 : j <> c) by (intros ->; apply (Hch c' Hc'); auto).
    destruct (I4 c' j Hc' Hj) as (e & T1 & T2 & T3 & T4 & T5 & T6). exists e. unfold tree_ok1.
    destruct (G_edge _ _ _ Hc' T1) as [Hle Hie].
    destruct (Hpe e Hle) as [(A & _)|[(_ & A & _)|(A & _)]]; [congruence|congruence|].
    rewrite A, !fup_neq by auto. repeat split; auto.
  - intros e He. assert (O := I5 e He).
    destruct (Hpe e He) as [(A & B & C)|[(A & B & C)|(C & _)]]; rewrite C.
    + replace (pe p e + h - h) with (pe p e) by lia. auto.
    + eapply Z.le_trans; [|exact O]. apply (net_mono _ _ _ _ _ _ _ net); auto; lia.
    + auto.
  - intros c' i e Hc' Hi Hn. unfold fup in Hi. destruct (Nat.eqb_spec c' c) as [->|Hcc]; [lia|].
    assert (O := I7 c' i e Hc' Hi Hn). destruct (G_edge _ _ _ Hc' Hn) as [Hle Hie].
    destruct (Hpe e Hle) as [(A & _)|[(A & B & C)|(C & _)]]; [congruence| |rewrite C; auto].
    rewrite C. eapply Z.le_trans; [|exact O]. apply (net_mono _ _ _ _ _ _ _ net); auto; lia.
  - intros e He Hadm. assert (Hj := net_ej e He).
    destruct (Hpe e He) as [(A & B & C)|[(A & B & C)|(C & D & E)]].
    + rewrite A, fup_eq, fup_neq by auto. assert (R := maxrank_le rank (ej e) Hj). lia.
    + exfalso. rewrite C in Hadm. assert (O := I5 e He). lia.
    + rewrite C in Hadm. destruct (Nat.eq_dec (ei e) c) as [Ec|Ec].
      * exfalso. assert (O := Hout e He Ec). lia.
      * rewrite !fup_neq; auto.
Qed.

(** start of a phase: no tree, nothing admissible *)
Lemma minv_start p fl x :
  (forall e, (e < 2 * m)%nat -> fl e = xd x e) -> opt 0 p x ->
  (forall e, (e < 2 * m)%nat -> - M <= xd x e) ->
  minv (fun _ => None) (fun _ => 0) (fun _ => 0%nat) p fl x (fun _ => 0%nat).
Proof.
  intros Hfl Ho HM. constructor; auto.
  - intros e He. rewrite !Hfl by (auto using rev_lt). apply xd_rev.
  - intros e He. rewrite Hfl; auto.
  - congruence.
  - intros e He. eapply Z.le_trans; [|apply (Ho e He)]. apply (net_mono _ _ _ _ _ _ _ net); auto; lia.
  - intros; lia.
  - intros e He Ha. exfalso. assert (O := Ho e He). rewrite Z.sub_0_r in O. lia.
Qed.

End Inv.
End Net.
