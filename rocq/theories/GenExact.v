(** * TinyGen on exact numbers *)
From Coq Require Import Permutation.
From Verif Require Import Base Data BaseLemmas ProblemDefine CostScaling Generator Sums Spec FlowOpt GenSpec GenRng GenGraphProof GenProof ScaleSpec ScaleExample.
Local Open Scope Z_scope.

Section Exact.
Variable u : Z.
Hypothesis Hu : 0 < u.
Let one := 4 * u.
#[local] Hint Extern 0 (DataOps Z) => exact (exact_ops one) : typeclass_instances.

Lemma quarter_eq k : quarter k = u * k.
Proof.
  unfold quarter, of_int. cbn [dmuli done dhalf exact_ops]. unfold one.
  replace (4 * u * k) with (u * k * 2 * 2) by ring. rewrite !Z.quot_mul by lia. reflexivity.
Qed.

Lemma fn_of_eq t : quadratic_cost u t (fn_of t).
Proof.
  destruct t as [[a b] c]. intro x. unfold fn_of, q3. rewrite !quarter_eq. unfold quadratic. cbn [dadd dmuli exact_ops]. f_equal. ring.
Qed.

Lemma q3_eq t : q3 t = shown u t.
Proof. destruct t as [[a b] c]. unfold q3, shown. rewrite !quarter_eq. reflexivity. Qed.

Lemma ends_eq x : edge_ends (edge_of x) = ends x.
Proof. destruct x as [[[[l r] t] i] j]. reflexivity. Qed.

Lemma tiny_result_of n mlimit multi nl el fl g q : tiny_shape n mlimit multi nl el fl true g q -> tiny_result u n mlimit multi nl el fl g /\ q = [].
Proof.
  intros (na & ea & H1 & H2 & H3 & H4 & H5 & H6 & H7 & H8 & H9 & H10 & H11 & H12). split; [|exact H11].
  unfold tiny_result. rewrite H6, H7, H12. cbn [length tl fst snd]. rewrite !map_length. split; [exact H1|]. split; [lia|]. split; [lia|]. split; [exact H4|].
  split; [|split].
  - clear -H8 Hu. induction na as [|[[l r] t] na IH]; cbn [map]; constructor; [|apply IH; intros; apply H8; right; assumption].
    destruct (H8 _ (or_introl eq_refl)) as [A B]. split; [exact A|]. exists t. split; [exact B|]. split; [apply fn_of_eq|]. cbn. rewrite q3_eq. reflexivity.
  - clear -H9 Hu. induction ea as [|[[[[l r] t] i] j] ea IH]; cbn [map]; constructor; [|apply IH; intros; apply H9; right; assumption].
    destruct (H9 _ (or_introl eq_refl)) as (A & B & C & E & F). split; [exact A|]. split; [exact C|]. split; [exact E|]. split; [exact F|].
    exists t. split; [exact B|]. split; [apply fn_of_eq|]. cbn. rewrite q3_eq. reflexivity.
  - intro Em. rewrite map_map. erewrite map_ext; [|apply ends_eq]. exact (H10 Em).
Qed.

(** ** The problem is admissible *)
Variables (n mlimit K r : Z) (multi : bool) (nl el fl : Z * Z) (g : graph Z).
Hypothesis HG : tiny_result u n mlimit multi nl el fl g.
Hypothesis Hn : 1 <= n.
Hypothesis Hnl : within_K K nl.
Hypothesis Hel : within_K K el.
Hypothesis Hfl : within_K r fl.
Hypothesis Hr : 0 <= r.
Hypothesis HK : 1 <= K.

Definition peak : Z := 4 * u * r * (K * K + K + 1).

Lemma quad_cost t f : quadratic_cost u t f -> forall x, cost f x = u * (let '(a, b, c) := t in a * x * x + b * x + c).
Proof. destruct t as [[a b] c]. intros H x. unfold cost. rewrite H. reflexivity. Qed.

Lemma quad_defined t f l h : quadratic_cost u t f -> defined_on f l h.
Proof. destruct t as [[a b] c]. intros H x _. rewrite H. eauto. Qed.

Lemma quad_convex t f l h : quadratic_cost u t f -> coefficients_in fl t -> convex_on (cost f) l h.
Proof using Hu.
  intros H HC x _. rewrite !(quad_cost t f H). destruct t as [[a b] c]. destruct HC as (Ha & _).
  assert (0 <= a) by lia. assert (0 <= u * a) by nia.
  replace (u * (a * (x - 1) * (x - 1) + b * (x - 1) + c) + u * (a * (x + 1) * (x + 1) + b * (x + 1) + c)) with (2 * (u * (a * x * x + b * x + c)) + 2 * (u * a)) by ring.
  lia.
Qed.

Lemma quad_peak t f x : quadratic_cost u t f -> coefficients_in fl t -> - K <= x <= K -> Z.abs (cost f x) <= peak.
Proof using Hu Hfl Hr HK.
  intros H HC Hx. rewrite (quad_cost t f H). destruct t as [[a b] c]. destruct HC as (Ha & Hb & Hc). destruct Hfl as [F1 F2].
  rewrite Z.abs_mul, (Z.abs_eq u) by lia. unfold peak.
  assert (A1 : Z.abs (a * x * x) <= 4 * r * (K * K)).
  { rewrite !Z.abs_mul. replace (Z.abs a * Z.abs x * Z.abs x) with (Z.abs a * (Z.abs x * Z.abs x)) by ring. apply Z.mul_le_mono_nonneg; [lia|lia|nia|apply Z.mul_le_mono_nonneg; lia]. }
  assert (A2 : Z.abs (b * x) <= 4 * r * K) by (rewrite Z.abs_mul; apply Z.mul_le_mono_nonneg; lia).
  assert (A3 : Z.abs (a * x * x + b * x + c) <= 4 * r * (K * K + K + 1)) by lia.
  replace (4 * u * r * (K * K + K + 1)) with (u * (4 * r * (K * K + K + 1))) by ring. apply Z.mul_le_mono_nonneg_l; lia.
Qed.

Let N := Z.to_nat n.

Lemma node_at i m : (1 <= i <= N)%nat -> nth_error (gr_node g) i = Some m -> exists x, node_made u nl fl m x.
Proof using HG.
  intros Hi Em. destruct HG as (_ & _ & _ & _ & F & _). destruct (gr_node g) as [|m0 ms]; [destruct i; discriminate|].
  destruct i as [|i]; [lia|]. cbn [nth_error tl] in *. clear -F Em. revert i Em. induction F as [|a b ms ls HP _ IH]; intros [|i] E; try discriminate; cbn in E.
  - injection E as <-. eauto.
  - eapply IH; exact E.
Qed.

Lemma edge_at o : In o (gr_edge g) -> exists x, edge_made u n el fl o x.
Proof using HG.
  destruct HG as (_ & _ & _ & _ & _ & F & _). clear -F. induction F as [|a b ms ls HP _ IH]; intros [].
  - subst. eauto.
  - apply IH; assumption.
Qed.

Lemma tiny_well_formed : well_formed N (gr_node g) (gr_edge g).
Proof using HG Hn Hu.
  destruct HG as (_ & L & _). split; [unfold N; lia|]. split.
  - intros i m Hi Em. destruct (node_at i m Hi Em) as (x & (R1 & R2 & R3) & t & C & Q & _).
    split; [lia|]. split; [eapply quad_defined; exact Q|eapply quad_convex; eassumption].
  - intros o Ho. destruct (edge_at o Ho) as (x & (R1 & R2 & R3) & I1 & I2 & I3 & t & C & Q & _).
    split; [lia|]. split; [eapply quad_defined; exact Q|]. split; [eapply quad_convex; eassumption|]. unfold N. split; [lia|]. split; [lia|exact I3].
Qed.

Lemma tiny_bounded : bounded_by N (gr_node g) (gr_edge g) K.
Proof using HG Hn Hnl Hel.
  destruct Hnl as [N1 N2], Hel as [E1 E2]. split.
  - intros i m Hi Em. destruct (node_at i m Hi Em) as (x & (R1 & R2 & R3) & _). lia.
  - intros o Ho. destruct (edge_at o Ho) as (x & (R1 & R2 & R3) & _). lia.
Qed.

Lemma tiny_costs : costs_within N (gr_node g) (gr_edge g) ((n + gr_m g) * peak).
Proof using HG Hnl Hel Hfl Hr HK Hu Hn.
  destruct tiny_bounded as [B1 B2]. exists (fun _ => peak), (fun _ => peak). split; [|split].
  - intros i m x Hi Em Hx. destruct (node_at i m Hi Em) as (y & _ & t & C & Q & _). destruct (B1 i m Hi Em).
    eapply quad_peak; [exact Q|exact C|lia].
  - intros k o x Ek Hx. apply nth_error_In in Ek. destruct (edge_at o Ek) as (y & _ & _ & _ & _ & t & C & Q & _). destruct (B2 o Ek).
    eapply quad_peak; [exact Q|exact C|lia].
  - destruct HG as (_ & _ & L & _). assert (S : forall l : list nat, sumZ (map (fun _ => peak) l) = Z.of_nat (length l) * peak).
    { induction l as [|a l IH]; cbn [map sumZ length]; [reflexivity|]. rewrite IH. lia. }
    rewrite !S, !seq_length, L. unfold N. rewrite Z2Nat.id by lia. lia.
Qed.

Lemma tiny_admissible : int_fits N K -> admissible N (gr_node g) (gr_edge g) K.
Proof using HG Hn Hnl Hel Hu. intro H. split; [exact tiny_well_formed|]. split; [exact tiny_bounded|exact H]. Qed.

Lemma tiny_spread : spread_within N (gr_node g) (gr_edge g) (2 * ((n + mlimit) * peak)).
Proof using HG Hnl Hel Hfl Hr HK Hu Hn.
  apply spread_of_costs. destruct tiny_costs as (wm & wo & H1 & H2 & H3). exists wm, wo. split; [exact H1|]. split; [exact H2|].
  destruct HG as (_ & _ & _ & L & _). assert (0 <= peak) by (unfold peak; assert (0 <= u * r) by nia; nia). nia.
Qed.
End Exact.
