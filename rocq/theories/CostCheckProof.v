(** * The commented-out assertion cannot fail with exact numbers *)
From Coq Require Import Floats.SpecFloat.
From Verif Require Import Base BaseLemmas Data ProblemDefine Flow Oracles CostScaling NetMath CostCheck.
Local Open Scope Z_scope.

(** nothing is checked *)
Lemma scan_none {D} {ops : DataOps D} : forall fuel u (s : refine_st D), scan_c (fun _ => Ok tt) fuel u s = scan fuel u s.
Proof.
  induction fuel as [|fuel IH]; intros u s; cbn [scan_c scan]; [reflexivity|]. destruct (vget (r_cur s) u) as [[i|]|]; cbn [bind]; try reflexivity.
  destruct (vget (r_edge s) i) as [a|]; cbn [bind]; [|reflexivity]. destruct (cost_pi (r_p s) u a) as [w|]; cbn [bind]; [|reflexivity].
  assert (X : (if dlt w dzero then x <- vget (r_exc s) u ;; push_c (fun _ => Ok tt) u i (dmin (a_cap a) x) s else Ok s) =
              (if dlt w dzero then x <- vget (r_exc s) u ;; push u i (dmin (a_cap a) x) s else Ok s)).
  { destruct (dlt w dzero); [|reflexivity]. destruct (vget (r_exc s) u) as [x|]; cbn [bind]; [|reflexivity]. unfold push_c.
    destruct (push u i (dmin (a_cap a) x) s); reflexivity. }
  rewrite X. clear X. destruct (if dlt w dzero then _ else _) as [t|]; cbn [bind]; [|reflexivity]. destruct (vget (r_exc t) u) as [x|]; cbn [bind]; [|reflexivity].
  destruct (deq x dzero); [reflexivity|]. destruct (vset (r_cur t) u (a_next a)); cbn [bind]; [apply IH|reflexivity].
Qed.

Lemma loop_none {D} {ops : DataOps D} fuel : forall k eps N head (s : refine_st D), refine_loop_c (fun _ => Ok tt) fuel k eps N head s = CostScaling.refine_loop fuel k eps N head s.
Proof.
  induction k as [|k IH]; intros eps N head s; cbn [refine_loop_c CostScaling.refine_loop]; [reflexivity|]. destruct (r_st s) as [|u st]; [reflexivity|].
  destruct (vset (r_vis s) u false) as [vis|]; cbn [bind]; [|reflexivity]. destruct (vget (r_inc _) u) as [x|]; cbn [bind]; [|reflexivity].
  destruct (dlt _ x); [reflexivity|]. unfold modify_c, modify.
  destruct (vget (r_exc _) u) as [y|]; cbn [bind]; [|reflexivity]. destruct (assert_ (dlt dzero y)); cbn [bind]; [|reflexivity]. rewrite scan_none.
  destruct (scan fuel u _) as [[[|] t]|]; cbn [bind]; [apply IH| |reflexivity].
  destruct (vget (r_exc t) u) as [z|]; cbn [bind]; [|reflexivity]. destruct (assert_ (dlt dzero z)); cbn [bind]; [|reflexivity].
  destruct (relabel eps u t) as [t1|]; cbn [bind]; [|reflexivity]. destruct (vget head u) as [h|]; cbn [bind]; [|reflexivity].
  destruct (vset (r_cur t1) u h); cbn [bind]; [|reflexivity]. destruct (vset (r_vis t1) u true); cbn [bind]; [apply IH|reflexivity].
Qed.

Lemma scale_none {D} {ops : DataOps D} fuel : forall k (cs : scaling D), scale_loop_c (fun _ => Ok tt) fuel k cs = scale_loop fuel k cs.
Proof.
  induction k as [|k IH]; intros cs; cbn [scale_loop_c scale_loop]; [reflexivity|]. destruct (dle done _); [|reflexivity]. unfold refine_c, CostScaling.refine.
  destruct (saturate_all fuel cs) as [[edge exc]|]; cbn [bind]; [|reflexivity]. destruct (init_stack exc _ _) as [[vis st]|]; cbn [bind]; [|reflexivity].
  rewrite loop_none. destruct (CostScaling.refine_loop _ _ _ _ _ _) as [[b s]|]; cbn [bind]; [|reflexivity]. destruct b; [apply IH|reflexivity].
Qed.

Theorem check_none {D} {ops : DataOps D} fuel n (arcs : list (InputEdge D)) : cs_min_cost_c (fun _ => Ok tt) fuel n arcs = cs_min_cost fuel n arcs.
Proof. unfold cs_min_cost_c, cs_min_cost. destruct (cs_init n arcs) as [cs|]; cbn [bind]; [|reflexivity]. rewrite scale_none. reflexivity. Qed.

(** ** The capacities of a pair add up to the first capacity *)
Section Exact.
Variable one : Z.
#[local] Hint Extern 0 (DataOps Z) => exact (exact_ops one) : typeclass_instances.
Variable tot : list Z.

Definition paired (edge : list (Arc Z)) : Prop :=
  length edge = length tot /\ (exists m, length tot = (2 * m)%nat) /\
  forall i a b, nth_error edge i = Some a -> nth_error edge (rev_id i) = Some b -> nth_error tot i = Some (a_cap a + a_cap b).

Lemma vset_some {A} (l l' : list A) i x : vset l i x = Ok l' -> (i < length l)%nat /\ l' = upd l i x.
Proof. unfold vset. destruct (i <? length l)%nat eqn:E; [|discriminate]. apply Nat.ltb_lt in E. intro H. injection H as <-. auto. Qed.

Lemma paired_check edge : paired edge -> check_totals tot edge = Ok tt.
Proof.
  intros (HL & (m & HM) & HP). unfold check_totals. assert (X : forall Q, (forall i, In i Q -> (i < length edge)%nat) -> for_each Q tt (fun _ i =>
    a <- vget edge i ;; b <- vget edge (rev_id i) ;; t <- vget tot i ;; assert_ (deq (dadd (a_cap a) (a_cap b)) t)) = Ok tt).
  { induction Q as [|i Q IH]; intro HQ; [reflexivity|]. cbn [for_each]. assert (Hi := HQ i (or_introl eq_refl)).
    assert (Hr : (rev_id i < length edge)%nat) by (rewrite HL, HM in *; apply rev_lt; exact Hi).
    destruct (nth_error edge i) as [a|] eqn:Ea; [|apply nth_error_None in Ea; lia]. destruct (nth_error edge (rev_id i)) as [b|] eqn:Eb; [|apply nth_error_None in Eb; lia].
    rewrite (vget_ok _ _ _ Ea). cbn [bind]. rewrite (vget_ok _ _ _ Eb). cbn [bind]. rewrite (vget_ok _ _ _ (HP i a b Ea Eb)). cbn [bind dadd deq exact_ops].
    rewrite Z.eqb_refl. cbn [assert_ bind]. apply IH. intros j Hj. apply HQ. right. exact Hj. }
  apply X. intros i Hi. apply in_seq in Hi. lia.
Qed.

Lemma paired_upd edge x a b a' b' : paired edge -> nth_error edge x = Some a -> nth_error edge (rev_id x) = Some b ->
  a_cap a' + a_cap b' = a_cap a + a_cap b -> paired (upd (upd edge x a') (rev_id x) b').
Proof.
  intros (HL & HM & HP) Ea Eb ES. assert (Lx : (x < length edge)%nat) by (apply nth_error_Some; congruence). assert (Lr : (rev_id x < length edge)%nat) by (apply nth_error_Some; congruence).
  assert (Nx := rev_neq x). split; [rewrite !upd_length; exact HL|]. split; [exact HM|]. intros i c d Ec Ed.
  assert (Vx : nth_error (upd (upd edge x a') (rev_id x) b') x = Some a') by (rewrite nth_error_upd_neq by auto; apply nth_error_upd_eq; exact Lx).
  assert (Vr : nth_error (upd (upd edge x a') (rev_id x) b') (rev_id x) = Some b') by (apply nth_error_upd_eq; rewrite upd_length; exact Lr).
  destruct (Nat.eq_dec i x) as [->|N1].
  { rewrite Vx in Ec. rewrite Vr in Ed. injection Ec as <-. injection Ed as <-. rewrite ES. exact (HP x a b Ea Eb). }
  destruct (Nat.eq_dec i (rev_id x)) as [->|N2].
  { rewrite rev_rev in Ed. rewrite Vr in Ec. rewrite Vx in Ed. injection Ec as <-. injection Ed as <-. rewrite Z.add_comm, ES, Z.add_comm. apply (HP _ b a Eb). rewrite rev_rev. exact Ea. }
  rewrite !nth_error_upd_neq in Ec by auto.
  assert (M1 : rev_id i <> x) by (intro E; apply N2; rewrite <- E, rev_rev; reflexivity).
  assert (M2 : rev_id i <> rev_id x) by (intro E; apply N1; rewrite <- (rev_rev i), E, rev_rev; reflexivity).
  rewrite !nth_error_upd_neq in Ed by auto. exact (HP i c d Ec Ed).
Qed.

Lemma push_paired u x flow (s t : refine_st Z) : paired (r_edge s) -> push u x flow s = Ok t -> paired (r_edge t).
Proof.
  intros HP H. unfold push in H. apply bind_inv in H. destruct H as (a & Ea & H). apply vget_inv in Ea.
  apply bind_inv in H. destruct H as (e1 & E1 & H). apply vset_some in E1. destruct E1 as [L1 ->].
  apply bind_inv in H. destruct H as (e2 & E2 & H). unfold add_cap in E2. apply bind_inv in E2. destruct E2 as (b & Eb & E2). apply vget_inv in Eb.
  assert (Nx := rev_neq x). rewrite nth_error_upd_neq in Eb by auto. apply vset_some in E2. destruct E2 as [L2 ->].
  assert (G : paired (upd (upd (r_edge s) x (with_cap a (dsub (a_cap a) flow))) (rev_id x) (with_cap b (dadd (a_cap b) flow)))).
  { apply (paired_upd _ x a b); auto. cbn [with_cap a_cap dsub dadd exact_ops]. lia. }
  apply bind_inv in H. destruct H as (x1 & _ & H). apply bind_inv in H. destruct H as (x2 & _ & H). apply bind_inv in H. destruct H as (x3 & _ & H). apply bind_inv in H. destruct H as (x4 & _ & H).
  destruct (dlt dzero x3 && negb x4); [apply bind_inv in H; destruct H as (x5 & _ & H)|]; injection H as <-; exact G.
Qed.

Lemma saturate_paired : forall fuel p u i edge exc e' x', paired edge -> saturate fuel p u i edge exc = Ok (e', x') -> paired e'.
Proof.
  induction fuel as [|fuel IH]; intros p u [i|] edge exc e' x' HP H; cbn [saturate] in H; try discriminate; try (injection H as <- <-; exact HP).
  apply bind_inv in H. destruct H as (a & Ea & H). apply bind_inv in H. destruct H as (w & _ & H). apply bind_inv in H. destruct H as ([e1 x1] & E1 & H).
  apply (IH _ _ _ _ _ _ _) with (2 := H). clear IH H. destruct (dlt w dzero); [|injection E1 as <- <-; exact HP]. apply vget_inv in Ea.
  apply bind_inv in E1. destruct E1 as (y1 & _ & E1). apply bind_inv in E1. destruct E1 as (y2 & _ & E1). apply bind_inv in E1. destruct E1 as (e2 & E2 & E1).
  unfold add_cap in E2. apply bind_inv in E2. destruct E2 as (b & Eb & E2). apply vget_inv in Eb. apply vset_some in E2. destruct E2 as [L2 ->].
  apply bind_inv in E1. destruct E1 as (a' & Ea' & E1). apply vget_inv in Ea'. assert (Nx := rev_neq i). rewrite nth_error_upd_neq in Ea' by auto. rewrite Ea in Ea'. injection Ea' as <-.
  apply bind_inv in E1. destruct E1 as (e3 & E3 & E1). apply vset_some in E3. destruct E3 as [L3 ->]. injection E1 as <- <-.
  assert (Ea2 : nth_error edge (rev_id (rev_id i)) = Some a) by (rewrite rev_rev; exact Ea).
  assert (G := paired_upd edge (rev_id i) b a (with_cap b (dadd (a_cap b) (a_cap a))) (with_cap a dzero) HP Eb Ea2). rewrite rev_rev in G. apply G.
  cbn [with_cap a_cap dadd dzero exact_ops]. lia.
Qed.

Lemma saturate_all_paired fuel (cs : scaling Z) e x : paired (c_edge cs) -> saturate_all fuel cs = Ok (e, x) -> paired e.
Proof.
  unfold saturate_all. intro HP.
  assert (X : forall Q e0 x0, paired e0 -> for_each Q (e0, x0) (fun '(edge, excess) u => i <- vget (c_head cs) u ;; saturate fuel (c_p cs) u i edge excess) = Ok (e, x) -> paired e).
  { induction Q as [|u Q IH]; intros e0 x0 H0 H; cbn [for_each] in H; [injection H as <- <-; exact H0|].
    apply bind_inv in H. destruct H as ([e1 x1] & E1 & H). apply bind_inv in E1. destruct E1 as (i & _ & E1). apply (IH e1 x1); [|exact H]. exact (saturate_paired _ _ _ _ _ _ _ _ H0 E1). }
  apply X. exact HP.
Qed.

Notation chk := (check_totals tot).

Lemma push_same u x flow (s : refine_st Z) : paired (r_edge s) -> push_c chk u x flow s = push u x flow s.
Proof.
  intro HP. unfold push_c. destruct (push u x flow s) as [t|] eqn:E; cbn [bind]; [|reflexivity]. rewrite (paired_check _ (push_paired u x flow s t HP E)). reflexivity.
Qed.

Lemma scan_same : forall fuel u (s : refine_st Z), paired (r_edge s) ->
  scan_c chk fuel u s = scan fuel u s /\ forall b t, scan fuel u s = Ok (b, t) -> paired (r_edge t).
Proof.
  induction fuel as [|fuel IH]; intros u s HP; cbn [scan_c scan]; destruct (vget (r_cur s) u) as [[i|]|]; cbn [bind];
    try (split; [reflexivity|intros b t H; try discriminate; injection H as <- <-; exact HP]).
  destruct (vget (r_edge s) i) as [a|]; cbn [bind]; [|split; [reflexivity|discriminate]]. destruct (cost_pi (r_p s) u a) as [w|]; cbn [bind]; [|split; [reflexivity|discriminate]].
  assert (X : (if dlt w dzero then x <- vget (r_exc s) u ;; push_c chk u i (dmin (a_cap a) x) s else Ok s) =
              (if dlt w dzero then x <- vget (r_exc s) u ;; push u i (dmin (a_cap a) x) s else Ok s)).
  { destruct (dlt w dzero); [|reflexivity]. destruct (vget (r_exc s) u) as [x|]; cbn [bind]; [|reflexivity]. apply push_same, HP. }
  rewrite X. clear X. destruct (if dlt w dzero then _ else _) as [t|] eqn:E; cbn [bind]; [|split; [reflexivity|discriminate]].
  assert (HT : paired (r_edge t)).
  { destruct (dlt w dzero); [|injection E as <-; exact HP]. apply bind_inv in E. destruct E as (x & _ & E). exact (push_paired _ _ _ _ _ HP E). }
  destruct (vget (r_exc t) u) as [x|]; cbn [bind]; [|split; [reflexivity|discriminate]].
  destruct (deq x dzero); [split; [reflexivity|intros b t' H; injection H as <- <-; exact HT]|].
  destruct (vset (r_cur t) u (a_next a)); cbn [bind]; [apply IH; exact HT|split; [reflexivity|discriminate]].
Qed.

Lemma loop_same fuel : forall k eps N head (s : refine_st Z), paired (r_edge s) ->
  refine_loop_c chk fuel k eps N head s = CostScaling.refine_loop fuel k eps N head s /\
  forall b t, CostScaling.refine_loop fuel k eps N head s = Ok (b, t) -> paired (r_edge t).
Proof.
  induction k as [|k IH]; intros eps N head s HP; cbn [refine_loop_c CostScaling.refine_loop]; destruct (r_st s) as [|u st];
    try (split; [reflexivity|intros b t H; try discriminate; injection H as <- <-; exact HP]).
  destruct (vset (r_vis s) u false) as [vis|]; cbn [bind]; [|split; [reflexivity|discriminate]]. destruct (vget (r_inc _) u) as [x|]; cbn [bind]; [|split; [reflexivity|discriminate]].
  destruct (dlt _ x); [split; [reflexivity|intros b t H; injection H as <- <-; exact HP]|]. unfold modify_c, modify.
  destruct (vget (r_exc _) u) as [y|]; cbn [bind]; [|split; [reflexivity|discriminate]]. destruct (assert_ (dlt dzero y)); cbn [bind]; [|split; [reflexivity|discriminate]].
  destruct (scan_same fuel u (mkR (r_edge s) (r_p s) (r_exc s) (r_inc s) (r_cur s) vis st) HP) as [E1 E2]. rewrite E1.
  destruct (scan fuel u _) as [[[|] t]|]; cbn [bind]; [apply IH, (E2 true t eq_refl)| |split; [reflexivity|discriminate]].
  specialize (E2 false t eq_refl).
  destruct (vget (r_exc t) u) as [z|]; cbn [bind]; [|split; [reflexivity|discriminate]]. destruct (assert_ (dlt dzero z)); cbn [bind]; [|split; [reflexivity|discriminate]].
  destruct (relabel eps u t) as [t1|] eqn:E3; cbn [bind]; [|split; [reflexivity|discriminate]].
  assert (E4 : r_edge t1 = r_edge t). { unfold relabel in E3. apply bind_inv in E3. destruct E3 as (? & _ & E3). apply bind_inv in E3. destruct E3 as (? & _ & E3). injection E3 as <-. reflexivity. }
  destruct (vget head u) as [h|]; cbn [bind]; [|split; [reflexivity|discriminate]].
  destruct (vset (r_cur t1) u h); cbn [bind]; [|split; [reflexivity|discriminate]]. destruct (vset (r_vis t1) u true); cbn [bind]; [|split; [reflexivity|discriminate]].
  apply IH. cbn [r_edge]. rewrite E4. exact E2.
Qed.

Lemma scale_same fuel : forall k (cs : scaling Z), paired (c_edge cs) -> scale_loop_c chk fuel k cs = scale_loop fuel k cs.
Proof.
  induction k as [|k IH]; intros cs HP; cbn [scale_loop_c scale_loop]; [reflexivity|]. destruct (dle done _); [|reflexivity]. unfold refine_c, CostScaling.refine.
  destruct (saturate_all fuel cs) as [[edge exc]|] eqn:E; cbn [bind]; [|reflexivity]. destruct (init_stack exc _ _) as [[vis st]|]; cbn [bind]; [|reflexivity].
  destruct (loop_same fuel fuel (c_eps cs) (c_N cs) (c_head cs) (mkR edge (c_p cs) exc (repeat dzero (c_N cs)) (c_head cs) vis st) (saturate_all_paired _ _ _ _ HP E)) as [E1 E2].
  rewrite E1. destruct (CostScaling.refine_loop _ _ _ _ _ _) as [[b s]|]; cbn [bind]; [|reflexivity]. destruct b; [|reflexivity]. apply IH. exact (E2 true s eq_refl).
Qed.
End Exact.

Section Run.
Variable one : Z.
#[local] Hint Extern 0 (DataOps Z) => exact (exact_ops one) : typeclass_instances.

Lemma add_edge_edge (cs t : scaling Z) u v c cap : add_edge cs u v c cap = Ok t -> exists h, c_edge t = c_edge cs ++ [mkArc h v c cap].
Proof.
  unfold add_edge. intro H. apply bind_inv in H. destruct H as (h & _ & H). apply bind_inv in H. destruct H as (hd & _ & H). injection H as <-. exists h. reflexivity.
Qed.

Lemma paired_more tot edge a b c : paired tot edge -> a_cap a = c -> a_cap b = 0 -> paired (tot ++ [c; c]) ((edge ++ [a]) ++ [b]).
Proof.
  intros (HL & (m & HM) & HP) Ea Eb. rewrite <- app_assoc. cbn [app]. split; [rewrite !app_length, HL; reflexivity|]. split; [exists (m + 1)%nat; rewrite app_length, HM; cbn; lia|].
  assert (R1 : rev_id (2 * m) = (2 * m + 1)%nat) by apply rev_even. assert (R2 : rev_id (2 * m + 1) = (2 * m)%nat) by apply rev_odd.
  assert (N0 : forall A (l : list A) x y, length l = (2 * m)%nat -> nth_error (l ++ [x; y]) (2 * m) = Some x /\ nth_error (l ++ [x; y]) (2 * m + 1) = Some y).
  { intros A l x y E. split; (rewrite nth_error_app2 by lia); rewrite E; [replace (2 * m - 2 * m)%nat with 0%nat by lia|replace (2 * m + 1 - 2 * m)%nat with 1%nat by lia]; reflexivity. }
  assert (NE := N0 _ edge a b ltac:(lia)). assert (NT := N0 _ tot c c HM). destruct NE as [NE1 NE2], NT as [NT1 NT2].
  intros i x y Ex Ey. assert (Li : (i < length (edge ++ [a; b]))%nat) by (apply nth_error_Some; congruence). rewrite app_length in Li. cbn in Li.
  destruct (Nat.eq_dec i (2 * m)) as [->|N1].
  { rewrite R1 in Ey. rewrite NE1 in Ex. rewrite NE2 in Ey. injection Ex as <-. injection Ey as <-. rewrite Ea, Eb, NT1. f_equal. lia. }
  destruct (Nat.eq_dec i (2 * m + 1)) as [->|N2].
  { rewrite R2 in Ey. rewrite NE2 in Ex. rewrite NE1 in Ey. injection Ex as <-. injection Ey as <-. rewrite Ea, Eb, NT2. f_equal. }
  assert (Hi : (i < 2 * m)%nat) by lia. assert (Hr := rev_lt i m Hi).
  rewrite nth_error_app1 in Ex by lia. rewrite nth_error_app1 in Ey by lia. rewrite nth_error_app1 by lia. exact (HP i x y Ex Ey).
Qed.

Lemma init_paired n arcs (cs : scaling Z) : cs_init n arcs = Ok cs -> paired (totals arcs) (c_edge cs).
Proof.
  unfold cs_init. intro H. apply bind_inv in H. destruct H as (cs1 & E & H). injection H as <-. cbn [c_edge].
  assert (X : forall Q tot cs0, paired tot (c_edge cs0) -> for_each Q cs0 (fun cs e =>
    let cs := mkCs (dmax (c_eps cs) (of_int (in_cost e))) (c_p cs) (c_head cs) (c_edge cs) (c_N cs)
                   (dadd (c_total cs) (dmuli (in_cap e) (in_cost e))) in
    cs <- add_edge cs (in_u e) (in_v e) (in_cost e) (in_cap e) ;;
    c <- ck (- in_cost e) ;;
    add_edge cs (in_v e) (in_u e) c dzero) = Ok cs1 -> paired (tot ++ totals Q) (c_edge cs1)).
  { induction Q as [|e Q IH]; intros tot cs0 H0 H; cbn [for_each totals flat_map] in *; [injection H as <-; rewrite app_nil_r; exact H0|].
    apply bind_inv in H. destruct H as (cs2 & E2 & H). apply bind_inv in E2. destruct E2 as (cs3 & E3 & E2). apply bind_inv in E2. destruct E2 as (c & _ & E2).
    destruct (add_edge_edge _ _ _ _ _ _ E3) as (h1 & X1). destruct (add_edge_edge _ _ _ _ _ _ E2) as (h2 & X2). cbn [c_edge] in X1.
    change ([in_cap e; in_cap e] ++ flat_map (fun e0 => [in_cap e0; in_cap e0]) Q) with ([in_cap e; in_cap e] ++ totals Q). rewrite app_assoc. apply (IH _ cs2); [|exact H].
    rewrite X2, X1. apply paired_more; [exact H0|reflexivity|reflexivity]. }
  apply (X arcs [] _) with (2 := E). split; [reflexivity|]. split; [exists 0%nat; reflexivity|]. intros i a b Ea. destruct i; discriminate.
Qed.

Theorem check_exact fuel n (arcs : list (InputEdge Z)) : cs_min_cost_c (check_totals (totals arcs)) fuel n arcs = cs_min_cost fuel n arcs.
Proof.
  unfold cs_min_cost_c, cs_min_cost. destruct (cs_init n arcs) as [cs|] eqn:E; cbn [bind]; [|reflexivity].
  rewrite (scale_same one (totals arcs) fuel fuel cs (init_paired n arcs cs E)). reflexivity.
Qed.
End Run.

(** ** Doubles, and arcs from a node to itself *)
Definition tenths_arcs : list (InputEdge spec_float) :=
  [mkIn 0 2 (-1) (S754_finite false 8106479329266893 (-53)); mkIn 2 1 1 (S754_finite false 8106479329266893 (-53));
   mkIn 0 1 (-1) (S754_finite false 4953959590107546 (-52)); mkIn 2 1 (-1) (S754_finite false 6004799503160661 (-54))].
Lemma check_double : exists n arcs v, @cs_min_cost spec_float f64_ops 300 n arcs = Ok (true, v) /\
  @cs_min_cost_c spec_float f64_ops (@check_totals _ f64_ops (totals arcs)) 300 n arcs = Err AssertFail.
Proof. exists 3%nat, tenths_arcs. eexists. split; vm_compute; reflexivity. Qed.

Definition loop_arcs : list (InputEdge Z) := [mkIn 0 1 1 1; mkIn 1 0 (-2) 1; mkIn 0 0 (-1) 1].
Lemma loop_assert : exists n arcs, Forall (fun e : InputEdge Z => (in_u e < n)%nat /\ (in_v e < n)%nat /\ 0 <= in_cap e) arcs /\
  @cs_min_cost Z (exact_ops 64) 300 n arcs = Err AssertFail /\
  @cs_min_cost Z (exact_ops 64) 300 n (filter (fun e => negb (in_u e =? in_v e)%nat) arcs) = Ok (true, 1).
Proof.
  exists 2%nat, loop_arcs. split; [|split; vm_compute; reflexivity]. repeat constructor; cbn; lia.
Qed.
