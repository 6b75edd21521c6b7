(** * Ordered groups: integers, rational numbers, lexicographic pairs *)
From Coq Require Import QArith Qcanon.
From Verif Require Import Base BaseLemmas Data ProblemDefine ProblemSolver Spec SolverProof GroupSpec GroupSigns EvHom GroupProof.
Local Open Scope Z_scope.

(** ** Integers, whose division by two truncates *)
Lemma int_group one : 0 < one -> ordered_group (exact_ops one).
Proof.
  intros H1. constructor; cbn [dzero done dadd dsub dopp dmuli dhalf dlt dle deq exact_ops]; intros; try lia.
  replace (x + x) with (x * 2) by lia. apply Z.quot_mul. lia.
Qed.

(** ** Rational numbers in lowest terms *)
Definition rat_ops : DataOps Qc := {|
  dzero := 0%Qc;
  done := 1%Qc;
  dadd := Qcplus;
  dsub := Qcminus;
  dopp := Qcopp;
  dmuli := fun a w => (a * Q2Qc (inject_Z w))%Qc;
  dhalf := fun a => (a * Q2Qc (1 # 2))%Qc;
  dlt := fun a b => match (a ?= b)%Qc with Lt => true | _ => false end;
  dle := fun a b => match (a ?= b)%Qc with Gt => false | _ => true end;
  deq := fun a b => match (a ?= b)%Qc with Eq => true | _ => false end
|}.

Lemma rat_lt a b : @dlt Qc rat_ops a b = true <-> (a < b)%Qc.
Proof. rewrite Qclt_alt. cbn [dlt rat_ops]. destruct (a ?= b)%Qc; split; congruence. Qed.

Lemma rat_group : ordered_group rat_ops.
Proof.
  constructor; cbn [dzero done dadd dsub dopp dmuli dhalf rat_ops]; intros.
  - apply Qcplus_comm.
  - apply Qcplus_assoc.
  - apply Qcplus_0_l.
  - rewrite Qcplus_comm. apply Qcplus_opp_r.
  - reflexivity.
  - change (Q2Qc (inject_Z 0)) with 0%Qc. ring.
  - assert (E : Q2Qc (inject_Z (w + 1)) = (Q2Qc (inject_Z w) + 1)%Qc).
    { apply Qc_is_canon. cbn [this Q2Qc Qcplus]. rewrite !Qred_correct, inject_Z_plus. reflexivity. }
    rewrite E. ring.
  - assert (E : (Q2Qc (1 # 2) + Q2Qc (1 # 2))%Qc = 1%Qc) by (apply Qc_is_canon; reflexivity).
    rewrite Qcmult_plus_distr_l, <- Qcmult_plus_distr_r, E. ring.
  - cbn [dlt rat_ops]. rewrite (proj1 (Qceq_alt x x) eq_refl). reflexivity.
  - rewrite rat_lt in *. eapply Qclt_trans; eauto.
  - rewrite !rat_lt. destruct (Qc_dec x y) as [[H|H]|H]; auto.
  - rewrite rat_lt in *. unfold Qclt in *. cbn [this Qcplus Q2Qc]. rewrite !Qred_correct. apply Qplus_lt_r. exact H.
  - cbn [dle dlt rat_ops]. unfold Qccompare. rewrite <- (Qcompare_antisym x y). destruct (x ?= y)%Q; reflexivity.
  - cbn [deq rat_ops]. rewrite Qceq_alt. destruct (x ?= y)%Qc; split; congruence.
  - reflexivity.
Qed.

(** ** Pairs, compared lexicographically *)
Section Lex.
Context {A B : Type} {opsA : DataOps A} {opsB : DataOps B}.

Definition lex_ops : DataOps (A * B) := {|
  dzero := (dzero, dzero);
  done := (done, done);
  dadd := fun x y => (dadd (fst x) (fst y), dadd (snd x) (snd y));
  dsub := fun x y => (dsub (fst x) (fst y), dsub (snd x) (snd y));
  dopp := fun x => (dopp (fst x), dopp (snd x));
  dmuli := fun x w => (dmuli (fst x) w, dmuli (snd x) w);
  dhalf := fun x => (dhalf (fst x), dhalf (snd x));
  dlt := fun x y => dlt (fst x) (fst y) || deq (fst x) (fst y) && dlt (snd x) (snd y);
  dle := fun x y => dlt (fst x) (fst y) || deq (fst x) (fst y) && dle (snd x) (snd y);
  deq := fun x y => deq (fst x) (fst y) && deq (snd x) (snd y)
|}.

Hypothesis HA : ordered_group opsA.
Hypothesis HB : ordered_group opsB.

Lemma lex_lt x y : @dlt _ lex_ops x y = true <-> dlt (fst x) (fst y) = true \/ fst x = fst y /\ dlt (snd x) (snd y) = true.
Proof. cbn [dlt lex_ops]. rewrite orb_true_iff, andb_true_iff, (og_eq _ HA). reflexivity. Qed.

Lemma lex_group : ordered_group lex_ops.
Proof.
  constructor; try (intros; cbn [dzero done dadd dsub dopp dmuli dhalf lex_ops fst snd]).
  - f_equal; [apply (og_comm _ HA)|apply (og_comm _ HB)].
  - f_equal; [apply (og_assoc _ HA)|apply (og_assoc _ HB)].
  - rewrite (og_zero _ HA), (og_zero _ HB). destruct x; reflexivity.
  - f_equal; [apply (og_opp _ HA)|apply (og_opp _ HB)].
  - f_equal; [apply (og_sub _ HA)|apply (og_sub _ HB)].
  - f_equal; [apply (og_mul0 _ HA)|apply (og_mul0 _ HB)].
  - f_equal; [apply (og_mulS _ HA)|apply (og_mulS _ HB)].
  - rewrite (og_half _ HA), (og_half _ HB). destruct x; reflexivity.
  - cbn [dlt lex_ops]. rewrite (og_irrefl _ HA), (og_irrefl _ HB), andb_false_r. reflexivity.
  - rewrite lex_lt in *. destruct H as [H|[E H]], H0 as [H0|[E0 H0]].
    + left. eapply (og_trans _ HA); eauto.
    + left. rewrite <- E0. exact H.
    + left. rewrite E. exact H0.
    + right. split; [congruence|eapply (og_trans _ HB); eauto].
  - rewrite !lex_lt. destruct x as [a b], y as [a' b']. cbn [fst snd]. destruct (og_total _ HA a a') as [H|[<-|H]]; auto.
    destruct (og_total _ HB b b') as [H|[<-|H]]; auto.
  - rewrite lex_lt in *. cbn [fst snd]. destruct H as [H|[-> H]]; [left; apply (og_add _ HA); exact H|right; split; [reflexivity|apply (og_add _ HB); exact H]].
  - cbn [dle dlt lex_ops]. rewrite (og_le _ HB). destruct (og_total _ HA (fst x) (fst y)) as [H|[H|H]].
    + rewrite H, (g_lt_not HA _ _ H). destruct (deq (fst y) (fst x)) eqn:E; [|reflexivity]. apply (og_eq _ HA) in E. rewrite E, (og_irrefl _ HA) in H. discriminate.
    + rewrite H, (og_irrefl _ HA), (proj2 (og_eq _ HA _ _) eq_refl). reflexivity.
    + rewrite H, (g_lt_not HA _ _ H). destruct (deq (fst x) (fst y)) eqn:E; [|reflexivity]. apply (og_eq _ HA) in E. rewrite E, (og_irrefl _ HA) in H. discriminate.
  - cbn [deq lex_ops]. rewrite andb_true_iff, (og_eq _ HA), (og_eq _ HB). destruct x, y; cbn [fst snd]. split; [intros [-> ->]; reflexivity|intros E; injection E; auto].
  - cbn [dlt lex_ops done dzero fst]. rewrite (og_one _ HA). reflexivity.
Qed.
End Lex.

(** ** The problem for one component of the costs *)
Definition on_fn {G H} (f : G -> H) (fn : Fn G) : Fn H := fun x => v <- fn x ;; Ok (f v).
Definition on_mu {G H} (f : G -> H) (m : MuLimit G) : MuLimit H := mkMu (m_l m) (m_u m) (on_fn f (m_fn m)).
Definition on_om {G H} (f : G -> H) (o : OmegaLimit G) : OmegaLimit H := mkOm (o_l o) (o_u o) (on_fn f (o_fn o)) (o_i o) (o_j o).

Section On.
Context {G H : Type} {opsG : DataOps G} {opsH : DataOps H} (f : G -> H).
Hypothesis f0 : f dzero = dzero.
Hypothesis fadd : forall x y, f (dadd x y) = dadd (f x) (f y).

Lemma on_cost fn x : gcost (on_fn f fn) x = f (gcost fn x).
Proof. unfold gcost, on_fn. destruct (fn x); cbn [bind]; auto. Qed.
Lemma on_sum l : sumG (map f l) = f (sumG l).
Proof. induction l as [|x l IH]; cbn [map sumG]; [auto|]. rewrite IH, fadd. reflexivity. Qed.
Lemma on_total n mus oms mu om : gtotal_cost n (map (on_mu f) mus) (map (on_om f) oms) mu om = f (gtotal_cost n mus oms mu om).
Proof.
  unfold gtotal_cost. rewrite fadd, <- !on_sum, !map_map, map_length. f_equal; f_equal; apply map_ext; intros i.
  - unfold gmu_cost. rewrite nth_error_map. destruct (nth_error mus i); cbn [option_map]; [apply on_cost|auto].
  - unfold gom_cost. rewrite nth_error_map. destruct (nth_error oms i); cbn [option_map]; [apply on_cost|auto].
Qed.
Lemma on_feasible n mus oms mu om : gfeasible n (map (on_mu f) mus) (map (on_om f) oms) mu om <-> gfeasible n mus oms mu om.
Proof.
  unfold gfeasible, gmu_bound. split; intros [H1 H2]; split.
  - intros i Hi. destruct (H1 i Hi) as (m & E & Hm). rewrite nth_error_map in E. destruct (nth_error mus i) as [m'|]; [|discriminate]. injection E as <-. eauto.
  - intros k o E. apply (H2 k (on_om f o)). rewrite nth_error_map, E. reflexivity.
  - intros i Hi. destruct (H1 i Hi) as (m & E & Hm). exists (on_mu f m). rewrite nth_error_map, E. auto.
  - intros k o E. rewrite nth_error_map in E. destruct (nth_error oms k) as [o'|] eqn:E'; [|discriminate]. injection E as <-. exact (H2 k o' E').
Qed.
End On.

Section LexSolve.
Context {A B : Type} {opsA : DataOps A} {opsB : DataOps B} (HA : ordered_group opsA) (HB : ordered_group opsB).
Local Existing Instance lex_ops.

Lemma lex_convex (fn : Fn (A * B)) l u : gdefined_on fn l u -> gconvex_on (gcost (on_fn fst fn)) l u -> gconvex_on (gcost (on_fn snd fn)) l u -> gconvex_on (gcost fn) l u.
Proof.
  intros Hd H1 H2 x Hx. specialize (H1 x Hx). specialize (H2 x Hx). rewrite !on_cost in H1 by reflexivity. rewrite !on_cost in H2 by reflexivity.
  cbn [dle lex_ops dadd fst snd] in *. rewrite H2, andb_true_r. rewrite (og_le _ HA) in H1.
  destruct (og_total _ HA (dadd (fst (gcost fn x)) (fst (gcost fn x))) (dadd (fst (gcost fn (x - 1))) (fst (gcost fn (x + 1))))) as [T|[T|T]].
  - rewrite T. reflexivity.
  - rewrite (proj2 (og_eq _ HA _ _) T), orb_true_r. reflexivity.
  - rewrite T in H1. discriminate.
Qed.

Lemma on_defined {G H} (f : G -> H) fn l u : gdefined_on (on_fn f fn) l u -> gdefined_on fn l u.
Proof. intros X x Hx. destruct (X x Hx) as [v E]. unfold on_fn in E. apply bind_inv in E. destruct E as (w & E & _). eauto. Qed.

Lemma lex_admissible n (mus : list (MuLimit (A * B))) oms K :
  gadmissible n (map (on_mu fst) mus) (map (on_om fst) oms) K -> gadmissible n (map (on_mu snd) mus) (map (on_om snd) oms) K -> gadmissible n mus oms K.
Proof.
  intros ((W1 & W2 & W3) & (B1 & B2) & HF) ((V1 & V2 & V3) & _ & _). rewrite map_length in W1. split; [|split; [|exact HF]].
  - split; [exact W1|]. split.
    + intros i m Hi E. assert (X := W2 i (on_mu fst m) Hi ltac:(rewrite nth_error_map, E; reflexivity)). assert (Y := V2 i (on_mu snd m) Hi ltac:(rewrite nth_error_map, E; reflexivity)).
      destruct X as (X1 & X2 & X3), Y as (_ & _ & Y3). cbn [on_mu m_l m_u m_fn] in *. split; [exact X1|]. apply on_defined in X2. split; [exact X2|]. apply lex_convex; auto.
    + intros o Hi. assert (X := W3 (on_om fst o) (in_map _ _ _ Hi)). assert (Y := V3 (on_om snd o) (in_map _ _ _ Hi)).
      destruct X as (X1 & X2 & X3 & X4), Y as (_ & _ & Y3 & _). cbn [on_om o_l o_u o_fn o_i o_j] in *. split; [exact X1|]. apply on_defined in X2. split; [exact X2|]. split; [apply lex_convex; auto|exact X4].
  - split.
    + intros i m Hi E. exact (B1 i (on_mu fst m) Hi ltac:(rewrite nth_error_map, E; reflexivity)).
    + intros o Hi. exact (B2 (on_om fst o) (in_map _ _ _ Hi)).
Qed.

Theorem lex_solve n (mus : list (MuLimit (A * B))) oms K fuel :
  gadmissible n (map (on_mu fst) mus) (map (on_om fst) oms) K -> gadmissible n (map (on_mu snd) mus) (map (on_om snd) oms) K ->
  solver_fuel n (length oms) K <= Z.of_nat fuel ->
  (exists a b mu om, @run_solver (A * B) lex_ops fuel (Z.of_nat n) mus oms = Ok (Some (a, b)) /\
    goptimum n (map (on_mu fst) mus) (map (on_om fst) oms) a /\
    gfeasible n mus oms mu om /\
    gtotal_cost n (map (on_mu fst) mus) (map (on_om fst) oms) mu om = a /\ gtotal_cost n (map (on_mu snd) mus) (map (on_om snd) oms) mu om = b /\
    (forall mu om, gfeasible n mus oms mu om -> gtotal_cost n (map (on_mu fst) mus) (map (on_om fst) oms) mu om = a ->
      dle b (gtotal_cost n (map (on_mu snd) mus) (map (on_om snd) oms) mu om) = true)) \/
  (@run_solver (A * B) lex_ops fuel (Z.of_nat n) mus oms = Ok None /\ ginfeasible n mus oms).
Proof.
  intros H1 H2 Hfuel. destruct (group_solve (lex_group HA HB) n mus oms K fuel (lex_admissible n mus oms K H1 H2) Hfuel) as [([a b] & E & (mu & om & F & C) & L)|N]; [left|right; exact N].
  assert (T1 : forall mu om, gtotal_cost n (map (on_mu fst) mus) (map (on_om fst) oms) mu om = fst (gtotal_cost n mus oms mu om)) by (intros; apply on_total; reflexivity).
  assert (T2 : forall mu om, gtotal_cost n (map (on_mu snd) mus) (map (on_om snd) oms) mu om = snd (gtotal_cost n mus oms mu om)) by (intros; apply on_total; reflexivity).
  assert (L' : forall mu om, gfeasible n mus oms mu om -> dlt a (fst (gtotal_cost n mus oms mu om)) = true \/ a = fst (gtotal_cost n mus oms mu om) /\ dle b (snd (gtotal_cost n mus oms mu om)) = true).
  { intros mu' om' F'. specialize (L mu' om' F'). cbn [dle lex_ops fst snd] in L. apply orb_true_iff in L. rewrite andb_true_iff, (og_eq _ HA) in L. exact L. }
  exists a, b, mu, om. split; [exact E|]. split; [|split; [exact F|split; [rewrite T1, C; reflexivity|split; [rewrite T2, C; reflexivity|]]]].
  - split.
    + exists mu, om. split; [apply on_feasible; exact F|]. rewrite T1, C. reflexivity.
    + intros mu' om' F'. apply on_feasible in F'. rewrite T1, (og_le _ HA). destruct (L' mu' om' F') as [X|[X _]]; [rewrite (g_lt_not HA _ _ X)|rewrite <- X, (og_irrefl _ HA)]; reflexivity.
  - intros mu' om' F' E'. rewrite T1 in E'. rewrite T2. destruct (L' mu' om' F') as [X|[_ X]]; [rewrite E', (og_irrefl _ HA) in X; discriminate|exact X].
Qed.
End LexSolve.
