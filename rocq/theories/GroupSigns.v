(** * Integers that compare like given elements of an ordered group

    Finitely many signs of sums [c1*x1 + ... + ck*xk] with integer coefficients stay the same
    when the elements are replaced by suitable integers (Fourier-Motzkin elimination). *)
From Coq Require Import QArith Lqa.
From Verif Require Import Base Data GroupSpec.
Local Open Scope Z_scope.

Section Signs.
Context {G : Type} {ops : DataOps G} (HG : ordered_group ops).

Notation "x <+> y" := (dadd x y) (at level 50, left associativity).
Notation "k <*> x" := (dmuli x k) (at level 40).
Notation O' := (@dzero G ops).
Notation "x <' y" := (dlt x y = true) (at level 70).

(** ** Arithmetic *)
Lemma g_zero_r x : x <+> O' = x.
Proof. rewrite (og_comm _ HG). apply (og_zero _ HG). Qed.
Lemma g_swap a b c d : (a <+> b) <+> (c <+> d) = (a <+> c) <+> (b <+> d).
Proof. rewrite !(og_assoc _ HG). f_equal. rewrite <- !(og_assoc _ HG). f_equal. apply (og_comm _ HG). Qed.
Lemma g_cancel a b c : a <+> b = a <+> c -> b = c.
Proof.
  intros H. rewrite <- (og_zero _ HG b), <- (og_zero _ HG c), <- (og_opp _ HG a), <- !(og_assoc _ HG). rewrite H. reflexivity.
Qed.
Lemma g_mulP x w : (w - 1) <*> x <+> x = w <*> x.
Proof. rewrite <- (og_mulS _ HG). f_equal. lia. Qed.
Lemma g_ind (P : Z -> Prop) : P 0 -> (forall w, P w <-> P (w + 1)) -> forall w, P w.
Proof.
  intros H0 HS. assert (A : forall k : nat, P (Z.of_nat k) /\ P (- Z.of_nat k)).
  { induction k as [|k [IH1 IH2]]; [split; exact H0|]. split.
    - replace (Z.of_nat (S k)) with (Z.of_nat k + 1) by lia. apply (proj1 (HS _)). exact IH1.
    - apply (proj2 (HS _)). replace (- Z.of_nat (S k) + 1) with (- Z.of_nat k) by lia. exact IH2. }
  intros w. destruct (Z_le_gt_dec 0 w).
  - rewrite <- (Z2Nat.id w) by lia. apply A.
  - replace w with (- Z.of_nat (Z.to_nat (- w))) by lia. apply A.
Qed.
Lemma g_mul_1 x : 1 <*> x = x.
Proof. change 1 with (0 + 1). rewrite (og_mulS _ HG), (og_mul0 _ HG). apply (og_zero _ HG). Qed.
Lemma g_cancel_r a b c : a <+> c = b <+> c -> a = b.
Proof. rewrite !(og_comm _ HG _ c). apply g_cancel. Qed.
Lemma g_mul_add x v : forall w, (v + w) <*> x = v <*> x <+> w <*> x.
Proof.
  apply g_ind; [rewrite Z.add_0_r, (og_mul0 _ HG), g_zero_r; reflexivity|]. intros w.
  rewrite Z.add_assoc, !(og_mulS _ HG), (og_assoc _ HG). split; [intros ->; reflexivity|apply g_cancel_r].
Qed.
Lemma g_mul_zero : forall w, w <*> O' = O'.
Proof. apply g_ind; [apply (og_mul0 _ HG)|]. intros w. rewrite (og_mulS _ HG), g_zero_r. reflexivity. Qed.
Lemma g_mul_dist x y : forall w, w <*> (x <+> y) = w <*> x <+> w <*> y.
Proof.
  apply g_ind; [rewrite !(og_mul0 _ HG), g_zero_r; reflexivity|]. intros w. rewrite !(og_mulS _ HG), (g_swap _ x).
  split; [intros ->; reflexivity|apply g_cancel_r].
Qed.
Lemma g_mul_mul x v : forall w, (w * v) <*> x = w <*> (v <*> x).
Proof.
  apply g_ind; [rewrite Z.mul_0_l, !(og_mul0 _ HG); reflexivity|]. intros w. rewrite Z.mul_add_distr_r, Z.mul_1_l, g_mul_add, (og_mulS _ HG).
  split; [intros ->; reflexivity|apply g_cancel_r].
Qed.
Lemma g_opp_mul x : dopp x = (-1) <*> x.
Proof. apply (g_cancel_r _ _ x). rewrite (og_opp _ HG), <- (og_mulS _ HG). symmetry. apply (og_mul0 _ HG). Qed.

(** ** Order *)
Lemma g_lt_not x y : x <' y -> dlt y x = false.
Proof. intros H. destruct (dlt y x) eqn:E; [|reflexivity]. assert (X := og_trans _ HG _ _ _ H E). rewrite (og_irrefl _ HG) in X. discriminate. Qed.
Lemma g_add_pos x y : O' <' x -> O' <' y -> O' <' x <+> y.
Proof. intros H1 H2. apply (og_trans _ HG _ x); [exact H1|]. rewrite <- (g_zero_r x) at 1. apply (og_add _ HG). exact H2. Qed.
Lemma g_mul_pos x : O' <' x -> forall k, 0 < k -> O' <' k <*> x.
Proof.
  intros H k Hk. replace k with (Z.of_nat (Z.to_nat (k - 1)) + 1) by lia. generalize (Z.to_nat (k - 1)). clear k Hk.
  induction n as [|n IH]; [rewrite (og_mulS _ HG), (og_mul0 _ HG), (og_zero _ HG); exact H|].
  rewrite (og_mulS _ HG). apply g_add_pos; [|exact H]. replace (Z.of_nat (S n)) with (Z.of_nat n + 1) by lia. exact IH.
Qed.
Lemma g_add_neg x y : x <' O' -> y <' O' -> x <+> y <' O'.
Proof. intros H1 H2. apply (og_trans _ HG _ x); [|exact H1]. rewrite <- (g_zero_r x) at 2. apply (og_add _ HG). exact H2. Qed.
Lemma g_opp_sign x : O' <' (-1) <*> x <-> x <' O'.
Proof.
  split; intros H.
  - apply (og_add _ HG _ _ x) in H. rewrite g_zero_r, <- (g_mul_1 x), <- g_mul_mul, <- g_mul_add in H. cbn in H. rewrite g_mul_1, (og_mul0 _ HG) in H. exact H.
  - apply (og_add _ HG _ _ ((-1) <*> x)) in H. rewrite g_zero_r in H. rewrite <- (g_mul_1 x) in H at 2. rewrite <- g_mul_add in H. cbn in H. rewrite (og_mul0 _ HG) in H. exact H.
Qed.
Lemma g_mul_sign x k : 0 < k -> (O' <' k <*> x <-> O' <' x).
Proof.
  intros Hk. split; [|intros H; apply g_mul_pos; auto]. intros H. destruct (og_total _ HG O' x) as [X|[X|X]]; [exact X| |].
  - rewrite <- X, g_mul_zero, (og_irrefl _ HG) in H. discriminate.
  - apply g_opp_sign in X. apply (g_mul_pos _ X k) in Hk. rewrite <- g_mul_mul in Hk. replace (k * -1) with (-1 * k) in Hk by lia. rewrite g_mul_mul in Hk. apply g_opp_sign in Hk.
    apply g_lt_not in Hk. rewrite H in Hk. discriminate.
Qed.
(** [x - y] *)
Lemma g_sub_pos x y : O' <' dsub x y <-> y <' x.
Proof.
  rewrite (og_sub _ HG). split; intros H.
  - apply (og_add _ HG _ _ y) in H. rewrite g_zero_r, (og_comm _ HG x), (og_assoc _ HG), (og_comm _ HG y (dopp y)), (og_opp _ HG), (og_zero _ HG) in H. exact H.
  - apply (og_add _ HG _ _ (dopp y)) in H. rewrite (og_opp _ HG), (og_comm _ HG) in H. exact H.
Qed.

(** ** Forms *)
Definition form := list (Z * G).
Fixpoint valG (L : form) : G := match L with [] => O' | (c, x) :: L => c <*> x <+> valG L end.
Fixpoint valZ (p : G -> Z) (L : form) : Z := match L with [] => 0 | (c, x) :: L => c * p x + valZ p L end.
Fixpoint valQ (p : G -> Q) (L : form) : Q := match L with [] => 0 | (c, x) :: L => inject_Z c * p x + valQ p L end%Q.

Definition scale (k : Z) (L : form) : form := map (fun cx => (k * fst cx, snd cx)) L.

Lemma valG_scale k L : valG (scale k L) = k <*> valG L.
Proof. induction L as [|[c x] L IH]; cbn [scale map valG fst snd]; [rewrite g_mul_zero; reflexivity|]. unfold scale in IH. rewrite IH, g_mul_mul, g_mul_dist. reflexivity. Qed.
Lemma valZ_scale p k L : valZ p (scale k L) = k * valZ p L.
Proof. induction L as [|[c x] L IH]; cbn [scale map valZ fst snd]; [ring|]. unfold scale in IH. rewrite IH. ring. Qed.
Lemma valQ_scale p k L : (valQ p (scale k L) == inject_Z k * valQ p L)%Q.
Proof. induction L as [|[c x] L IH]; cbn [scale map valQ fst snd]; [ring|]. unfold scale in IH. rewrite IH, inject_Z_mult. ring. Qed.
Lemma valG_app L L' : valG (L ++ L') = valG L <+> valG L'.
Proof. induction L as [|[c x] L IH]; cbn [app valG]; [rewrite (og_zero _ HG); reflexivity|]. rewrite IH, (og_assoc _ HG). reflexivity. Qed.
Lemma valZ_app p L L' : valZ p (L ++ L') = valZ p L + valZ p L'.
Proof. induction L as [|[c x] L IH]; cbn [app valZ]; [ring|]. rewrite IH. ring. Qed.
Lemma valQ_app p L L' : (valQ p (L ++ L') == valQ p L + valQ p L')%Q.
Proof. induction L as [|[c x] L IH]; cbn [app valQ]; [ring|]. rewrite IH. ring. Qed.

(** ** Eliminating one element *)
Fixpoint coef (g : G) (L : form) : Z := match L with [] => 0 | (c, x) :: L => (if deq x g then c else 0) + coef g L end.
Fixpoint rem (g : G) (L : form) : form := match L with [] => [] | (c, x) :: L => if deq x g then rem g L else (c, x) :: rem g L end.
Definition put (p : G -> Q) (g : G) (v : Q) : G -> Q := fun x => if deq x g then v else p x.

Lemma valG_split g L : valG L = coef g L <*> g <+> valG (rem g L).
Proof.
  induction L as [|[c x] L IH]; cbn [valG coef rem]; [rewrite (og_mul0 _ HG), g_zero_r; reflexivity|].
  rewrite IH. destruct (deq x g) eqn:E.
  - apply (og_eq _ HG) in E. subst x. rewrite g_mul_add, (og_assoc _ HG). reflexivity.
  - rewrite Z.add_0_l. cbn [valG]. rewrite !(og_assoc _ HG). f_equal. apply (og_comm _ HG).
Qed.
Lemma valQ_put p g v L : (valQ (put p g v) L == inject_Z (coef g L) * v + valQ p (rem g L))%Q.
Proof.
  induction L as [|[c x] L IH]; cbn [valQ coef rem]; [ring|]. rewrite IH, inject_Z_plus. unfold put at 1. destruct (deq x g); cbn [valQ]; ring.
Qed.
Lemma rem_in g L c x : In (c, x) (rem g L) -> In (c, x) L /\ x <> g.
Proof.
  induction L as [|[c' x'] L IH]; cbn [rem]; [contradiction|]. destruct (deq x' g) eqn:E.
  - intros H. destruct (IH H). split; [right; auto|auto].
  - intros [H|H]; [injection H as -> ->; split; [left; reflexivity|intros ->; rewrite (proj2 (og_eq _ HG g g) eq_refl) in E; discriminate]|].
    destruct (IH H). split; [right; auto|auto].
Qed.

(** a constraint: strictly positive, or not negative *)
Definition con := (bool * form)%type.
Definition satG (c : con) : Prop := if fst c then O' <' valG (snd c) else dlt (valG (snd c)) O' = false.
Definition satQ (p : G -> Q) (c : con) : Prop := if fst c then (0 < valQ p (snd c))%Q else (0 <= valQ p (snd c))%Q.

Definition resolve (g : G) (c d : con) : con :=
  (fst c || fst d, scale (coef g (snd c)) (rem g (snd d)) ++ scale (- coef g (snd d)) (rem g (snd c))).
Definition pos g (cs : list con) := filter (fun c => 0 <? coef g (snd c)) cs.
Definition neg g (cs : list con) := filter (fun c => coef g (snd c) <? 0) cs.
Definition nul g (cs : list con) := filter (fun c => coef g (snd c) =? 0) cs.
Definition eliminate (g : G) (cs : list con) : list con :=
  map (fun c => (fst c, rem g (snd c))) (nul g cs) ++ map (fun cd => resolve g (fst cd) (snd cd)) (list_prod (pos g cs) (neg g cs)).

Lemma nonneg_cases x : dlt x O' = false -> O' <' x \/ x = O'.
Proof. intros H. destruct (og_total _ HG O' x) as [X|[X|X]]; [left; exact X|right; symmetry; exact X|rewrite H in X; discriminate]. Qed.
Lemma sat_mul c k : 0 < k -> satG c -> satG (fst c, scale k (snd c)).
Proof.
  intros Hk. unfold satG. cbn [fst snd]. rewrite valG_scale. destruct (fst c); intros H; [apply g_mul_pos; auto|].
  destruct (nonneg_cases _ H) as [X| ->]; [apply g_lt_not, g_mul_pos; auto|rewrite g_mul_zero; apply (og_irrefl _ HG)].
Qed.
Lemma sat_add b b' L L' : satG (b, L) -> satG (b', L') -> satG (b || b', L ++ L').
Proof.
  unfold satG. cbn [fst snd]. rewrite valG_app. intros H1 H2.
  assert (C1 : O' <' valG L \/ (b = false /\ valG L = O')) by (destruct b; [left; exact H1|destruct (nonneg_cases _ H1); auto]).
  assert (C2 : O' <' valG L' \/ (b' = false /\ valG L' = O')) by (destruct b'; [left; exact H2|destruct (nonneg_cases _ H2); auto]).
  assert (X : O' <' valG L <+> valG L' \/ (b || b' = false /\ valG L <+> valG L' = O')).
  { destruct C1 as [C1|[-> C1]], C2 as [C2|[-> C2]].
    - left. apply g_add_pos; auto.
    - left. rewrite C2, g_zero_r. exact C1.
    - left. rewrite C1, (og_zero _ HG). exact C2.
    - right. rewrite C1, C2, g_zero_r. auto. }
  destruct X as [X|[-> X]]; [destruct (b || b'); [exact X|apply g_lt_not; exact X]|rewrite X; apply (og_irrefl _ HG)].
Qed.

Lemma eliminate_sat g cs : (forall c, In c cs -> satG c) -> forall c, In c (eliminate g cs) -> satG c.
Proof.
  intros H c Hc. apply in_app_or in Hc. destruct Hc as [Hc|Hc]; apply in_map_iff in Hc.
  - destruct Hc as (d & <- & Hd). apply filter_In in Hd. destruct Hd as [Hd E]. apply Z.eqb_eq in E. specialize (H d Hd). unfold satG in *. cbn [fst snd].
    rewrite (valG_split g (snd d)), E, (og_mul0 _ HG), (og_zero _ HG) in H. exact H.
  - destruct Hc as ([c1 c2] & <- & Hc). apply in_prod_iff in Hc. destruct Hc as [H1 H2]. apply filter_In in H1, H2. destruct H1 as [H1 E1], H2 as [H2 E2].
    apply Z.ltb_lt in E1. apply Z.ltb_lt in E2. cbn [fst snd].
    assert (X := sat_add _ _ _ _ (sat_mul c1 (- coef g (snd c2)) ltac:(lia) (H c1 H1)) (sat_mul c2 (coef g (snd c1)) E1 (H c2 H2))).
    unfold resolve, satG in *. cbn [fst snd] in *. rewrite valG_app, !valG_scale in *.
    rewrite (valG_split g (snd c1)), (valG_split g (snd c2)) in X. rewrite !g_mul_dist, <- !g_mul_mul, g_swap, <- g_mul_add in X.
    replace (- coef g (snd c2) * coef g (snd c1) + coef g (snd c1) * coef g (snd c2)) with 0 in X by ring. rewrite (og_mul0 _ HG), (og_zero _ HG) in X.
    rewrite (og_comm _ HG). exact X.
Qed.
Lemma eliminate_elems g gs cs : (forall c, In c cs -> forall k x, In (k, x) (snd c) -> In x (g :: gs)) ->
  forall c, In c (eliminate g cs) -> forall k x, In (k, x) (snd c) -> In x gs.
Proof.
  intros H. assert (A : forall c, In c cs -> forall k x, In (k, x) (rem g (snd c)) -> In x gs).
  { intros c Hc k x Hx. apply rem_in in Hx. destruct Hx as [Hx Hn]. destruct (H c Hc k x Hx) as [E|E]; [subst; contradiction|exact E]. }
  assert (B : forall m L, (forall k x, In (k, x) L -> In x gs) -> forall k x, In (k, x) (scale m L) -> In x gs).
  { intros m L HL k x Hx. apply in_map_iff in Hx. destruct Hx as ([k' x'] & E & Hx). cbn [fst snd] in E. injection E as <- <-. eauto. }
  intros c Hc k x Hx. apply in_app_or in Hc. destruct Hc as [Hc|Hc]; apply in_map_iff in Hc.
  - destruct Hc as (d & <- & Hd). apply filter_In in Hd. destruct Hd as [Hd _]. exact (A d Hd k x Hx).
  - destruct Hc as ([c1 c2] & <- & Hc). apply in_prod_iff in Hc. destruct Hc as [H1 H2]. apply filter_In in H1, H2. destruct H1 as [H1 _], H2 as [H2 _].
    cbn [resolve fst snd] in Hx. apply in_app_or in Hx. destruct Hx as [Hx|Hx]; eapply B; try exact Hx; eauto.
Qed.

(** ** A rational number between finitely many bounds *)
Local Open Scope Q_scope.
Lemma greatest (l : list (bool * Q)) : l <> [] -> exists m, In m l /\ forall x, In x l -> snd x <= snd m.
Proof.
  induction l as [|a l IH]; [contradiction|]. intros _. destruct l as [|b l]; [exists a; split; [left; reflexivity|intros x [<-|[]]; lra]|].
  destruct IH as (m & Hm & H); [discriminate|]. destruct (Qlt_le_dec (snd m) (snd a)).
  - exists a. split; [left; reflexivity|]. intros x [<-|Hx]; [lra|]. specialize (H x Hx). lra.
  - exists m. split; [right; exact Hm|]. intros x [<-|Hx]; [lra|auto].
Qed.
Definition above (b : bool) (x y : Q) : Prop := if b then x < y else x <= y.
Lemma between (ls us : list (bool * Q)) : (forall l u, In l ls -> In u us -> above (fst l || fst u) (snd l) (snd u)) ->
  exists v, (forall l, In l ls -> above (fst l) (snd l) v) /\ (forall u, In u us -> above (fst u) v (snd u)).
Proof.
  intros H.
  assert (S : forall b x y, x < y -> above b x y) by (intros [|] x y Hxy; unfold above; lra).
  destruct ls as [|l0 ls0] eqn:El; [destruct us as [|u0 us0] eqn:Eu|].
  - exists 0. split; contradiction.
  - rewrite <- Eu in *. destruct (greatest (map (fun u => (fst u, - snd u)) us)) as (m & Hm & Hmax); [rewrite Eu; discriminate|].
    exists (- snd m - 1). split; [contradiction|]. intros u Hu. specialize (Hmax (fst u, - snd u) ltac:(apply in_map_iff; eauto)). cbn [snd] in Hmax. apply S. lra.
  - rewrite <- El in *. destruct (greatest ls) as (m & Hm & Hmax); [rewrite El; discriminate|]. destruct us as [|u0 us0] eqn:Eu.
    + exists (snd m + 1). split; [|contradiction]. intros l Hl. specialize (Hmax l Hl). apply S. lra.
    + rewrite <- Eu in *. destruct (greatest (map (fun u => (fst u, - snd u)) us)) as (w & Hw & Hwmax); [rewrite Eu; discriminate|].
      apply in_map_iff in Hw. destruct Hw as (u & <- & Hu). cbn [snd] in Hwmax.
      assert (Hmin : forall x, In x us -> snd u <= snd x).
      { intros x Hx. specialize (Hwmax (fst x, - snd x) ltac:(apply in_map_iff; eauto)). cbn [snd] in Hwmax. lra. }
      assert (Hmu : snd m <= snd u) by (specialize (H m u Hm Hu); unfold above in H; destruct (fst m || fst u)%bool; lra).
      exists ((snd m + snd u) / 2). assert (Hh : (snd m + snd u) / 2 == (1 # 2) * (snd m + snd u)) by field. unfold above. split.
      * intros l Hl. specialize (Hmax l Hl). specialize (H l u Hl Hu). unfold above in H. destruct (fst l); cbn [orb] in H; lra.
      * intros x Hx. specialize (Hmin x Hx). specialize (H m x Hm Hx). unfold above in H. destruct (fst x); [rewrite orb_true_r in H|]; lra.
Qed.

Lemma inject_pos k : (0 < k)%Z -> 0 < inject_Z k.
Proof. intros H. replace 0 with (inject_Z 0) by reflexivity. rewrite <- Zlt_Qlt. exact H. Qed.

Lemma eliminate_back g cs p : (forall c, In c (eliminate g cs) -> satQ p c) -> exists v, forall c, In c cs -> satQ (put p g v) c.
Proof.
  intros H. pose (bd := fun c : con => (fst c, - valQ p (rem g (snd c)) / inject_Z (coef g (snd c)))).
  destruct (between (map bd (pos g cs)) (map bd (neg g cs))) as (v & V1 & V2).
  - intros l u Hl Hu. apply in_map_iff in Hl, Hu. destruct Hl as (c & <- & Hc), Hu as (d & <- & Hd).
    assert (X : satQ p (resolve g c d)).
    { apply H. apply in_or_app. right. apply in_map_iff. exists (c, d). split; [reflexivity|]. apply in_prod; auto. }
    apply filter_In in Hc, Hd. destruct Hc as [_ Ec], Hd as [_ Ed]. apply Z.ltb_lt in Ec, Ed. unfold bd. cbn [fst snd]. unfold resolve, satQ in X. cbn [fst snd] in X.
    assert (Ex := valQ_app p (scale (coef g (snd c)) (rem g (snd d))) (scale (- coef g (snd d)) (rem g (snd c)))). rewrite !valQ_scale, inject_Z_opp in Ex. assert (Pc := inject_pos _ Ec). assert (Pd := inject_pos (- coef g (snd d)) ltac:(lia)). rewrite inject_Z_opp in Pd.
    set (a := inject_Z (coef g (snd c))) in *. set (b := inject_Z (coef g (snd d))) in *. set (r := valQ p (rem g (snd c))) in *. set (s := valQ p (rem g (snd d))) in *.
    assert (Ea : - r / a == (- r * - b) * / (a * - b)) by (field; split; lra). assert (Eb : - s / b == (a * s) * / (a * - b)) by (field; split; lra).
    assert (Hab : 0 < a * - b) by (apply Qmult_lt_0_compat; lra). apply Qinv_lt_0_compat in Hab.
    unfold above. destruct (fst c || fst d)%bool; rewrite Ea, Eb; rewrite Ex in X.
    + apply Qmult_lt_compat_r; [exact Hab|]. lra.
    + apply Qmult_le_compat_r; [|lra]. lra.
  - exists v. intros c Hc. unfold satQ. destruct (Z.lt_trichotomy (coef g (snd c)) 0) as [E|[E|E]].
    + assert (B := V2 (bd c) ltac:(apply in_map, filter_In; split; [exact Hc|apply Z.ltb_lt; exact E])). unfold bd, above in B. cbn [fst snd] in B.
      assert (Pd := inject_pos (- coef g (snd c)) ltac:(lia)). rewrite inject_Z_opp in Pd. assert (Ex := valQ_put p g v (snd c)).
      set (b := inject_Z (coef g (snd c))) in *. set (r := valQ p (rem g (snd c))) in *. assert (Eb : - r / b == r * / - b) by (field; lra).
      assert (R : (r * / - b) * - b == r) by (field; lra).
      destruct (fst c); rewrite Ex; rewrite Eb in B.
      * apply (Qmult_lt_compat_r _ _ (- b) Pd) in B. lra.
      * apply (fun X => Qmult_le_compat_r _ _ (- b) X (Qlt_le_weak _ _ Pd)) in B. lra.
    + assert (X := H (fst c, rem g (snd c)) ltac:(apply in_or_app; left; apply in_map_iff; exists c; split; [reflexivity|apply filter_In; split; [exact Hc|apply Z.eqb_eq; exact E]])).
      unfold satQ in X. cbn [fst snd] in X. assert (Ex := valQ_put p g v (snd c)). rewrite E in Ex. change (inject_Z 0) with 0 in Ex. destruct (fst c); lra.
    + assert (B := V1 (bd c) ltac:(apply in_map, filter_In; split; [exact Hc|apply Z.ltb_lt; exact E])). unfold bd, above in B. cbn [fst snd] in B.
      assert (Pd := inject_pos (coef g (snd c)) E). assert (Ex := valQ_put p g v (snd c)).
      set (b := inject_Z (coef g (snd c))) in *. set (r := valQ p (rem g (snd c))) in *.
      assert (R : (- r / b) * b == - r) by (field; lra).
      destruct (fst c); rewrite Ex.
      * apply (Qmult_lt_compat_r _ _ b Pd) in B. lra.
      * apply (fun X => Qmult_le_compat_r _ _ b X (Qlt_le_weak _ _ Pd)) in B. lra.
Qed.

Lemma solvable gs : forall cs, (forall c, In c cs -> forall k x, In (k, x) (snd c) -> In x gs) -> (forall c, In c cs -> satG c) ->
  exists p, forall c, In c cs -> satQ p c.
Proof.
  induction gs as [|g gs IH]; intros cs He Hs.
  - exists (fun _ => 0). intros [b L] Hc. specialize (He _ Hc). specialize (Hs _ Hc). destruct L as [|[k x] L]; [|destruct (He k x (or_introl eq_refl))].
    unfold satG, satQ in *. cbn [fst snd valG valQ] in *. destruct b; [rewrite (og_irrefl _ HG) in Hs; discriminate|lra].
  - destruct (IH (eliminate g cs)) as (p & Hp); [exact (eliminate_elems g gs cs He)|exact (eliminate_sat g cs Hs)|].
    destruct (eliminate_back g cs p Hp) as (v & Hv). eauto.
Qed.

(** ** Integers *)
Lemma denominators (p : G -> Q) gs : exists d : Z, (0 < d)%Z /\ forall x, In x gs -> exists z, inject_Z d * p x == inject_Z z.
Proof.
  induction gs as [|g gs (d & Hd & IH)]; [exists 1%Z; split; [lia|contradiction]|]. exists (Zpos (Qden (p g)) * d)%Z. split; [lia|].
  assert (Hg : inject_Z (Zpos (Qden (p g))) * p g == inject_Z (Qnum (p g))).
  { destruct (p g) as [a b]. cbn [Qnum Qden]. unfold Qeq, inject_Z, Qmult. cbn [Qnum Qden]. lia. }
  intros x [<-|Hx].
  - exists (d * Qnum (p g))%Z. rewrite !inject_Z_mult, <- Hg. ring.
  - destruct (IH x Hx) as (z & Hz). exists (Zpos (Qden (p g)) * z)%Z. rewrite !inject_Z_mult, <- Hz. ring.
Qed.

(** [p] keeps the signs of the forms of [Ls] *)
Definition keeps (Ls : list form) (p : G -> Z) : Prop := forall L, In L Ls -> ((0 < valZ p L)%Z <-> O' <' valG L).

Theorem keeps_exists (Ls : list form) : exists p, keeps Ls p.
Proof.
  pose (con_of := fun L : form => if dlt O' (valG L) then (true, L) else (false, scale (-1) L)).
  pose (gs := flat_map (map snd) Ls).
  assert (Hin : forall L, In L Ls -> forall k x, In (k, x) L -> In x gs).
  { intros L HL k x Hx. apply in_flat_map. exists L. split; [exact HL|]. apply in_map_iff. exists (k, x). auto. }
  destruct (solvable gs (map con_of Ls)) as (q & Hq).
  - intros c Hc. apply in_map_iff in Hc. destruct Hc as (L & <- & HL). unfold con_of. destruct (dlt O' (valG L)); cbn [snd]; [exact (Hin L HL)|].
    intros k x Hx. apply in_map_iff in Hx. destruct Hx as ([k' x'] & E & Hx). injection E as <- <-. exact (Hin L HL k' x' Hx).
  - intros c Hc. apply in_map_iff in Hc. destruct Hc as (L & <- & HL). unfold con_of, satG. destruct (dlt O' (valG L)) eqn:E; cbn [fst snd]; [exact E|].
    rewrite valG_scale. destruct (dlt ((-1) <*> valG L) O') eqn:E'; [|reflexivity]. apply g_opp_sign in E'. rewrite <- g_mul_mul in E'. cbn in E'. rewrite g_mul_1, E in E'. discriminate.
  - destruct (denominators q gs) as (d & Hd & Hz).
    pose (p := fun x => (Qnum (inject_Z d * q x) / Zpos (Qden (inject_Z d * q x)))%Z).
    assert (Hp : forall x, In x gs -> inject_Z (p x) == inject_Z d * q x).
    { intros x Hx. destruct (Hz x Hx) as (z & E). rewrite E. unfold p. unfold Qeq in E. cbn [Qnum Qden inject_Z] in E. rewrite Z.mul_1_r in E. rewrite E, Z.div_mul by lia. reflexivity. }
    assert (Hv : forall L, (forall k x, In (k, x) L -> In x gs) -> inject_Z (valZ p L) == inject_Z d * valQ q L).
    { induction L as [|[c x] L IH]; intros HL; cbn [valZ valQ]; [change (inject_Z 0) with 0; ring|].
      rewrite inject_Z_plus, inject_Z_mult, IH, Hp by (intros; eapply HL; cbn; eauto). ring. }
    exists p. intros L HL. specialize (Hv L (Hin L HL)). specialize (Hq (con_of L) (in_map con_of _ _ HL)). unfold con_of in Hq. assert (Pd := inject_pos d Hd).
    destruct (dlt O' (valG L)) eqn:E; unfold satQ in Hq; cbn [fst snd] in Hq.
    + split; [reflexivity|intros _]. rewrite Zlt_Qlt, Hv. change (inject_Z 0) with 0. apply Qmult_lt_0_compat; assumption.
    + split; [|discriminate]. intros X. exfalso. rewrite Zlt_Qlt, Hv in X. change (inject_Z 0) with 0 in X. rewrite valQ_scale in Hq. change (inject_Z (-1)) with (-(1)) in Hq.
      assert (0 <= inject_Z d * - valQ q L) by (apply Qmult_le_0_compat; lra). lra.
Qed.
End Signs.
