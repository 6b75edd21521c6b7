(** * solve() with costs in an ordered group *)
From Coq Require Import FunctionalExtensionality.
From Verif Require Import Base BaseLemmas Data ProblemDefine ProblemSolver Spec SolverProof GroupSpec GroupSigns GroupPre EvHom GroupExpr.
Local Open Scope Z_scope.

Fixpoint tuples (A : list Z) (m : nat) : list (list Z) :=
  match m with O => [[]] | S m => flat_map (fun z => map (cons z) (tuples A m)) A end.

Lemma tuples_in A : forall l, (forall z, In z l -> In z A) -> In l (tuples A (length l)).
Proof.
  induction l as [|z l IH]; intros H; cbn [tuples length]; [left; reflexivity|].
  apply in_flat_map. exists z. split; [apply H; left; reflexivity|]. apply in_map. apply IH. intros y Hy. apply H. right. exact Hy.
Qed.

(** every choice within the ranges is one of finitely many *)
Definition zrange (K : Z) : list Z := map (fun k => Z.of_nat k - K) (seq 0 (Z.to_nat (2 * K + 1))).
Lemma zrange_in K z : - K <= z <= K -> In z (zrange K).
Proof. intros H. unfold zrange. apply in_map_iff. exists (Z.to_nat (z + K)). split; [lia|]. apply in_seq. lia. Qed.

Definition of_list (l : list Z) (i : nat) : Z := nth i l 0.

Lemma of_list_map (f : nat -> Z) s m i : (i < m)%nat -> of_list (map f (seq s m)) i = f (s + i)%nat.
Proof. intros H. unfold of_list. rewrite (nth_indep _ 0 (f 0%nat)) by (rewrite map_length, seq_length; exact H). rewrite map_nth, seq_nth by exact H. reflexivity. Qed.

Section Group.
Context {G : Type} {ops : DataOps G} (HG : ordered_group ops).
Notation evp := (ev good).

(** the problem with expressions for its costs *)
Definition efn (f : Fn G) : Fn (expr G) := fun x => rmap ELeaf (f x).
Definition emu (m : MuLimit G) : MuLimit (expr G) := mkMu (m_l m) (m_u m) (efn (m_fn m)).
Definition eom (o : OmegaLimit G) : OmegaLimit (expr G) := mkOm (o_l o) (o_u o) (efn (o_fn o)) (o_i o) (o_j o).

(** the problem with integers for its costs *)
Definition zfn (p : G -> Z) (f : Fn G) : Fn Z := fun x => rmap p (f x).
Definition zmu (p : G -> Z) (m : MuLimit G) : MuLimit Z := mkMu (m_l m) (m_u m) (zfn p (m_fn m)).
Definition zom (p : G -> Z) (o : OmegaLimit G) : OmegaLimit Z := mkOm (o_l o) (o_u o) (zfn p (o_fn o)) (o_i o) (o_j o).

Definition tri {A B} (f : A -> B) (p : A * A * A) : B * B * B := (f (fst (fst p)), f (snd (fst p)), f (snd p)).

Lemma run_group fuel n mus oms :
  @pre_run G ops fuel n mus oms = rmap (option_map (tri evG)) (@pre_run (expr G) expr_ops fuel n (map emu mus) (map eom oms)).
Proof.
  assert (X := @pre_run_cm (expr G) G unit unit expr_ops (fun _ => ops) (fun _ => evG) (fun _ _ => True) tt).
  destruct (X ltac:(intros; exists tt; auto) ltac:(reflexivity) ltac:(reflexivity) ltac:(reflexivity) ltac:(reflexivity) ltac:(reflexivity) ltac:(reflexivity)
    ltac:(intros; exists tt; reflexivity) ltac:(intros; exists tt; reflexivity) ltac:(intros; exists tt; reflexivity) fuel n (map emu mus) (map eom oms)) as [_ Y].
  specialize (Y tt I). cbv beta in Y. change (mopt _ tt) with (option_map (tri (@evG G ops))) in Y. rewrite <- Y. f_equal.
  - rewrite map_map. rewrite <- (map_id mus) at 1. apply map_ext. intros [l u f]. unfold mmu, emu, mfn, efn. cbn [m_l m_u m_fn]. f_equal. apply functional_extensionality.
    intros x. destruct (f x); reflexivity.
  - rewrite map_map. rewrite <- (map_id oms) at 1. apply map_ext. intros [l u f i j]. unfold mlim, eom, mfn, efn. cbn [o_l o_u o_fn o_i o_j]. f_equal. apply functional_extensionality.
    intros x. destruct (f x); reflexivity.
Qed.

Lemma run_integers fuel n mus oms : evp (fun p => @pre_run Z (exact_ops (p done)) fuel n (map (zmu p) mus) (map (zom p) oms) =
  rmap (option_map (tri (evZ p))) (@pre_run (expr G) expr_ops fuel n (map emu mus) (map eom oms))).
Proof.
  assert (X := @pre_run_cm (expr G) Z (G -> Z) (list form) expr_ops (fun p => exact_ops (p done)) evZ good [] good_join
    ltac:(reflexivity) ltac:(reflexivity) ltac:(reflexivity) ltac:(reflexivity) ltac:(reflexivity) ltac:(reflexivity)
    (expr_lt HG) (expr_le HG) (expr_eq HG) fuel n (map emu mus) (map eom oms)).
  eapply evp_1; [exact X|]. cbv beta. intros p Y. change (mopt (mtri evZ) p) with (option_map (tri (@evZ G p))) in Y. rewrite <- Y. f_equal.
  - rewrite map_map. apply map_ext. intros [l u f]. unfold mmu, emu, zmu, zfn, mfn, efn. cbn [m_l m_u m_fn]. f_equal. apply functional_extensionality.
    intros x. destruct (f x); reflexivity.
  - rewrite map_map. apply map_ext. intros [l u f i j]. unfold mlim, eom, zom, zfn, mfn, efn. cbn [o_l o_u o_fn o_i o_j]. f_equal. apply functional_extensionality.
    intros x. destruct (f x); reflexivity.
Qed.

Lemma feasible_zg p n mus oms mu om : feasible n (map (zmu p) mus) (map (zom p) oms) mu om <-> gfeasible n mus oms mu om.
Proof.
  unfold feasible, gfeasible, mu_bound, gmu_bound. split; intros [H1 H2]; split.
  - intros i Hi. destruct (H1 i Hi) as (m & E & Hm). rewrite nth_error_map in E. destruct (nth_error mus i) as [m'|]; [|discriminate]. injection E as <-. eauto.
  - intros k o E. apply (H2 k (zom p o)). rewrite nth_error_map, E. reflexivity.
  - intros i Hi. destruct (H1 i Hi) as (m & E & Hm). exists (zmu p m). rewrite nth_error_map, E. auto.
  - intros k o E. rewrite nth_error_map in E. destruct (nth_error oms k) as [o'|] eqn:E'; [|discriminate]. injection E as <-. exact (H2 k o' E').
Qed.

(** ** Convexity of the integer costs *)
Lemma convex_kept f l u : gdefined_on f l u -> gconvex_on (gcost f) l u -> evp (fun p => convex_on (cost (zfn p f)) l u).
Proof.
  intros Hd Hc. eapply evp_1; [apply (evp_range (fun x p => ~ evZ p (EAdd (ELeaf (gcost f (x - 1))) (ELeaf (gcost f (x + 1)))) < evZ p (EAdd (ELeaf (gcost f x)) (ELeaf (gcost f x)))) (l + 1) (u - 1))|].
  - intros x Hx. eapply evp_1; [apply (lt_kept HG)|]. intros p E X. apply E in X. cbn [evG] in X. specialize (Hc x ltac:(lia)). rewrite (og_le _ HG), X in Hc. discriminate.
  - cbv beta. intros p X x Hx. specialize (X x ltac:(lia)). cbn [evZ] in X.
    assert (V : forall y, l <= y <= u -> cost (zfn p f) y = p (gcost f y)).
    { intros y Hy. unfold cost, gcost, zfn. destruct (Hd y Hy) as [v ->]. reflexivity. }
    rewrite !V by lia. lia.
Qed.

Lemma wf_kept n mus oms : gwell_formed n mus oms -> evp (fun p => well_formed n (map (zmu p) mus) (map (zom p) oms)).
Proof.
  intros (Hl & Hm & Ho).
  assert (X1 : evp (fun p => forall i, In i (seq 1 n) -> forall m, nth_error mus i = Some m -> mu_wf (zmu p m))).
  { apply evp_list. intros i Hi. apply in_seq in Hi. destruct (nth_error mus i) as [m|] eqn:E; [|apply evp_all; discriminate].
    destruct (Hm i m ltac:(lia) E) as (W1 & W2 & W3). eapply evp_1; [exact (convex_kept _ _ _ W2 W3)|]. cbv beta. intros p C m' E'. injection E' as <-. repeat split; auto.
    intros x Hx. destruct (W2 x Hx) as [v Hv]. exists (p v). cbn [zmu m_fn]. unfold zfn. rewrite Hv. reflexivity. }
  assert (X2 : evp (fun p => forall o, In o oms -> om_wf n (zom p o))).
  { apply evp_list. intros o Hi. destruct (Ho o Hi) as (W1 & W2 & W3 & W4 & W5 & W6). eapply evp_1; [exact (convex_kept _ _ _ W2 W3)|]. cbv beta. intros p C. split; [exact W1|]. split; [|split; [exact C|auto]].
    intros x Hx. destruct (W2 x Hx) as [v Hv]. exists (p v). cbn [zom o_fn]. unfold zfn. rewrite Hv. reflexivity. }
  eapply evp_2; [exact X1|exact X2|]. cbv beta. intros p Y1 Y2. split; [rewrite map_length; exact Hl|]. split.
  - intros i m Hi E. rewrite nth_error_map in E. destruct (nth_error mus i) as [m'|] eqn:E'; [|discriminate]. injection E as <-. apply (Y1 i); [apply in_seq; lia|exact E'].
  - intros o Hi. apply in_map_iff in Hi. destruct Hi as (o' & <- & Hi). auto.
Qed.

Lemma bounded_zg p n mus oms K : gbounded_by n mus oms K -> bounded_by n (map (zmu p) mus) (map (zom p) oms) K.
Proof.
  intros [H1 H2]. split.
  - intros i m Hi E. rewrite nth_error_map in E. destruct (nth_error mus i) as [m'|] eqn:E'; [|discriminate]. injection E as <-. exact (H1 i m' Hi E').
  - intros o Hi. apply in_map_iff in Hi. destruct Hi as (o' & <- & Hi). exact (H2 o' Hi).
Qed.

(** ** The cost of a choice of values as an expression *)
Definition ecost (f : Fn G) (x : Z) : expr G := match f x with Ok v => ELeaf v | Err _ => EZero end.
Fixpoint sumE (l : list (expr G)) : expr G := match l with [] => EZero | e :: l => EAdd e (sumE l) end.
Definition emu_cost (mus : list (MuLimit G)) (mu : nat -> Z) (i : nat) : expr G :=
  match nth_error mus i with Some m => ecost (m_fn m) (mu i) | None => EZero end.
Definition eom_cost (oms : list (OmegaLimit G)) (om : nat -> Z) (k : nat) : expr G :=
  match nth_error oms k with Some o => ecost (o_fn o) (om k) | None => EZero end.
Definition etotal n mus oms mu om : expr G := EAdd (sumE (map (emu_cost mus mu) (seq 1 n))) (sumE (map (eom_cost oms om) (seq 0 (length oms)))).

Lemma ecost_G f x : evG (ecost f x) = gcost f x.
Proof. unfold ecost, gcost. destruct (f x); reflexivity. Qed.
Lemma ecost_Z p f x : evZ p (ecost f x) = cost (zfn p f) x.
Proof. unfold ecost, cost, zfn. destruct (f x); reflexivity. Qed.
Lemma sumE_G l : evG (sumE l) = sumG (map evG l).
Proof. induction l as [|e l IH]; cbn [sumE evG map sumG]; [reflexivity|]. rewrite IH. reflexivity. Qed.
Lemma sumE_Z p l : evZ p (sumE l) = sumZ (map (evZ p) l).
Proof. induction l as [|e l IH]; cbn [sumE evZ map sumZ]; [reflexivity|]. rewrite IH. reflexivity. Qed.

Lemma etotal_G n mus oms mu om : evG (etotal n mus oms mu om) = gtotal_cost n mus oms mu om.
Proof.
  unfold etotal, gtotal_cost. cbn [evG]. rewrite !sumE_G, !map_map. f_equal; f_equal; apply map_ext; intros i.
  - unfold emu_cost, gmu_cost. destruct (nth_error mus i); [apply ecost_G|reflexivity].
  - unfold eom_cost, gom_cost. destruct (nth_error oms i); [apply ecost_G|reflexivity].
Qed.
Lemma etotal_Z p n mus oms mu om : evZ p (etotal n mus oms mu om) = total_cost n (map (zmu p) mus) (map (zom p) oms) mu om.
Proof.
  unfold etotal, total_cost. cbn [evZ]. rewrite !sumE_Z, !map_map, map_length. f_equal; f_equal; apply map_ext; intros i.
  - unfold emu_cost, mu_cost. rewrite nth_error_map. destruct (nth_error mus i); [apply ecost_Z|reflexivity].
  - unfold eom_cost, om_cost. rewrite nth_error_map. destruct (nth_error oms i); [apply ecost_Z|reflexivity].
Qed.

Lemma listed n mus oms K mu om : 0 <= K -> gbounded_by n mus oms K -> gfeasible n mus oms mu om ->
  exists l l', In l (tuples (zrange K) n) /\ In l' (tuples (zrange K) (length oms)) /\
    etotal n mus oms (of_list (0 :: l)) (of_list l') = etotal n mus oms mu om.
Proof.
  intros HK [B1 B2] [F1 F2]. exists (map mu (seq 1 n)), (map om (seq 0 (length oms))). split; [|split].
  - rewrite <- (seq_length n 1) at 2. rewrite <- (map_length mu). apply tuples_in. intros z Hz. apply in_map_iff in Hz. destruct Hz as (i & <- & Hi). apply in_seq in Hi.
    destruct (F1 i ltac:(lia)) as (m & E & Hm). destruct (B1 i m ltac:(lia) E). apply zrange_in. lia.
  - rewrite <- (seq_length (length oms) 0) at 2. rewrite <- (map_length om). apply tuples_in. intros z Hz. apply in_map_iff in Hz. destruct Hz as (k & <- & Hk). apply in_seq in Hk.
    destruct (nth_error oms k) as [o|] eqn:E; [|apply nth_error_None in E; lia]. destruct (F2 k o E) as [Hm _]. apply nth_error_In in E. destruct (B2 o E). apply zrange_in. lia.
  - unfold etotal. f_equal; f_equal; apply map_ext_in; intros i Hi; apply in_seq in Hi.
    + unfold emu_cost. destruct (nth_error mus i); [|reflexivity]. f_equal. destruct i as [|i]; [lia|]. unfold of_list. cbn [nth].
      change (nth i (map mu (seq 1 n)) 0) with (of_list (map mu (seq 1 n)) i). rewrite of_list_map by lia. reflexivity.
    + unfold eom_cost. destruct (nth_error oms i); [|reflexivity]. f_equal. rewrite of_list_map by lia. reflexivity.
Qed.

(** the whole run, with the exact half of the sum as an expression *)
Lemma run_both n mus oms K fuel : gadmissible n mus oms K -> solver_fuel n (length oms) K <= Z.of_nat fuel ->
  exists run : option (expr G), @run_solver G ops fuel (Z.of_nat n) mus oms = Ok (option_map evG run) /\
    evp (fun p => 0 < p done -> @run_solver Z (exact_ops (p done)) fuel (Z.of_nat n) (map (zmu p) mus) (map (zom p) oms) = Ok (option_map (evZ p) run)).
Proof.
  intros (HW & HB & HK1 & HK2) Hfuel. assert (RG := run_group fuel (Z.of_nat n) mus oms). assert (RI := run_integers fuel (Z.of_nat n) mus oms).
  set (pre := @pre_run (expr G) expr_ops fuel (Z.of_nat n) (map emu mus) (map eom oms)) in *.
  assert (X : evp (fun p => 0 < p done -> exists r, rmap (option_map (tri (evZ p))) pre = Ok r /\ (forall v a h, r = Some (v, a, h) -> a = 2 * h) /\
    @run_solver Z (exact_ops (p done)) fuel (Z.of_nat n) (map (zmu p) mus) (map (zom p) oms) = Ok (@finish Z (exact_ops (p done)) r))).
  { eapply evp_2; [exact RI|exact (wf_kept n mus oms HW)|]. cbv beta. intros p E W H1.
    destruct (pre_run_ok (p done) H1 n (map (zmu p) mus) (map (zom p) oms) K fuel) as (r & E2 & R2).
    - split; [exact W|]. split; [apply bounded_zg; exact HB|split; assumption].
    - rewrite map_length. exact Hfuel.
    - exists r. split; [rewrite <- E; exact E2|]. split; [exact R2|]. apply pre_run_finish. exact E2. }
  clearbody pre. destruct pre as [[[[v a] h]|]|er]; cbn [rmap option_map tri fst snd] in *.
  - assert (A : evG a = dadd (evG h) (evG h)).
    { destruct (evp_exists HG (fun p => (0 < p done -> evZ p a = 2 * evZ p h) /\ (evZ p a < evZ p (EAdd h h) <-> dlt (evG a) (evG (EAdd h h)) = true) /\
         (evZ p (EAdd h h) < evZ p a <-> dlt (evG (EAdd h h)) (evG a) = true))) as (p & (P1 & P2 & P3) & Hp).
      - eapply evp_2; [exact X|eapply evp_2; [exact (lt_kept HG a (EAdd h h))|exact (lt_kept HG (EAdd h h) a)|]; cbv beta; intros p L1 L2; exact (conj L1 L2)|].
        cbv beta. intros p Y [L1 L2]. split; [|split; [exact L1|exact L2]]. intros Hp. destruct (Y Hp) as (r & E & R & _). injection E as <-. exact (R _ _ _ eq_refl).
      - specialize (P1 Hp). cbn [evZ evG] in P2, P3. destruct (og_total _ HG (evG a) (dadd (evG h) (evG h))) as [T|[T|T]]; [apply P2 in T; lia|exact T|apply P3 in T; lia]. }
    exists (if dlt (evG v) (evG h) then None else Some h). split.
    + rewrite (pre_run_finish fuel (Z.of_nat n) mus oms _ RG). unfold tri. cbn [finish fst snd]. rewrite A, (og_half _ HG). destruct (dlt (evG v) (evG h)); reflexivity.
    + eapply evp_2; [exact X|exact (lt_kept HG v h)|]. cbv beta. intros p Y L Hp. destruct (Y Hp) as (r & E & R & ->). injection E as <-. specialize (R _ _ _ eq_refl).
      cbn [fst snd] in R. unfold tri. cbn [finish dlt dhalf exact_ops fst snd]. rewrite R, Z.mul_comm, Z.quot_mul by lia.
      destruct (dlt (evG v) (evG h)); destruct (Z.ltb_spec (evZ p v) (evZ p h)) as [B|B]; try reflexivity; exfalso.
      * apply proj2 in L. specialize (L eq_refl). lia.
      * apply L in B. discriminate.
  - exists None. split; [exact (pre_run_finish fuel (Z.of_nat n) mus oms _ RG)|]. eapply evp_1; [exact X|]. cbv beta. intros p Y Hp. destruct (Y Hp) as (r & E & _ & ->). injection E as <-. reflexivity.
  - exfalso. destruct (evp_exists HG _ X) as (p & H & Hp). destruct (H Hp) as (r & E & _). discriminate.
Qed.

Theorem group_solve n mus oms K fuel : gadmissible n mus oms K -> solver_fuel n (length oms) K <= Z.of_nat fuel ->
  (exists v, @run_solver G ops fuel (Z.of_nat n) mus oms = Ok (Some v) /\ goptimum n mus oms v) \/
  (@run_solver G ops fuel (Z.of_nat n) mus oms = Ok None /\ ginfeasible n mus oms).
Proof.
  intros HA Hfuel. pose proof HA as (HW & HB & HK1 & HK2). destruct (run_both n mus oms K fuel HA Hfuel) as (run & -> & HR).
  assert (X : evp (fun p => 0 < p done -> exists r, Ok (option_map (evZ p) run) = Ok r /\ solution n (map (zmu p) mus) (map (zom p) oms) r)).
  { eapply evp_2; [exact HR|exact (wf_kept n mus oms HW)|]. cbv beta. intros p E W H1. rewrite <- (E H1).
    apply (run_solver_ok (p done) n _ _ K); auto; [apply bounded_zg; exact HB|rewrite map_length; exact Hfuel]. }
  destruct run as [e|]; cbn [option_map] in *.
  - left. exists (evG e). split; [reflexivity|].
    assert (Y : evp (fun p => 0 < p done -> optimum n (map (zmu p) mus) (map (zom p) oms) (evZ p e))).
    { eapply evp_1; [exact X|]. cbv beta. intros p H Hp. destruct (H Hp) as (r & E & S). injection E as <-. exact S. }
    assert (LB : forall mu om, gfeasible n mus oms mu om -> dlt (gtotal_cost n mus oms mu om) (evG e) = false).
    { intros mu om F. destruct (evp_exists HG (fun p => (0 < p done -> evZ p e <= evZ p (etotal n mus oms mu om)) /\ (evZ p (etotal n mus oms mu om) < evZ p e <-> dlt (evG (etotal n mus oms mu om)) (evG e) = true))) as (p & (P1 & P2) & Hp).
      - eapply evp_2; [exact Y|exact (lt_kept HG (etotal n mus oms mu om) e)|]. cbv beta. intros p O L. split; [|exact L]. intros Hp. rewrite etotal_Z. apply (O Hp). apply feasible_zg. exact F.
      - rewrite etotal_G in P2. destruct (dlt (gtotal_cost n mus oms mu om) (evG e)); [|reflexivity]. apply proj2 in P2. specialize (P1 Hp). specialize (P2 eq_refl). lia. }
    split; [|intros mu om F; rewrite (og_le _ HG), (LB mu om F); reflexivity].
    destruct (evp_exists HG (fun p => (0 < p done -> optimum n (map (zmu p) mus) (map (zom p) oms) (evZ p e)) /\
      forall ll, In ll (list_prod (tuples (zrange K) n) (tuples (zrange K) (length oms))) ->
        (evZ p e < evZ p (etotal n mus oms (of_list (0 :: fst ll)) (of_list (snd ll))) <-> dlt (evG e) (evG (etotal n mus oms (of_list (0 :: fst ll)) (of_list (snd ll)))) = true))) as (p & (P1 & P2) & Hp).
    { assert (L := evp_list (fun (ll : list Z * list Z) p => evZ p e < evZ p (etotal n mus oms (of_list (0 :: fst ll)) (of_list (snd ll))) <->
        dlt (evG e) (evG (etotal n mus oms (of_list (0 :: fst ll)) (of_list (snd ll)))) = true) (list_prod (tuples (zrange K) n) (tuples (zrange K) (length oms)))
        (fun ll _ => lt_kept HG e (etotal n mus oms (of_list (0 :: fst ll)) (of_list (snd ll))))).
      eapply evp_2; [exact Y|exact L|]. cbv beta. intros p A B. split; [exact A|exact B]. }
    destruct (P1 Hp) as ((mu & om & F & C) & _). apply feasible_zg in F. exists mu, om. split; [exact F|].
    destruct (listed n mus oms K mu om ltac:(lia) HB F) as (l & l' & L1 & L2 & E). specialize (P2 (l, l') (in_prod _ _ _ _ L1 L2)). cbn [fst snd] in P2. rewrite E in P2.
    rewrite etotal_Z, C, etotal_G in P2. destruct (og_total _ HG (gtotal_cost n mus oms mu om) (evG e)) as [T|[T|T]]; [rewrite (LB mu om F) in T; discriminate|exact T|].
    apply P2 in T. lia.
  - right. split; [reflexivity|]. destruct (evp_exists HG _ X) as (p & H & Hp). destruct (H Hp) as (r & E & S). injection E as <-. intros mu om F. apply (S mu om). apply feasible_zg. exact F.
Qed.
End Group.
