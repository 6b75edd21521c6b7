(** * A problem with irrational costs *)
From Coq Require Import Reals Lra.
From Verif Require Import Base Data ProblemDefine ProblemSolver Spec SolverProof RealSpec RealProof.
Local Open Scope Z_scope.

Definition lin (c : R) : Fn R := fun x => Ok (c * IZR x)%R.

(** minimize sqrt 2 * mu_1 + sqrt 3 * mu_2 + sqrt 2 * omega with 1 <= mu_1 <= 2, 0 <= mu_2 <= 1, 0 <= omega <= 2, mu_1 - mu_2 <= omega *)
Definition sq_mus : list (MuLimit R) := [mkMu 0 0 (lin 0); mkMu 1 2 (lin (sqrt 2)); mkMu 0 1 (lin (sqrt 3))].
Definition sq_oms : list (OmegaLimit R) := [mkOm 0 2 (lin (sqrt 2)) 1 2].

(** the same with omega <= -1: no solution *)
Definition sq_oms' : list (OmegaLimit R) := [mkOm (-2) (-1) (lin (sqrt 2)) 1 2].

Lemma lin_wf c l u : rdefined_on (lin c) l u /\ rconvex_on (rcost (lin c)) l u.
Proof.
  split; [intros x _; eexists; reflexivity|]. intros x _. unfold rcost, lin. rewrite minus_IZR, plus_IZR. lra.
Qed.

Lemma sq_mu_wf i m : (1 <= i <= 2)%nat -> nth_error sq_mus i = Some m -> rmu_wf m /\ - 2 <= m_l m /\ m_u m <= 2.
Proof.
  intros Hi E. destruct i as [|[|[|i]]]; try lia; injection E as <-; (split; [split; [cbn [m_l m_u]; lia|apply lin_wf]|cbn [m_l m_u]; lia]).
Qed.

Lemma sq_fits : int_fits 2 2.
Proof. unfold int_fits, INT_MAX. lia. Qed.

Lemma sq_admissible : radmissible 2 sq_mus sq_oms 2.
Proof.
  split; [|split; [|exact sq_fits]].
  - split; [reflexivity|]. split; [intros i m Hi E; apply (sq_mu_wf i m Hi E)|].
    intros o [<-|[]]. split; [cbn [o_l o_u]; lia|]. split; [apply lin_wf|]. split; [apply lin_wf|]. cbn [o_i o_j]. lia.
  - split; [intros i m Hi E; apply (sq_mu_wf i m Hi E)|]. intros o [<-|[]]. cbn [o_l o_u]. lia.
Qed.

Lemma sq_admissible' : radmissible 2 sq_mus sq_oms' 2.
Proof.
  split; [|split; [|exact sq_fits]].
  - split; [reflexivity|]. split; [intros i m Hi E; apply (sq_mu_wf i m Hi E)|].
    intros o [<-|[]]. split; [cbn [o_l o_u]; lia|]. split; [apply lin_wf|]. split; [apply lin_wf|]. cbn [o_i o_j]. lia.
  - split; [intros i m Hi E; apply (sq_mu_wf i m Hi E)|]. intros o [<-|[]]. cbn [o_l o_u]. lia.
Qed.

Lemma sq_optimum : roptimum 2 sq_mus sq_oms (2 * sqrt 2)%R.
Proof.
  assert (TC : forall mu om, rtotal_cost 2 sq_mus sq_oms mu om = (sqrt 2 * IZR (mu 1%nat) + sqrt 3 * IZR (mu 2%nat) + sqrt 2 * IZR (om 0%nat))%R).
  { intros mu om. unfold rtotal_cost, rmu_cost, rom_cost, rcost, lin. cbn. lra. }
  split.
  - exists (fun i => if (i =? 1)%nat then 1 else 0), (fun _ => 1). split; [|rewrite TC; cbn; lra]. split.
    + intros i Hi. destruct i as [|[|[|i]]]; try lia; eexists; (split; [reflexivity|cbn; lia]).
    + intros k o E. destruct k as [|[|k]]; try discriminate. injection E as <-. cbn. lia.
  - intros mu om [F1 F2]. rewrite TC. destruct (F1 1%nat ltac:(lia)) as (m1 & E1 & B1). destruct (F1 2%nat ltac:(lia)) as (m2 & E2 & B2).
    injection E1 as <-. injection E2 as <-. destruct (F2 0%nat _ eq_refl) as [B3 B4]. cbn [m_l m_u o_l o_u o_i o_j] in *.
    assert (S : (0 <= sqrt 2 <= sqrt 3)%R) by (split; [apply sqrt_pos|apply sqrt_le_1; lra]).
    assert (1 <= IZR (mu 1%nat))%R by (apply IZR_le; lia). assert (0 <= IZR (mu 2%nat))%R by (apply IZR_le; lia).
    assert (IZR (mu 1%nat) - IZR (mu 2%nat) <= IZR (om 0%nat))%R by (rewrite <- minus_IZR; apply IZR_le; lia).
    nra.
Qed.

Lemma roptimum_unique n mus oms v w : roptimum n mus oms v -> roptimum n mus oms w -> v = w.
Proof. intros [(mu & om & F & <-) L] [(mu' & om' & F' & <-) L']. apply Rle_antisym; auto. Qed.

Lemma sq_run : @run_solver R real_ops (Z.to_nat (solver_fuel 2 1 2)) 2 sq_mus sq_oms = Ok (Some (2 * sqrt 2)%R).
Proof.
  destruct (real_solve 2 sq_mus sq_oms 2 (Z.to_nat (solver_fuel 2 1 2)) sq_admissible ltac:(cbn [sq_oms length]; lia)) as [(v & E & O)|(E & N)].
  - rewrite (roptimum_unique 2 sq_mus sq_oms (2 * sqrt 2)%R v sq_optimum O). exact E.
  - exfalso. destruct sq_optimum as [(mu & om & F & _) _]. exact (N mu om F).
Qed.

Lemma sq_run' : @run_solver R real_ops (Z.to_nat (solver_fuel 2 1 2)) 2 sq_mus sq_oms' = Ok None.
Proof.
  destruct (real_solve 2 sq_mus sq_oms' 2 (Z.to_nat (solver_fuel 2 1 2)) sq_admissible' ltac:(cbn [sq_oms' length]; lia)) as [(v & E & O)|(E & N)]; [|exact E].
  exfalso. destruct O as [(mu & om & [F1 F2] & _) _]. destruct (F1 1%nat ltac:(lia)) as (m1 & E1 & B1). destruct (F1 2%nat ltac:(lia)) as (m2 & E2 & B2).
  injection E1 as <-. injection E2 as <-. destruct (F2 0%nat _ eq_refl) as [B3 B4]. cbn [m_l m_u o_l o_u o_i o_j] in *. lia.
Qed.
