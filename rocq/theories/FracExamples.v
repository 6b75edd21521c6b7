(** * Problems for the examples of PropFrac *)
From Verif Require Import Base Data ProblemDefine ProblemSolver Spec FracSpec SolverProof ExampleData LatticeProof.
Local Open Scope Z_scope.

Definition dead : MuLimit Z := mkMu 1 0 (fun _ => Err BadCall).

(** three problems with two variables, the second halfway between the others *)
Definition shifted (a b : Z) : list (MuLimit Z) := [dead; mkMu a (a + 1) (sq 1 0); mkMu b (b + 1) (sq 1 3)].
Definition gap_om : list (OmegaLimit Z) := [mkOm 0 3 (sq 1 0) 1 2].

Lemma shifted_admissible a b : 0 <= a <= 5 -> 0 <= b <= 5 -> admissible 2 (shifted a b) gap_om 6.
Proof.
  intros Ha Hb. assert (X : forall i m, (1 <= i <= 2)%nat -> nth_error (shifted a b) i = Some m -> mu_wf m /\ - 6 <= m_l m /\ m_u m <= 6).
  { intros i m Hi E. destruct i as [|[|[|i]]]; try lia; cbn [shifted nth_error] in E; injection E as <-; unfold mu_wf; cbn [m_l m_u m_fn]; (split; [|lia]; split; [lia|apply sq_wf; lia]). }
  split; [|split].
  - split; [reflexivity|]. split; [intros i m Hi E; apply (X i m Hi E)|]. intros o Ho. cbn [gap_om In] in Ho. destruct Ho as [<-|[]]; om_wf_tac.
  - split; [intros i m Hi E; apply (X i m Hi E)|]. intros o Ho. cbn [gap_om In] in Ho. destruct Ho as [<-|[]]; cbn [o_l o_u]; lia.
  - unfold int_fits, INT_MAX. lia.
Qed.

Lemma shifted_halfway : halfway 2 (shifted 0 0) (shifted 2 1) (shifted 4 2) gap_om gap_om gap_om.
Proof.
  split; [|split; [reflexivity|split; [reflexivity|]]].
  - intros i a m b Hi Ea Em Eb. destruct i as [|[|[|i]]]; try lia; cbn [shifted nth_error] in Ea, Em, Eb; injection Ea as <-; injection Em as <-; injection Eb as <-;
      unfold mu_halfway; cbn [m_l m_u m_fn]; (split; [reflexivity|]); (split; [reflexivity|]); (split; [lia|]); (split; [lia|apply sq_wf; lia]).
  - intros k a o b Ea Eo Eb. rewrite Ea in Eb, Eo. injection Eb as <-. injection Eo as <-. destruct k as [|k]; [|destruct k; discriminate].
    cbn [gap_om nth_error] in Ea. injection Ea as <-. unfold om_halfway. cbn [o_l o_u o_fn o_i o_j].
    do 6 (split; [reflexivity|]). split; [lia|split; [lia|apply sq_wf; lia]].
Qed.

(** a problem with four optimal solutions: x1 is 0 or 1, x2 is 1, x3 is 0 or 1 *)
Definition loose_mus : list (MuLimit Z) := [dead; mkMu 0 2 (lin 0); mkMu 0 2 (sq 1 1); mkMu 0 1 (lin 0)].
Definition loose_oms : list (OmegaLimit Z) := [mkOm 0 2 absf 1 2].

Lemma loose_admissible : admissible 3 loose_mus loose_oms 2.
Proof.
  assert (X : forall i m, (1 <= i <= 3)%nat -> nth_error loose_mus i = Some m -> mu_wf m /\ - 2 <= m_l m /\ m_u m <= 2).
  { intros i m Hi E. destruct i as [|[|[|[|i]]]]; try lia; cbn [loose_mus nth_error] in E; injection E as <-; unfold mu_wf; cbn [m_l m_u m_fn]; (split; [|lia]; split; [lia|first [apply lin_wf|apply sq_wf; lia]]). }
  split; [|split].
  - split; [reflexivity|]. split; [intros i m Hi E; apply (X i m Hi E)|]. intros o Ho. cbn [loose_oms In] in Ho. destruct Ho as [<-|[]]; om_wf_tac.
  - split; [intros i m Hi E; apply (X i m Hi E)|]. intros o Ho. cbn [loose_oms In] in Ho. destruct Ho as [<-|[]]; cbn [o_l o_u]; lia.
  - unfold int_fits, INT_MAX. lia.
Qed.

Definition vals (l : list Z) : nat -> Z := fun i => nth i (0 :: l) 0.

Lemma loose_solves a c : 0 <= a <= 1 -> 0 <= c <= 1 -> solves 3 loose_mus loose_oms 0 (vals [a; 1; c]).
Proof.
  intros Ha Hc. exists (fun _ => 0). split.
  - split.
    + intros i Hi. unfold mu_bound. destruct i as [|[|[|[|i]]]]; try lia; cbn [loose_mus nth_error vals nth]; eexists; (split; [reflexivity|cbn [m_l m_u]; lia]).
    + intros [|[|k]] o E; cbn in E; try discriminate. injection E as <-. cbn [o_l o_u o_i o_j vals nth]. lia.
  - reflexivity.
Qed.
