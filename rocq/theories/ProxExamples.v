(** * Problems for the examples of PropProx *)
From Verif Require Import Base Data ProblemDefine ProblemSolver Spec FracSpec ProxSpec SolverProof ExampleData LatticeProof ProxProof FracExamples.
Local Open Scope Z_scope.

(** two variables with targets s and t *)
Definition aims (l u s t : Z) : list (MuLimit Z) := [dead; mkMu l u (sq 1 s); mkMu 0 u (sq 1 t)].
Definition link (u : Z) : list (OmegaLimit Z) := [mkOm 0 u (lin 2) 1 2].

Lemma aims_admissible l u s t w : 0 <= l <= u -> u <= 6 -> 0 <= w <= 6 -> admissible 2 (aims l u s t) (link w) 6.
Proof.
  intros Hl Hu Hw. assert (X : forall i m, (1 <= i <= 2)%nat -> nth_error (aims l u s t) i = Some m -> mu_wf m /\ - 6 <= m_l m /\ m_u m <= 6).
  { intros i m Hi E. destruct i as [|[|[|i]]]; try lia; cbn [aims nth_error] in E; injection E as <-; unfold mu_wf; cbn [m_l m_u m_fn]; (split; [|lia]; split; [lia|apply sq_wf; lia]). }
  split; [|split].
  - split; [reflexivity|]. split; [intros i m Hi E; apply (X i m Hi E)|]. intros o Ho. cbn [link In] in Ho. destruct Ho as [<-|[]]; om_wf_tac.
  - split; [intros i m Hi E; apply (X i m Hi E)|]. intros o Ho. cbn [link In] in Ho. destruct Ho as [<-|[]]; cbn [o_l o_u]; lia.
  - unfold int_fits, INT_MAX. lia.
Qed.

(** targets and ranges moved by one *)
Lemma aims_step l u s t l' u' s' t' : Z.abs (l - l') <= 1 -> Z.abs (u - u') <= 1 -> Z.abs (s - s') <= 1 -> Z.abs (t - t') <= 1 ->
  mus_step 2 (aims l u s t) (aims l' u' s' t').
Proof.
  intros H1 H2 H3 H4 i m m' Hi E E'. destruct i as [|[|[|i]]]; try lia; cbn [aims nth_error] in E, E'; injection E as <-; injection E' as <-;
  unfold mu_step, limit_step, slopes_follow, cost, sq; cbn [m_l m_u m_fn]; repeat split; try lia; intros z _ _; nia.
Qed.

Lemma link_step u u' : Z.abs (u - u') <= 1 -> oms_step 0 (link u) (link u').
Proof.
  intros H. split; [reflexivity|split].
  - intros [|j] N; [contradiction|reflexivity].
  - intros o o' E E'. injection E as <-. injection E' as <-. split; [reflexivity|split; [reflexivity|]].
    unfold limit_step, slopes_follow, cost, lin; cbn [o_l o_u o_fn]; repeat split; try lia; intros z _ _; lia.
Qed.

Lemma aims_solves l u s t w a b : l <= a <= u -> 0 <= b <= u -> 0 <= w -> Z.max 0 (a - b) <= w ->
  solves 2 (aims l u s t) (link w) ((a - s) * (a - s) + (b - t) * (b - t) + 2 * Z.max 0 (a - b)) (vals [a; b]).
Proof.
  intros Ha Hb Hw H. exists (fun _ => Z.max 0 (a - b)). split.
  - split.
    + intros i Hi. unfold mu_bound. destruct i as [|[|[|i]]]; try lia; cbn [aims nth_error vals nth]; eexists; (split; [reflexivity|cbn [m_l m_u]; lia]).
    + intros [|[|k]] o E; cbn in E; try discriminate. injection E as <-. cbn [o_l o_u o_i o_j vals nth]. lia.
  - unfold total_cost, mu_cost, om_cost. cbn [seq map sumZ fold_right nth_error aims link length vals nth m_fn o_fn cost sq lin].
    set (z := Z.max 0 (a - b)). clearbody z. cbn -[Z.mul Z.add Z.sub]. ring.
Qed.

Lemma aims_steps : steps 2 6 2 (aims 0 5 5 0) (link 2) (aims 1 6 6 1) (link 1).
Proof.
  apply (steps_more _ _ _ _ _ (aims 1 6 6 1) (link 2)).
  - left. split; [apply aims_step; lia|reflexivity].
  - apply aims_admissible; lia.
  - destruct (aims_solves 1 6 6 1 2 1 1) as (om & F & _); try lia. eexists _, om. exact F.
  - apply (steps_more _ _ _ _ _ (aims 1 6 6 1) (link 1)); [| | |apply steps_none].
    + right. split; [reflexivity|exists 0%nat]. apply link_step. lia.
    + apply aims_admissible; lia.
    + destruct (aims_solves 1 6 6 1 1 1 1) as (om & F & _); try lia. eexists _, om. exact F.
Qed.

(** a chain of three variables; the third wants to be 2 *)
Definition ladder : list (MuLimit Z) := [dead; mkMu 0 0 (lin 0); mkMu 0 2 (lin 0); mkMu 0 2 (sq 1 2)].
Definition rungs (u : Z) : list (OmegaLimit Z) := [mkOm 0 u (lin 0) 2 1; mkOm 0 u (lin 0) 3 2].

Lemma ladder_admissible u : 0 <= u <= 2 -> admissible 3 ladder (rungs u) 2.
Proof.
  intros Hu. assert (X : forall i m, (1 <= i <= 3)%nat -> nth_error ladder i = Some m -> mu_wf m /\ - 2 <= m_l m /\ m_u m <= 2).
  { intros i m Hi E. destruct i as [|[|[|[|i]]]]; try lia; cbn [ladder nth_error] in E; injection E as <-; unfold mu_wf; cbn [m_l m_u m_fn]; (split; [|lia]; split; [lia|first [apply lin_wf|apply sq_wf; lia]]). }
  split; [|split].
  - split; [reflexivity|]. split; [intros i m Hi E; apply (X i m Hi E)|]. intros o Ho. cbn [rungs In] in Ho. destruct Ho as [<-|[<-|[]]]; om_wf_tac.
  - split; [intros i m Hi E; apply (X i m Hi E)|]. intros o Ho. cbn [rungs In] in Ho. destruct Ho as [<-|[<-|[]]]; cbn [o_l o_u]; lia.
  - unfold int_fits, INT_MAX. lia.
Qed.

Lemma rungs_step u u' : Z.abs (u - u') <= 1 -> Forall2 om_step (rungs u) (rungs u').
Proof.
  intros H. repeat constructor; unfold slopes_follow, cost, lin; cbn [o_l o_u o_fn]; try lia; intros z _ _; lia.
Qed.

Lemma two_limits_refuted :
  exists (n : nat) (mus : list (MuLimit Z)) (oms oms' : list (OmegaLimit Z)) (K : Z) (fuel : nat) (v v' : Z) (mu : nat -> Z),
    admissible n mus oms K /\ admissible n mus oms' K /\ Forall2 om_step oms oms' /\
    solver_fuel n (length oms) K <= Z.of_nat fuel /\
    @run_solver Z (exact_ops 1) fuel (Z.of_nat n) mus oms = Ok (Some v) /\
    @run_solver Z (exact_ops 1) fuel (Z.of_nat n) mus oms' = Ok (Some v') /\
    solves n mus oms v mu /\
    forall mu', solves n mus oms' v' mu' -> ~ moved_by n 1 mu mu'.
Proof.
  exists 3%nat, ladder, (rungs 0), (rungs 1), 2, ex_steps, 4, 0, (vals [0; 0; 0]).
  split; [apply ladder_admissible; lia|]. split; [apply ladder_admissible; lia|]. split; [apply rungs_step; lia|].
  split; [vm_compute; discriminate|]. split; [vm_compute; reflexivity|]. split; [vm_compute; reflexivity|]. split.
  - exists (fun _ => 0). split; [|reflexivity]. split.
    + intros i Hi. unfold mu_bound. destruct i as [|[|[|[|i]]]]; try lia; cbn [ladder nth_error vals nth]; eexists; (split; [reflexivity|cbn [m_l m_u]; lia]).
    + intros [|[|k]] o E; cbn in E; try (destruct k; discriminate); injection E as <-; cbn [o_l o_u o_i o_j vals nth]; lia.
  - intros mu' (om & [F1 F2] & E) W. destruct (F1 3%nat ltac:(lia)) as (m & Em & Hm). injection Em as <-. cbn [m_l m_u] in Hm.
    specialize (W 3%nat ltac:(lia)). cbn [vals nth] in W. unfold total_cost, mu_cost, om_cost in E. cbn -[Z.mul Z.add Z.sub] in E.
    assert (C : mu' 3%nat = 0 \/ mu' 3%nat = 1) by lia. destruct C as [C|C]; rewrite C in E; lia.
Qed.
