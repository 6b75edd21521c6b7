(** * Problems for C113 and C114 *)
From Coq Require Import Floats.SpecFloat.
From Verif Require Import Base Data LCT UniqueQueue ProblemDefine Flow ProblemSolver Spec FloatSpec FloatExample NonConvex Decide Gather.
Local Open Scope Z_scope.

(** three variables fixed at 0; their differences cost 2^53 - 1, 2 and 1 *)
Definition sum_mus : list (MuLimit Z) := [mkMu 0 0 (table []); mkMu 0 0 (table [0]); mkMu 0 0 (table [0]); mkMu 0 0 (table [0])].
Definition sum_oms : list (OmegaLimit Z) := [mkOm 0 0 (table [2 ^ 53 - 1]) 2 1; mkOm 0 0 (table [2]) 3 1; mkOm 0 0 (table [1]) 3 2].
(** the same costs on one pair of variables *)
Definition pair_oms : list (OmegaLimit Z) := [mkOm 0 0 (table [2 ^ 53 - 1]) 2 1; mkOm 0 0 (table [2]) 2 1; mkOm 0 0 (table [1]) 1 2].

Lemma fixed_admissible (oms : list (OmegaLimit Z)) :
  (forall o, In o oms -> o_l o = 0 /\ o_u o = 0 /\ (exists v, o_fn o 0 = Ok v) /\ (1 <= o_i o <= 3)%nat /\ (1 <= o_j o <= 3)%nat /\ o_i o <> o_j o) ->
  admissible 3 sum_mus oms 1.
Proof.
  intro H. split; [|split; [split|unfold int_fits, INT_MAX; lia]].
  - split; [reflexivity|]. split.
    + intros i m Hi E. destruct i as [|[|[|[|i]]]]; try lia; cbn [sum_mus nth_error] in E; injection E as <-; (split; [cbn; lia|]);
        (split; [intros x Hx; cbn [m_fn]; unfold table; eexists; reflexivity|intros x Hx; cbn [m_l m_u] in Hx; lia]).
    + intros o Ho. destruct (H o Ho) as (E1 & E2 & (v & E3) & E4). unfold om_wf. rewrite E1, E2. split; [lia|].
      split; [intros x Hx; replace x with 0 by lia; eauto|]. split; [intros x Hx; lia|exact E4].
  - intros i m Hi E. destruct i as [|[|[|[|i]]]]; try lia; cbn [sum_mus nth_error] in E; injection E as <-; cbn [m_l m_u]; lia.
  - intros o Ho. destruct (H o Ho) as (E1 & E2 & _). lia.
Qed.
Lemma sum_admissible : admissible 3 sum_mus sum_oms 1.
Proof. apply fixed_admissible. intros o [<-|[<-|[<-|[]]]]; cbn; repeat split; try lia; eexists; reflexivity. Qed.
Lemma pair_admissible : admissible 3 sum_mus pair_oms 1.
Proof. apply fixed_admissible. intros o [<-|[<-|[<-|[]]]]; cbn; repeat split; try lia; eexists; reflexivity. Qed.

Lemma order_in_doubles : exists n mus oms K,
  admissible n mus oms K /\ problem_is 0 (dbl_mus 0 mus) (dbl_oms 0 oms) mus oms /\
  exists a b, @run_solver spec_float f64_ops 1000 (Z.of_nat n) (dbl_mus 0 mus) (dbl_oms 0 oms) = Ok (Some a) /\
    @run_solver_b spec_float f64_ops (@merge_any_order _ f64_ops (@rev _)) 1000 (Z.of_nat n) (dbl_mus 0 mus) (dbl_oms 0 oms) = Ok (Some b) /\
    SFltb a b = true.
Proof.
  exists 3%nat, sum_mus, sum_oms, 1. split; [exact sum_admissible|]. split; [apply problem_isb_ok; vm_compute; reflexivity|].
  eexists _, _. split; [vm_compute; reflexivity|]. split; [vm_compute; reflexivity|]. vm_compute. reflexivity.
Qed.
