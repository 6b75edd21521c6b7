(** * Costs that are not convex *)
From Verif Require Import Base Data ProblemDefine ProblemSolver Spec ExampleData.
Local Open Scope Z_scope.

(** a cost given by its values at 0, 1, ... *)
Definition table (l : list Z) : Fn Z := fun x => Ok (nth (Z.to_nat x) l 0).

(** x in 0..2 with costs 0, 5, -3 *)
Definition hump_mus : list (MuLimit Z) := [mkMu 0 0 (table []); mkMu 0 2 (table [0; 5; -3])].

(** no cost here is negative *)
Definition bumpy_mus : list (MuLimit Z) :=
  [mkMu 0 0 (table []); mkMu 0 4 (table [0; 3; 4; 3; 0]); mkMu 0 3 (table [1; 0; 2; 5])].
Definition bumpy_oms : list (OmegaLimit Z) := [mkOm 0 3 (table [0; 2; 1; 6]) 1 2].

(** everything [admissible] asks for except convexity *)
Definition admissible_but_convex (n : nat) (mus : list (MuLimit Z)) (oms : list (OmegaLimit Z)) (K : Z) : Prop :=
  length mus = (n + 1)%nat /\
  (forall i m, (1 <= i <= n)%nat -> nth_error mus i = Some m -> m_l m <= m_u m /\ defined_on (m_fn m) (m_l m) (m_u m)) /\
  (forall o, In o oms -> o_l o <= o_u o /\ defined_on (o_fn o) (o_l o) (o_u o) /\ (1 <= o_i o <= n)%nat /\ (1 <= o_j o <= n)%nat /\ o_i o <> o_j o) /\
  bounded_by n mus oms K /\ int_fits n K.


Lemma table_ge0 l x : Forall (fun v => 0 <= v) l -> 0 <= cost (table l) x.
Proof.
  intro H. unfold cost, table. destruct (nth_in_or_default (Z.to_nat x) l 0) as [Hi|E]; [|rewrite E; lia].
  rewrite Forall_forall in H. apply H, Hi.
Qed.

Lemma hump_wf : admissible_but_convex 1 hump_mus [] 2.
Proof.
  split; [reflexivity|]. split; [|split; [intros o []|split; [split; [|intros o []]|unfold int_fits, INT_MAX; lia]]].
  - intros i m Hi E. destruct i as [|[|i]]; try lia. cbn in E. injection E as <-. cbn [m_l m_u m_fn]. split; [lia|]. intros x _. eexists. reflexivity.
  - intros i m Hi E. destruct i as [|[|i]]; try lia. cbn in E. injection E as <-. cbn [m_l m_u]. lia.
Qed.

Lemma bumpy_wf : admissible_but_convex 2 bumpy_mus bumpy_oms 4.
Proof.
  split; [reflexivity|]. split; [|split; [|split; [split|unfold int_fits, INT_MAX; lia]]].
  - intros i m Hi E. destruct i as [|[|[|i]]]; try lia; cbn in E; injection E as <-; cbn [m_l m_u m_fn]; (split; [lia|]); intros x _; eexists; reflexivity.
  - intros o [<-|[]]. cbn [o_l o_u o_fn o_i o_j]. split; [lia|]. split; [intros x _; eexists; reflexivity|]. lia.
  - intros i m Hi E. destruct i as [|[|[|i]]]; try lia; cbn in E; injection E as <-; cbn [m_l m_u]; lia.
  - intros o [<-|[]]. cbn [o_l o_u]. lia.
Qed.

Theorem convex_needed :
  (exists n mus oms K v, admissible_but_convex n mus oms K /\
     @run_solver Z (exact_ops 1) (Z.to_nat 3000) (Z.of_nat n) mus oms = Ok (Some v) /\
     (exists w, optimum n mus oms w /\ w < v) /\
     forall mu om, feasible n mus oms mu om -> total_cost n mus oms mu om <> v) /\
  (exists n mus oms K v, admissible_but_convex n mus oms K /\
     @run_solver Z (exact_ops 1) (Z.to_nat 3000) (Z.of_nat n) mus oms = Ok (Some v) /\
     exists w, optimum n mus oms w /\ v < w).
Proof.
  split.
  - exists 1%nat, hump_mus, [], 2, (-1). split; [exact hump_wf|]. split; [vm_compute; reflexivity|].
    assert (X : forall mu om, feasible 1 hump_mus [] mu om -> 0 <= mu 1%nat <= 2 /\ total_cost 1 hump_mus [] mu om = nth (Z.to_nat (mu 1%nat)) [0; 5; -3] 0).
    { intros mu om [F _]. destruct (F 1%nat ltac:(lia)) as (m & E & B). cbn in E. injection E as <-. split; [exact B|].
      unfold total_cost. cbn [seq map length sumZ]. unfold mu_cost. cbn [hump_mus nth_error m_fn]. unfold cost, table. lia. }
    split.
    + exists (-3). split; [|lia]. split.
      * exists (fun _ => 2), (fun _ => 0). split; [|reflexivity]. split.
        -- intros i Hi. destruct i as [|[|i]]; try lia. eexists. split; [reflexivity|]. cbn [m_l m_u]. lia.
        -- intros [|k] o E; discriminate.
      * intros mu om HF. destruct (X mu om HF) as [B ->]. assert (C : mu 1%nat = 0 \/ mu 1%nat = 1 \/ mu 1%nat = 2) by lia.
        destruct C as [-> | [-> | ->]]; vm_compute; discriminate.
    + intros mu om HF. destruct (X mu om HF) as [B ->]. assert (C : mu 1%nat = 0 \/ mu 1%nat = 1 \/ mu 1%nat = 2) by lia.
      destruct C as [-> | [-> | ->]]; vm_compute; discriminate.
  - exists 2%nat, bumpy_mus, bumpy_oms, 4, (-9). split; [exact bumpy_wf|]. split; [vm_compute; reflexivity|].
    exists 0. split; [|lia]. split.
    + exists (fun i => match i with 2%nat => 1 | _ => 0 end), (fun _ => 0). split; [|reflexivity]. split.
      * intros i Hi. destruct i as [|[|[|i]]]; try lia; (eexists; split; [reflexivity|]; cbn [m_l m_u]; lia).
      * intros [|k] o E; [|destruct k; discriminate]. cbn in E. injection E as <-. cbn [o_l o_u o_i o_j]. lia.
    + intros mu om _. unfold total_cost. cbn [seq map length bumpy_oms sumZ]. unfold mu_cost, om_cost. cbn [bumpy_mus bumpy_oms nth_error m_fn o_fn].
      assert (A := table_ge0 [0; 3; 4; 3; 0] (mu 1%nat) ltac:(repeat constructor; lia)).
      assert (B := table_ge0 [1; 0; 2; 5] (mu 2%nat) ltac:(repeat constructor; lia)).
      assert (C := table_ge0 [0; 2; 1; 6] (om 0%nat) ltac:(repeat constructor; lia)). lia.
Qed.
