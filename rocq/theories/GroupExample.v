(** * A problem with lexicographic costs *)
From Coq Require Import QArith Qcanon.
From Verif Require Import Base Data ProblemDefine ProblemSolver Spec SolverProof GroupSpec GroupInst.
Local Open Scope Z_scope.

Definition rat (q : Q) : Qc := Q2Qc q.

(** first minimize max(0, 1 - mu_1), then mu_2 / 3 + omega / 2, with mu_1 - mu_2 <= omega and all of them from 0 to 2 *)
Definition lx_mus : list (MuLimit (Qc * Qc)) :=
  [mkMu 0 0 (fun _ => Err BadCall); mkMu 0 2 (fun x => Ok (rat (inject_Z (Z.max 0 (1 - x))), rat 0)); mkMu 0 2 (fun x => Ok (rat 0, rat (x # 3)))].
Definition lx_oms : list (OmegaLimit (Qc * Qc)) := [mkOm 0 2 (fun x => Ok (rat 0, rat (x # 2))) 1 2].

Definition lx_fuel : nat := Z.to_nat (solver_fuel 2 1 2).
Definition rat_run {D} (show : D -> list Q) (r : res (option D)) : res (option (list Q)) := v <- r ;; Ok (option_map show v).

Local Existing Instance rat_ops.

Lemma lx_step P : P 1 -> forall x, 0 < x < 2 -> P x.
Proof. intros H x Hx. replace x with 1 by lia. exact H. Qed.

Lemma lx_admissible (f : Qc * Qc -> Qc) : f = fst \/ f = snd -> gadmissible 2 (map (on_mu f) lx_mus) (map (on_om f) lx_oms) 2.
Proof.
  intros Hf. split; [|split; [|unfold int_fits, INT_MAX; lia]].
  - split; [reflexivity|]. split.
    + intros i m Hi E. destruct i as [|[|[|i]]]; try lia; injection E as <-; (split; [cbn [on_mu m_l m_u]; lia|split; [intros x _; eexists; reflexivity|]]);
        unfold gconvex_on; cbn [on_mu m_l m_u m_fn]; apply lx_step; destruct Hf as [-> | ->]; vm_compute; reflexivity.
    + intros o [<-|[]]. split; [cbn [on_om o_l o_u]; lia|]. split; [intros x _; eexists; reflexivity|]. split; [|cbn [on_om o_i o_j]; lia].
      unfold gconvex_on. cbn [on_om o_l o_u o_fn]. apply lx_step. destruct Hf as [-> | ->]; vm_compute; reflexivity.
  - split.
    + intros i m Hi E. destruct i as [|[|[|i]]]; try lia; injection E as <-; cbn [on_mu m_l m_u]; lia.
    + intros o [<-|[]]. cbn [on_om o_l o_u]. lia.
Qed.
