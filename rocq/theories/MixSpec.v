(** * Problems with the same ranges and mixed costs *)
From Verif Require Import Base ProblemDefine Spec.
Local Open Scope Z_scope.

(** a times one cost plus b times another *)
Definition mix_fn (a b : Z) (f g : Fn Z) : Fn Z := fun x => u <- f x ;; v <- g x ;; Ok (a * u + b * v).
Definition mix_mu (a b : Z) (p : MuLimit Z * MuLimit Z) : MuLimit Z :=
  mkMu (m_l (fst p)) (m_u (fst p)) (mix_fn a b (m_fn (fst p)) (m_fn (snd p))).
Definition mix_om (a b : Z) (p : OmegaLimit Z * OmegaLimit Z) : OmegaLimit Z :=
  mkOm (o_l (fst p)) (o_u (fst p)) (mix_fn a b (o_fn (fst p)) (o_fn (snd p))) (o_i (fst p)) (o_j (fst p)).
Definition mix_mus (a b : Z) (mus mus' : list (MuLimit Z)) : list (MuLimit Z) := map (mix_mu a b) (combine mus mus').
Definition mix_oms (a b : Z) (oms oms' : list (OmegaLimit Z)) : list (OmegaLimit Z) := map (mix_om a b) (combine oms oms').

(** two problems that differ in their costs only *)
Definition same_shape (mus : list (MuLimit Z)) (oms : list (OmegaLimit Z)) (mus' : list (MuLimit Z)) (oms' : list (OmegaLimit Z)) : Prop :=
  length mus = length mus' /\
  (forall i m m', (1 <= i)%nat -> nth_error mus i = Some m -> nth_error mus' i = Some m' -> m_l m = m_l m' /\ m_u m = m_u m') /\
  Forall2 (fun o o' => o_l o = o_l o' /\ o_u o = o_u o' /\ o_i o = o_i o' /\ o_j o = o_j o') oms oms'.

(** an optimal solution *)
Definition best (n : nat) (mus : list (MuLimit Z)) (oms : list (OmegaLimit Z)) (mu om : nat -> Z) : Prop :=
  feasible n mus oms mu om /\ forall mu' om', feasible n mus oms mu' om' -> total_cost n mus oms mu om <= total_cost n mus oms mu' om'.
