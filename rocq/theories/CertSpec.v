(** * Certificates of infeasibility, nearby problems *)
From Verif Require Import Base ProblemDefine Spec.
Local Open Scope Z_scope.

(** [link n mus oms a b w]: one of the given limits says mu_a - mu_b <= w, where
    mu_0 stands for 0 *)
Inductive link (n : nat) (mus : list (MuLimit Z)) (oms : list (OmegaLimit Z)) : nat -> nat -> Z -> Prop :=
| link_upper : forall i m, (1 <= i <= n)%nat -> nth_error mus i = Some m -> link n mus oms i 0 (m_u m)
| link_lower : forall i m, (1 <= i <= n)%nat -> nth_error mus i = Some m -> link n mus oms 0 i (- m_l m)
| link_omega : forall o, In o oms -> link n mus oms (o_i o) (o_j o) (o_u o).

(** walks along limits, with the sum of their right-hand sides *)
Inductive walk (n : nat) (mus : list (MuLimit Z)) (oms : list (OmegaLimit Z)) : nat -> nat -> Z -> Prop :=
| walk_stay : forall a, walk n mus oms a a 0
| walk_step : forall a b c w v, link n mus oms a b w -> walk n mus oms b c v -> walk n mus oms a c (w + v).

(** the limits around a closed walk contradict each other *)
Definition negative_cycle (n : nat) (mus : list (MuLimit Z)) (oms : list (OmegaLimit Z)) : Prop :=
  exists a w, walk n mus oms a a w /\ w < 0.

(** the costs of two problems with the same ranges and labels differ by at most
    [dm i] at limit i of Mus and [dk k] at limit k of Omegas *)
Definition nearby (n : nat) (mus mus' : list (MuLimit Z)) (oms oms' : list (OmegaLimit Z)) (dm dk : nat -> Z) : Prop :=
  length oms' = length oms /\
  (forall i m m', (1 <= i <= n)%nat -> nth_error mus i = Some m -> nth_error mus' i = Some m' ->
     m_l m' = m_l m /\ m_u m' = m_u m /\ forall x, m_l m <= x <= m_u m -> Z.abs (cost (m_fn m') x - cost (m_fn m) x) <= dm i) /\
  (forall k o o', nth_error oms k = Some o -> nth_error oms' k = Some o' ->
     o_l o' = o_l o /\ o_u o' = o_u o /\ o_i o' = o_i o /\ o_j o' = o_j o /\
     forall x, o_l o <= x <= o_u o -> Z.abs (cost (o_fn o') x - cost (o_fn o) x) <= dk k).

Definition total_change (n m : nat) (dm dk : nat -> Z) : Z := sumZ (map dm (seq 1 n)) + sumZ (map dk (seq 0 m)).
