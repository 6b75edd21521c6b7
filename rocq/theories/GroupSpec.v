(** * Data types that are ordered groups, and the problem with costs in one

    ProblemDefine.hpp:7-9 allows [Data] to be changed.  These are the laws a type has to obey,
    and the problem stated for its values, like Spec.v for integers. *)
From Verif Require Import Base Data ProblemDefine Spec.
Local Open Scope Z_scope.

(** a totally ordered abelian group with a function that halves what is twice another element *)
Record ordered_group {G : Type} (ops : DataOps G) : Prop := {
  og_comm : forall x y, dadd x y = dadd y x;
  og_assoc : forall x y z, dadd x (dadd y z) = dadd (dadd x y) z;
  og_zero : forall x, dadd dzero x = x;
  og_opp : forall x, dadd (dopp x) x = dzero;
  og_sub : forall x y, dsub x y = dadd x (dopp y);
  og_mul0 : forall x, dmuli x 0 = dzero;
  og_mulS : forall x w, dmuli x (w + 1) = dadd (dmuli x w) x;
  og_half : forall x, dhalf (dadd x x) = x;
  og_irrefl : forall x, dlt x x = false;
  og_trans : forall x y z, dlt x y = true -> dlt y z = true -> dlt x z = true;
  og_total : forall x y, dlt x y = true \/ x = y \/ dlt y x = true;
  og_add : forall x y z, dlt x y = true -> dlt (dadd z x) (dadd z y) = true;
  og_le : forall x y, dle x y = negb (dlt y x);
  og_eq : forall x y, deq x y = true <-> x = y;
  og_one : dlt dzero done = true
}.

Section Problem.
Context {G : Type} {ops : DataOps G}.

Definition gcost (fn : Fn G) (x : Z) : G := match fn x with Ok v => v | Err _ => dzero end.

Definition gdefined_on (fn : Fn G) (l u : Z) : Prop := forall x, l <= x <= u -> exists v, fn x = Ok v.

(** 2 F(x) <= F(x-1) + F(x+1) *)
Definition gconvex_on (F : Z -> G) (l u : Z) : Prop :=
  forall x, l < x < u -> dle (dadd (F x) (F x)) (dadd (F (x - 1)) (F (x + 1))) = true.

Fixpoint sumG (l : list G) : G := match l with [] => dzero | x :: l => dadd x (sumG l) end.

Definition gmu_bound (mus : list (MuLimit G)) (i : nat) (v : Z) : Prop :=
  exists m, nth_error mus i = Some m /\ m_l m <= v <= m_u m.

Definition gfeasible (n : nat) (mus : list (MuLimit G)) (oms : list (OmegaLimit G)) (mu om : nat -> Z) : Prop :=
  (forall i, (1 <= i <= n)%nat -> gmu_bound mus i (mu i)) /\
  (forall k o, nth_error oms k = Some o -> o_l o <= om k <= o_u o /\ mu (o_i o) - mu (o_j o) <= om k).

Definition gmu_cost (mus : list (MuLimit G)) (mu : nat -> Z) (i : nat) : G :=
  match nth_error mus i with Some m => gcost (m_fn m) (mu i) | None => dzero end.
Definition gom_cost (oms : list (OmegaLimit G)) (om : nat -> Z) (k : nat) : G :=
  match nth_error oms k with Some o => gcost (o_fn o) (om k) | None => dzero end.

(** sum_{i=1..n} F_i(mu_i) + sum_k B_k(omega_k) *)
Definition gtotal_cost (n : nat) (mus : list (MuLimit G)) (oms : list (OmegaLimit G)) (mu om : nat -> Z) : G :=
  dadd (sumG (map (gmu_cost mus mu) (seq 1 n))) (sumG (map (gom_cost oms om) (seq 0 (length oms)))).

Definition goptimum (n : nat) mus oms (v : G) : Prop :=
  (exists mu om, gfeasible n mus oms mu om /\ gtotal_cost n mus oms mu om = v) /\
  (forall mu om, gfeasible n mus oms mu om -> dle v (gtotal_cost n mus oms mu om) = true).

Definition ginfeasible (n : nat) (mus : list (MuLimit G)) oms : Prop := forall mu om, ~ gfeasible n mus oms mu om.

Definition gmu_wf (m : MuLimit G) : Prop :=
  m_l m <= m_u m /\ gdefined_on (m_fn m) (m_l m) (m_u m) /\ gconvex_on (gcost (m_fn m)) (m_l m) (m_u m).

Definition gom_wf (n : nat) (o : OmegaLimit G) : Prop :=
  o_l o <= o_u o /\ gdefined_on (o_fn o) (o_l o) (o_u o) /\ gconvex_on (gcost (o_fn o)) (o_l o) (o_u o) /\
  (1 <= o_i o <= n)%nat /\ (1 <= o_j o <= n)%nat /\ o_i o <> o_j o.

Definition gwell_formed (n : nat) (mus : list (MuLimit G)) (oms : list (OmegaLimit G)) : Prop :=
  length mus = (n + 1)%nat /\
  (forall i m, (1 <= i <= n)%nat -> nth_error mus i = Some m -> gmu_wf m) /\
  (forall o, In o oms -> gom_wf n o).

Definition gbounded_by (n : nat) (mus : list (MuLimit G)) (oms : list (OmegaLimit G)) (K : Z) : Prop :=
  (forall i m, (1 <= i <= n)%nat -> nth_error mus i = Some m -> - K <= m_l m /\ m_u m <= K) /\
  (forall o, In o oms -> - K <= o_l o /\ o_u o <= K).

Definition gadmissible (n : nat) (mus : list (MuLimit G)) (oms : list (OmegaLimit G)) (K : Z) : Prop :=
  gwell_formed n mus oms /\ gbounded_by n mus oms K /\ int_fits n K.
End Problem.
