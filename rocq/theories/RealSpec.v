(** * Real numbers as Data, and the problem with real costs

    Written for the real numbers of the standard library like Spec.v for integers. *)
From Coq Require Import Reals.
From Verif Require Import Base Data ProblemDefine Spec.
Local Open Scope Z_scope.

(** exact arithmetic on real numbers *)
Definition real_ops : DataOps R := {|
  dzero := 0%R;
  done := 1%R;
  dadd := Rplus;
  dsub := Rminus;
  dopp := Ropp;
  dmuli := fun a w => (a * IZR w)%R;
  dhalf := fun a => (a / 2)%R;
  dlt := fun a b => if Rlt_dec a b then true else false;
  dle := fun a b => if Rle_dec a b then true else false;
  deq := fun a b => if Req_EM_T a b then true else false
|}.

Definition rcost (fn : Fn R) (x : Z) : R := match fn x with Ok v => v | Err _ => 0%R end.

Definition rdefined_on (fn : Fn R) (l u : Z) : Prop := forall x, l <= x <= u -> exists v, fn x = Ok v.

Definition rconvex_on (F : Z -> R) (l u : Z) : Prop :=
  forall x, l < x < u -> (2 * F x <= F (x - 1)%Z + F (x + 1)%Z)%R.

Fixpoint sumR (l : list R) : R := match l with [] => 0%R | x :: l => (x + sumR l)%R end.

Definition rmu_bound (mus : list (MuLimit R)) (i : nat) (v : Z) : Prop :=
  exists m, nth_error mus i = Some m /\ m_l m <= v <= m_u m.

Definition rfeasible (n : nat) (mus : list (MuLimit R)) (oms : list (OmegaLimit R)) (mu om : nat -> Z) : Prop :=
  (forall i, (1 <= i <= n)%nat -> rmu_bound mus i (mu i)) /\
  (forall k o, nth_error oms k = Some o -> o_l o <= om k <= o_u o /\ mu (o_i o) - mu (o_j o) <= om k).

Definition rmu_cost (mus : list (MuLimit R)) (mu : nat -> Z) (i : nat) : R :=
  match nth_error mus i with Some m => rcost (m_fn m) (mu i) | None => 0%R end.
Definition rom_cost (oms : list (OmegaLimit R)) (om : nat -> Z) (k : nat) : R :=
  match nth_error oms k with Some o => rcost (o_fn o) (om k) | None => 0%R end.

(** sum_{i=1..n} F_i(mu_i) + sum_k B_k(omega_k) *)
Definition rtotal_cost (n : nat) (mus : list (MuLimit R)) (oms : list (OmegaLimit R)) (mu om : nat -> Z) : R :=
  (sumR (map (rmu_cost mus mu) (seq 1 n)) + sumR (map (rom_cost oms om) (seq 0 (length oms))))%R.

Definition roptimum (n : nat) mus oms (v : R) : Prop :=
  (exists mu om, rfeasible n mus oms mu om /\ rtotal_cost n mus oms mu om = v) /\
  (forall mu om, rfeasible n mus oms mu om -> (v <= rtotal_cost n mus oms mu om)%R).

Definition rinfeasible (n : nat) (mus : list (MuLimit R)) oms : Prop := forall mu om, ~ rfeasible n mus oms mu om.

Definition rmu_wf (m : MuLimit R) : Prop :=
  m_l m <= m_u m /\ rdefined_on (m_fn m) (m_l m) (m_u m) /\ rconvex_on (rcost (m_fn m)) (m_l m) (m_u m).

Definition rom_wf (n : nat) (o : OmegaLimit R) : Prop :=
  o_l o <= o_u o /\ rdefined_on (o_fn o) (o_l o) (o_u o) /\ rconvex_on (rcost (o_fn o)) (o_l o) (o_u o) /\
  (1 <= o_i o <= n)%nat /\ (1 <= o_j o <= n)%nat /\ o_i o <> o_j o.

Definition rwell_formed (n : nat) (mus : list (MuLimit R)) (oms : list (OmegaLimit R)) : Prop :=
  length mus = (n + 1)%nat /\
  (forall i m, (1 <= i <= n)%nat -> nth_error mus i = Some m -> rmu_wf m) /\
  (forall o, In o oms -> rom_wf n o).

Definition rbounded_by (n : nat) (mus : list (MuLimit R)) (oms : list (OmegaLimit R)) (K : Z) : Prop :=
  (forall i m, (1 <= i <= n)%nat -> nth_error mus i = Some m -> - K <= m_l m /\ m_u m <= K) /\
  (forall o, In o oms -> - K <= o_l o /\ o_u o <= K).

Definition radmissible (n : nat) (mus : list (MuLimit R)) (oms : list (OmegaLimit R)) (K : Z) : Prop :=
  rwell_formed n mus oms /\ rbounded_by n mus oms K /\ int_fits n K.
