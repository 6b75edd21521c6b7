(** * Fractional solutions; problems between two problems

    A fractional solution has values x/q and w/q; the costs are continued
    linearly between the integers.  Everything is written in units of 1/q. *)
From Verif Require Import Base ProblemDefine Spec.
Local Open Scope Z_scope.

(** q times the value at x/q *)
Definition between (q : Z) (F : Z -> Z) (x : Z) : Z :=
  (q - x mod q) * F (x / q) + (x mod q) * F (x / q + 1).

Definition frac_feasible (q : Z) (n : nat) (mus : list (MuLimit Z)) (oms : list (OmegaLimit Z)) (x w : nat -> Z) : Prop :=
  (forall i, (1 <= i <= n)%nat -> exists m, nth_error mus i = Some m /\ q * m_l m <= x i <= q * m_u m) /\
  (forall k o, nth_error oms k = Some o ->
     q * o_l o <= w k <= q * o_u o /\ x (o_i o) - x (o_j o) <= w k).

(** q times the cost *)
Definition frac_cost (q : Z) (n : nat) (mus : list (MuLimit Z)) (oms : list (OmegaLimit Z)) (x w : nat -> Z) : Z :=
  sumZ (map (fun i => match nth_error mus i with Some m => between q (cost (m_fn m)) (x i) | None => 0 end) (seq 1 n)) +
  sumZ (map (fun k => match nth_error oms k with Some o => between q (cost (o_fn o)) (w k) | None => 0 end) (seq 0 (length oms))).

(** [r] is what solve() should return if fractional values were allowed, too *)
Definition frac_solution (q : Z) (n : nat) (mus : list (MuLimit Z)) (oms : list (OmegaLimit Z)) (r : option Z) : Prop :=
  match r with
  | Some v =>
      (exists x w, frac_feasible q n mus oms x w /\ frac_cost q n mus oms x w = q * v) /\
      (forall x w, frac_feasible q n mus oms x w -> q * v <= frac_cost q n mus oms x w)
  | None => forall x w, ~ frac_feasible q n mus oms x w
  end.

(** the limits of the second problem lie halfway between those of the first and
    the third, or are wider; one cost function, convex where the three use it *)
Definition mu_halfway (a m b : MuLimit Z) : Prop :=
  m_fn a = m_fn m /\ m_fn b = m_fn m /\ 2 * m_l m <= m_l a + m_l b /\ m_u a + m_u b <= 2 * m_u m /\
  convex_on (cost (m_fn m)) (Z.min (m_l a) (m_l b)) (Z.max (m_u a) (m_u b)).

Definition om_halfway (a o b : OmegaLimit Z) : Prop :=
  o_fn a = o_fn o /\ o_fn b = o_fn o /\ o_i a = o_i o /\ o_j a = o_j o /\ o_i b = o_i o /\ o_j b = o_j o /\
  2 * o_l o <= o_l a + o_l b /\ o_u a + o_u b <= 2 * o_u o /\
  convex_on (cost (o_fn o)) (Z.min (o_l a) (o_l b)) (Z.max (o_u a) (o_u b)).

Definition halfway (n : nat) (musa mus musb : list (MuLimit Z)) (omsa oms omsb : list (OmegaLimit Z)) : Prop :=
  (forall i a m b, (1 <= i <= n)%nat -> nth_error musa i = Some a -> nth_error mus i = Some m -> nth_error musb i = Some b -> mu_halfway a m b) /\
  length omsa = length oms /\ length omsb = length oms /\
  (forall k a o b, nth_error omsa k = Some a -> nth_error oms k = Some o -> nth_error omsb k = Some b -> om_halfway a o b).

(** ** Solutions of given cost *)
Definition solves (n : nat) (mus : list (MuLimit Z)) (oms : list (OmegaLimit Z)) (v : Z) (mu : nat -> Z) : Prop :=
  exists om, feasible n mus oms mu om /\ total_cost n mus oms mu om = v.

(** the range of variable i replaced by [l, u] *)
Definition narrowed (mus : list (MuLimit Z)) (i : nat) (l u : Z) : list (MuLimit Z) :=
  match nth_error mus i with Some m => upd mus i (mkMu l u (m_fn m)) | None => mus end.

(** [l, u] is a part of the range of variable i *)
Definition subrange (mus : list (MuLimit Z)) (i : nat) (l u : Z) : Prop :=
  exists m, nth_error mus i = Some m /\ m_l m <= l /\ l <= u /\ u <= m_u m.
