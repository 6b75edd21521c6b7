(** * Problems that differ by little, and how far apart their solutions may be *)
From Verif Require Import Base ProblemDefine Spec.
Local Open Scope Z_scope.

(** no slope of the second cost falls below the slope of the first one step further
    left; so the second cost may be the first one, or the first one moved one step
    to the right, or anything in between *)
Definition slopes_follow (F : Z -> Z) (l u : Z) (F' : Z -> Z) (l' u' : Z) : Prop :=
  forall z, l < z <= u -> l' <= z < u' -> F z - F (z - 1) <= F' (z + 1) - F' z.

(** limits move by at most one; costs move by at most one step to either side *)
Definition limit_step (F : Z -> Z) (l u : Z) (F' : Z -> Z) (l' u' : Z) : Prop :=
  Z.abs (l - l') <= 1 /\ Z.abs (u - u') <= 1 /\ slopes_follow F l u F' l' u' /\ slopes_follow F' l' u' F l u.

Definition mu_step (m m' : MuLimit Z) : Prop :=
  limit_step (cost (m_fn m)) (m_l m) (m_u m) (cost (m_fn m')) (m_l m') (m_u m').
Definition om_step (o o' : OmegaLimit Z) : Prop :=
  o_i o' = o_i o /\ o_j o' = o_j o /\ limit_step (cost (o_fn o)) (o_l o) (o_u o) (cost (o_fn o')) (o_l o') (o_u o').

(** all variables may change by a step *)
Definition mus_step (n : nat) (mus mus' : list (MuLimit Z)) : Prop :=
  forall i m m', (1 <= i <= n)%nat -> nth_error mus i = Some m -> nth_error mus' i = Some m' -> mu_step m m'.
(** limit k may change by a step, the others stay *)
Definition oms_step (k : nat) (oms oms' : list (OmegaLimit Z)) : Prop :=
  length oms' = length oms /\
  (forall j, j <> k -> nth_error oms' j = nth_error oms j) /\
  (forall o o', nth_error oms k = Some o -> nth_error oms' k = Some o' -> om_step o o').

(** either all variables or one omega limit *)
Definition one_step (n : nat) (mus : list (MuLimit Z)) (oms : list (OmegaLimit Z)) (mus' : list (MuLimit Z)) (oms' : list (OmegaLimit Z)) : Prop :=
  (mus_step n mus mus' /\ oms' = oms) \/ (mus' = mus /\ exists k, oms_step k oms oms').

(** [k] steps, all problems on the way being admissible and feasible *)
Inductive steps (n : nat) (K : Z) : nat -> list (MuLimit Z) -> list (OmegaLimit Z) -> list (MuLimit Z) -> list (OmegaLimit Z) -> Prop :=
| steps_none mus oms : steps n K 0 mus oms mus oms
| steps_more k mus oms mus1 oms1 mus' oms' :
    one_step n mus oms mus1 oms1 -> admissible n mus1 oms1 K -> (exists mu om, feasible n mus1 oms1 mu om) ->
    steps n K k mus1 oms1 mus' oms' -> steps n K (S k) mus oms mus' oms'.

(** the values of the variables differ by at most [k] *)
Definition moved_by (n : nat) (k : Z) (mu mu' : nat -> Z) : Prop :=
  forall i, (1 <= i <= n)%nat -> Z.abs (mu i - mu' i) <= k.
