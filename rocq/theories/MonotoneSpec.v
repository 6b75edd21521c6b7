(** * Words for comparing two problems *)
From Verif Require Import Base ProblemDefine Spec.
Local Open Scope Z_scope.

(** In the second problem every variable is drawn upwards: neither end of its range is
    lower, and where both ranges allow the step from x to x + 1 that step costs no more. *)
Definition drawn_up (n : nat) (mus mus' : list (MuLimit Z)) : Prop :=
  forall i m m', (1 <= i <= n)%nat -> nth_error mus i = Some m -> nth_error mus' i = Some m' ->
    m_l m <= m_l m' /\ m_u m <= m_u m' /\
    forall x, m_l m' <= x < m_u m ->
      cost (m_fn m') (x + 1) - cost (m_fn m') x <= cost (m_fn m) (x + 1) - cost (m_fn m) x.
