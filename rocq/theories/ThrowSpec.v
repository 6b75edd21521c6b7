(** * Cost functions that throw

    A cost function that throws (or is empty) at x is one with value [Err BadCall]. *)
From Verif Require Import Base Data ProblemDefine.
Local Open Scope Z_scope.

(** [g] is [f] with other outcomes in place of the exceptions *)
Definition patched {D} (f g : Fn D) : Prop := forall x, f x = Err BadCall \/ g x = f x.

Definition mu_patched {D} (m m' : MuLimit D) : Prop := m_l m' = m_l m /\ m_u m' = m_u m /\ patched (m_fn m) (m_fn m').
Definition om_patched {D} (o o' : OmegaLimit D) : Prop :=
  o_l o' = o_l o /\ o_u o' = o_u o /\ o_i o' = o_i o /\ o_j o' = o_j o /\ patched (o_fn o) (o_fn o').
