(** * Cost functions with a memory: when they answer like ordinary ones *)
From Verif Require Import Base ProblemDefine MemRun.
Local Open Scope Z_scope.

(** arguments in the range of a limit, or any arguments *)
Definition within (l u x : Z) : Prop := l <= x <= u.
Definition anywhere (l u x : Z) : Prop := True.

Section Spec.
Context {St D : Type}.
Variable inv : St -> Prop.
Variable where_ : Z -> Z -> Z -> Prop.

(** where [g] returns a value, a call of [f] returns it too and keeps [inv] *)
Definition answers (l u : Z) (f : Fn (mem St D)) (g : Fn D) : Prop :=
  forall x v s, where_ l u x -> g x = Ok v -> inv s ->
    exists a s', f x = Ok a /\ a s = Ok (v, s') /\ inv s'.
Definition mu_answers (m : MuLimit (mem St D)) (m' : MuLimit D) : Prop :=
  m_l m = m_l m' /\ m_u m = m_u m' /\ answers (m_l m) (m_u m) (m_fn m) (m_fn m').
Definition om_answers (o : OmegaLimit (mem St D)) (o' : OmegaLimit D) : Prop :=
  o_l o = o_l o' /\ o_u o = o_u o' /\ o_i o = o_i o' /\ o_j o = o_j o' /\
  answers (o_l o) (o_u o) (o_fn o) (o_fn o').
End Spec.
