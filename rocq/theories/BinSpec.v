(** * Binary floating-point formats as [Data]

    ProblemDefine.hpp:6-10 tells users to change [Data] to what they need; float
    has [prec] = 24 and [emax] = 128, the long double of x86 64 and 16384. *)
From Coq Require Import Floats.SpecFloat.
From Verif Require Import Base Data ProblemDefine Spec.
Local Open Scope Z_scope.

(** conversion of an integer, rounding to nearest even *)
Definition bin_of_Z (prec emax z : Z) : spec_float := binary_normalize prec emax z 0 false.

(** the operations of the format; as [f64_ops] (Data.v) for doubles *)
Definition bin_ops (prec emax : Z) : DataOps spec_float := {|
  dzero := S754_zero false;
  done := bin_of_Z prec emax 1;
  dadd := SFadd prec emax;
  dsub := SFsub prec emax;
  dopp := SFopp;
  dmuli := fun a w => SFmul prec emax a (bin_of_Z prec emax w);
  dhalf := fun a => SFdiv prec emax a (bin_of_Z prec emax 2);
  dlt := SFltb;
  dle := SFleb;
  deq := SFeqb
|}.

(** [f] is finite and its value is exactly z * 2^-k *)
Definition bin_is (prec emax k : Z) (f : spec_float) (z : Z) : Prop :=
  match f with
  | S754_zero _ => z = 0
  | S754_finite s m e =>
      valid_binary prec emax f = true /\
      cond_Zopp s (Zpos m) * 2 ^ Z.max 0 (e + k) = z * 2 ^ Z.max 0 (- (e + k))
  | _ => False
  end.

(** the costs of a problem are numbers of the format, in units of 2^-k; entry 0
    of Mus is not part of the problem *)
Definition bin_fn (prec emax k : Z) (ff : Fn spec_float) (fz : Fn Z) (l u : Z) : Prop :=
  forall x, l <= x <= u -> exists f z, ff x = Ok f /\ fz x = Ok z /\ bin_is prec emax k f z.
Definition bin_mu (prec emax k : Z) (mf : MuLimit spec_float) (mz : MuLimit Z) : Prop :=
  m_l mf = m_l mz /\ m_u mf = m_u mz /\ bin_fn prec emax k (m_fn mf) (m_fn mz) (m_l mz) (m_u mz).
Definition bin_om (prec emax k : Z) (of_ : OmegaLimit spec_float) (oz : OmegaLimit Z) : Prop :=
  o_l of_ = o_l oz /\ o_u of_ = o_u oz /\ o_i of_ = o_i oz /\ o_j of_ = o_j oz /\
  bin_fn prec emax k (o_fn of_) (o_fn oz) (o_l oz) (o_u oz).
Definition bin_problem (prec emax k : Z) (musf : list (MuLimit spec_float)) (omsf : list (OmegaLimit spec_float))
  (mus : list (MuLimit Z)) (oms : list (OmegaLimit Z)) : Prop :=
  length musf = length mus /\
  (forall i mf mz, (1 <= i)%nat -> nth_error musf i = Some mf -> nth_error mus i = Some mz -> bin_mu prec emax k mf mz) /\
  Forall2 (bin_om prec emax k) omsf oms.

(** the answer is the solution of the exact problem *)
Definition bin_solution (prec emax k : Z) (n : nat) (mus : list (MuLimit Z)) (oms : list (OmegaLimit Z)) (r : res (option spec_float)) : Prop :=
  (exists f v, r = Ok (Some f) /\ bin_is prec emax k f v /\ optimum n mus oms v) \/
  (r = Ok None /\ infeasible n mus oms).
