(** * When doubles represent exact numbers *)
From Coq Require Import Floats.SpecFloat.
From Verif Require Import Base Data ProblemDefine CostScaling Spec.
Local Open Scope Z_scope.

(** [f64_is k f z]: the double [f] is finite and its value is exactly z * 2^-k *)
Definition f64_is (k : Z) (f : spec_float) (z : Z) : Prop :=
  match f with
  | S754_zero _ => z = 0
  | S754_finite s m e =>
      valid_binary f64_prec f64_emax f = true /\
      cond_Zopp s (Zpos m) * 2 ^ Z.max 0 (e + k) = z * 2 ^ Z.max 0 (- (e + k))
  | _ => False
  end.

(** the callback [ff] returns on l..u exactly the values of [fz], in units of
    2^-k *)
Definition fn_is (k : Z) (ff : Fn spec_float) (fz : Fn Z) (l u : Z) : Prop :=
  forall x, l <= x <= u -> exists f z, ff x = Ok f /\ fz x = Ok z /\ f64_is k f z.

Definition mu_is (k : Z) (mf : MuLimit spec_float) (mz : MuLimit Z) : Prop :=
  m_l mf = m_l mz /\ m_u mf = m_u mz /\ fn_is k (m_fn mf) (m_fn mz) (m_l mz) (m_u mz).

Definition om_is (k : Z) (of_ : OmegaLimit spec_float) (oz : OmegaLimit Z) : Prop :=
  o_l of_ = o_l oz /\ o_u of_ = o_u oz /\ o_i of_ = o_i oz /\ o_j of_ = o_j oz /\
  fn_is k (o_fn of_) (o_fn oz) (o_l oz) (o_u oz).

(** the problem with double costs is the exact problem; entry 0 of Mus is not
    part of the problem *)
Definition problem_is (k : Z) (musf : list (MuLimit spec_float)) (omsf : list (OmegaLimit spec_float))
  (mus : list (MuLimit Z)) (oms : list (OmegaLimit Z)) : Prop :=
  length musf = length mus /\
  (forall i mf mz, (1 <= i)%nat -> nth_error musf i = Some mf -> nth_error mus i = Some mz -> mu_is k mf mz) /\
  Forall2 (om_is k) omsf oms.

(** the answer [r] on doubles is the solution of the exact problem *)
Definition double_solution (k : Z) (n : nat) (mus : list (MuLimit Z)) (oms : list (OmegaLimit Z)) (r : res (option spec_float)) : Prop :=
  (exists f v, r = Ok (Some f) /\ f64_is k f v /\ optimum n mus oms v) \/
  (r = Ok None /\ infeasible n mus oms).

(** sizes below which the cost-scaling reference solver is exact on doubles; [A]
    bounds the costs as in [costs_within] *)
Definition simple_sizes (k : Z) (n m : nat) (K A : Z) : Prop :=
  16 * K * K * (Z.of_nat n + 1) * (12 * Z.of_nat n + 15) < 2 ^ 53 /\
  (8 * Z.of_nat (n + m) * K + 2) * (2 ^ k * 1000000000) + A < 2 ^ 53.

(** arcs with capacities in doubles *)
Definition arc_is (k : Z) (b : InputEdge spec_float) (a : InputEdge Z) : Prop :=
  in_u b = in_u a /\ in_v b = in_v a /\ in_cost b = in_cost a /\ f64_is k (in_cap b) (in_cap a).

Definition total_capacity (A : list (InputEdge Z)) : Z := sumZ (map in_cap A).
