(** * What the library is supposed to compute

    This file mentions only the input types of the API (limits with their cost
    callbacks), never an internal function of the model.  [Data] values are
    integers: multiples of a fixed unit. *)
From Verif Require Import Base ProblemDefine.
Local Open Scope Z_scope.

(** the value of a callback where it is defined *)
Definition cost (fn : Fn Z) (x : Z) : Z := match fn x with Ok v => v | Err _ => 0 end.

Definition defined_on (fn : Fn Z) (l u : Z) : Prop := forall x, l <= x <= u -> exists v, fn x = Ok v.

Definition convex_on (F : Z -> Z) (l u : Z) : Prop :=
  forall x, l < x < u -> 2 * F x <= F (x - 1) + F (x + 1).

Fixpoint sumZ (l : list Z) : Z := match l with [] => 0 | x :: l => x + sumZ l end.

(** ** The problem
    [mus] has n+1 entries, entry 0 is unused; [oms] are the omega limits. *)
Definition mu_bound (mus : list (MuLimit Z)) (i : nat) (v : Z) : Prop :=
  exists m, nth_error mus i = Some m /\ m_l m <= v <= m_u m.

(** mu : node values, om : omega values *)
Definition feasible (n : nat) (mus : list (MuLimit Z)) (oms : list (OmegaLimit Z))
  (mu : nat -> Z) (om : nat -> Z) : Prop :=
  (forall i, (1 <= i <= n)%nat -> mu_bound mus i (mu i)) /\
  (forall k o, nth_error oms k = Some o ->
     o_l o <= om k <= o_u o /\ mu (o_i o) - mu (o_j o) <= om k).

Definition mu_cost (mus : list (MuLimit Z)) (mu : nat -> Z) (i : nat) : Z :=
  match nth_error mus i with Some m => cost (m_fn m) (mu i) | None => 0 end.

Definition om_cost (oms : list (OmegaLimit Z)) (om : nat -> Z) (k : nat) : Z :=
  match nth_error oms k with Some o => cost (o_fn o) (om k) | None => 0 end.

(** sum_{i=1..n} F_i(mu_i) + sum_k B_k(omega_k) *)
Definition total_cost (n : nat) (mus : list (MuLimit Z)) (oms : list (OmegaLimit Z))
  (mu : nat -> Z) (om : nat -> Z) : Z :=
  sumZ (map (mu_cost mus mu) (seq 1 n)) + sumZ (map (om_cost oms om) (seq 0 (length oms))).

(** [v] is the optimum *)
Definition optimum (n : nat) mus oms (v : Z) : Prop :=
  (exists mu om, feasible n mus oms mu om /\ total_cost n mus oms mu om = v) /\
  (forall mu om, feasible n mus oms mu om -> v <= total_cost n mus oms mu om).

Definition infeasible (n : nat) (mus : list (MuLimit Z)) oms : Prop :=
  forall mu om, ~ feasible n mus oms mu om.

(** the answer [solve()] should give *)
Definition solution (n : nat) mus oms (r : option Z) : Prop :=
  match r with
  | Some v => optimum n mus oms v
  | None => infeasible n mus oms
  end.

(** ** Well-formed input *)
Definition mu_wf (m : MuLimit Z) : Prop :=
  m_l m <= m_u m /\ defined_on (m_fn m) (m_l m) (m_u m) /\ convex_on (cost (m_fn m)) (m_l m) (m_u m).

Definition om_wf (n : nat) (o : OmegaLimit Z) : Prop :=
  o_l o <= o_u o /\ defined_on (o_fn o) (o_l o) (o_u o) /\ convex_on (cost (o_fn o)) (o_l o) (o_u o) /\
  (1 <= o_i o <= n)%nat /\ (1 <= o_j o <= n)%nat /\ o_i o <> o_j o.

Definition well_formed (n : nat) (mus : list (MuLimit Z)) (oms : list (OmegaLimit Z)) : Prop :=
  length mus = (n + 1)%nat /\
  (forall i m, (1 <= i <= n)%nat -> nth_error mus i = Some m -> mu_wf m) /\
  (forall o, In o oms -> om_wf n o).

(** [K] bounds the absolute value of every given l and u *)
Definition bounded_by (n : nat) (mus : list (MuLimit Z)) (oms : list (OmegaLimit Z)) (K : Z) : Prop :=
  (forall i m, (1 <= i <= n)%nat -> nth_error mus i = Some m -> - K <= m_l m /\ m_u m <= K) /\
  (forall o, In o oms -> - K <= o_l o /\ o_u o <= K).

(** ** The penalised network problem solved by [Flow]
    Every limit is a function of nu_i - nu_j; outside [l, u] it continues with
    slope M. *)
Definition clamp (l u d : Z) : Z := Z.max l (Z.min u d).

Definition penalised (M : Z) (o : OmegaLimit Z) (d : Z) : Z :=
  let c := clamp (o_l o) (o_u o) d in cost (o_fn o) c + M * Z.abs (d - c).

Definition network_cost (M : Z) (limits : list (OmegaLimit Z)) (nu : nat -> Z) : Z :=
  sumZ (map (fun o => penalised M o (nu (o_i o) - nu (o_j o))) limits).

(** [v] is the least cost over all node values *)
Definition network_min (M : Z) (limits : list (OmegaLimit Z)) (v : Z) : Prop :=
  (exists nu, network_cost M limits nu = v) /\ forall nu, v <= network_cost M limits nu.

(** ** Integer range
    std::bit_ceil: the least power of two that is at least [x] (1 for 0) *)
Definition bit_ceil (x : Z) : Z := 2 ^ Z.log2_up x.

(** The int operations of the whole library stay in range when the bounds given
    by the user are at most [K] in absolute value and: *)
Definition int_fits (n : nat) (K : Z) : Prop :=
  1 <= K /\ 28 * Z.of_nat (n + 1) * Z.of_nat (n + 1) * K <= INT_MAX.

(** a problem the theorems about [solve()] speak of *)
Definition admissible (n : nat) (mus : list (MuLimit Z)) (oms : list (OmegaLimit Z)) (K : Z) : Prop :=
  well_formed n mus oms /\ bounded_by n mus oms K /\ int_fits n K.

(** The limits of the network lie in [-K, K] and are at most [U] wide.  An omega
    limit between i and j becomes the range from the least value of mu_i - mu_j
    to its own upper bound. *)
Definition near (n : nat) (mus : list (MuLimit Z)) (oms : list (OmegaLimit Z)) (K U : Z) : Prop :=
  (forall i m, (1 <= i <= n)%nat -> nth_error mus i = Some m -> - K <= m_l m /\ m_u m <= K /\ m_u m - m_l m <= U) /\
  (forall o a b, In o oms -> nth_error mus (o_i o) = Some a -> nth_error mus (o_j o) = Some b ->
     - K <= m_l a - m_u b /\ o_u o <= K /\ o_u o - (m_l a - m_u b) <= U).

(** ** Changes of a problem *)
Definition add_const (c : Z) (fn : Fn Z) : Fn Z := fun x => v <- fn x ;; Ok (v + c).
Definition mu_add (c : Z) (m : MuLimit Z) : MuLimit Z := mkMu (m_l m) (m_u m) (add_const c (m_fn m)).
Definition om_add (c : Z) (o : OmegaLimit Z) : OmegaLimit Z :=
  mkOm (o_l o) (o_u o) (add_const c (o_fn o)) (o_i o) (o_j o).

(** move the range and the argument of a mu limit *)
Definition mu_move (c : Z) (m : MuLimit Z) : MuLimit Z :=
  mkMu (m_l m + c) (m_u m + c) (fun x => m_fn m (x - c)).

(** multiply a cost by [k] *)
Definition mul_const (k : Z) (fn : Fn Z) : Fn Z := fun x => v <- fn x ;; Ok (k * v).
Definition mu_scale (k : Z) (m : MuLimit Z) : MuLimit Z := mkMu (m_l m) (m_u m) (mul_const k (m_fn m)).
Definition om_scale (k : Z) (o : OmegaLimit Z) : OmegaLimit Z :=
  mkOm (o_l o) (o_u o) (mul_const k (o_fn o)) (o_i o) (o_j o).

(** mirror image: every mu becomes -mu *)
Definition mu_mirror (m : MuLimit Z) : MuLimit Z := mkMu (- m_u m) (- m_l m) (fun x => m_fn m (- x)).
Definition om_mirror (o : OmegaLimit Z) : OmegaLimit Z := mkOm (o_l o) (o_u o) (o_fn o) (o_j o) (o_i o).

(** rename the nodes of an omega limit *)
Definition om_rename (f : nat -> nat) (o : OmegaLimit Z) : OmegaLimit Z :=
  mkOm (o_l o) (o_u o) (o_fn o) (f (o_i o)) (f (o_j o)).

(** a callback that fails outside its declared range *)
Definition guard (l u : Z) (fn : Fn Z) : Fn Z :=
  fun x => if (l <=? x) && (x <=? u) then fn x else Err BadCall.
Definition guard_mu (m : MuLimit Z) : MuLimit Z := mkMu (m_l m) (m_u m) (guard (m_l m) (m_u m) (m_fn m)).
Definition guard_om (o : OmegaLimit Z) : OmegaLimit Z :=
  mkOm (o_l o) (o_u o) (guard (o_l o) (o_u o) (o_fn o)) (o_i o) (o_j o).

(** [m'] is a relaxation of [m]: wider range, not more expensive *)
Definition mu_relaxed (m m' : MuLimit Z) : Prop :=
  m_l m' <= m_l m /\ m_u m <= m_u m' /\
  forall x, m_l m <= x <= m_u m -> cost (m_fn m') x <= cost (m_fn m) x.
Definition om_relaxed (o o' : OmegaLimit Z) : Prop :=
  o_i o' = o_i o /\ o_j o' = o_j o /\ o_l o' <= o_l o /\ o_u o <= o_u o' /\
  forall x, o_l o <= x <= o_u o -> cost (o_fn o') x <= cost (o_fn o) x.

(** two limits replaced by one with the summed cost *)
Definition om_sum (a b : OmegaLimit Z) : OmegaLimit Z :=
  mkOm (o_l a) (o_u a) (fun x => v <- o_fn a x ;; w <- o_fn b x ;; Ok (v + w)) (o_i a) (o_j a).

Definition nondecreasing_on (F : Z -> Z) (l u : Z) : Prop :=
  forall x y, l <= x -> x <= y -> y <= u -> F x <= F y.

(** ** Malformed input *)
Definition malformed (n : Z) (mus : list (MuLimit Z)) (oms : list (OmegaLimit Z)) : Prop :=
  Z.of_nat (length mus) <> n + 1 \/
  (exists i m, 1 <= Z.of_nat i <= n /\ nth_error mus i = Some m /\ m_u m < m_l m) \/
  (exists o, In o oms /\
     (~ 1 <= Z.of_nat (o_i o) <= n \/ ~ 1 <= Z.of_nat (o_j o) <= n \/ o_i o = o_j o \/ o_u o < o_l o)).

(** ** Sizes of the numbers of type Data
    the largest absolute values of the costs add up to at most [A] *)
Definition costs_within (n : nat) (mus : list (MuLimit Z)) (oms : list (OmegaLimit Z)) (A : Z) : Prop :=
  exists wm wo : nat -> Z,
    (forall i m x, (1 <= i <= n)%nat -> nth_error mus i = Some m -> m_l m <= x <= m_u m ->
       Z.abs (cost (m_fn m) x) <= wm i) /\
    (forall k o x, nth_error oms k = Some o -> o_l o <= x <= o_u o -> Z.abs (cost (o_fn o) x) <= wo k) /\
    sumZ (map wm (seq 1 n)) + sumZ (map wo (seq 0 (length oms))) <= A.

(** bound for all numbers of a run with [n] nodes and [k] omega limits whose
    ranges lie in [-K, K]; [unit] is the number the code writes as 1 *)
Definition run_bound (n k : nat) (K unit A : Z) : Z :=
  4 * (Z.of_nat (n + k) + 1) * (K + 20) * (unit + 2 * A).

(** ** Costs on a grid
    [mus'], [oms'] is the problem [mus], [oms] with all costs within the ranges
    multiplied by [g]; entry 0 of Mus is not part of the problem *)
Definition fn_times (g : Z) (f' f : Fn Z) (l u : Z) : Prop :=
  forall x z, l <= x <= u -> f x = Ok z -> f' x = Ok (g * z).

Definition problem_times (g : Z) (mus' : list (MuLimit Z)) (oms' : list (OmegaLimit Z))
  (mus : list (MuLimit Z)) (oms : list (OmegaLimit Z)) : Prop :=
  length mus' = length mus /\
  (forall i m' m, (1 <= i)%nat -> nth_error mus' i = Some m' -> nth_error mus i = Some m ->
     m_l m' = m_l m /\ m_u m' = m_u m /\ fn_times g (m_fn m') (m_fn m) (m_l m) (m_u m)) /\
  Forall2 (fun o' o => o_l o' = o_l o /\ o_u o' = o_u o /\ o_i o' = o_i o /\ o_j o' = o_j o /\
     fn_times g (o_fn o') (o_fn o) (o_l o) (o_u o)) oms' oms.
