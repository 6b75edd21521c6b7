(** * Concrete problems with doubles *)
From Coq Require Import Floats.SpecFloat.
From Verif Require Import Base Data ProblemDefine Flow ProblemSolver WrappedDouble Spec FlowSpec FloatSpec FloatExact FloatRun FloatWrapped SolverProof ExampleData MiscProof.
Local Open Scope Z_scope.

(** the double z * 2^-k *)
Definition dbl (k z : Z) : spec_float := binary_normalize f64_prec f64_emax z (- k) false.
Definition dbl_fn (k : Z) (f : Fn Z) : Fn spec_float := fun x => v <- f x ;; Ok (dbl k v).
Definition dbl_mus (k : Z) : list (MuLimit Z) -> list (MuLimit spec_float) := map (fun m => mkMu (m_l m) (m_u m) (dbl_fn k (m_fn m))).
Definition dbl_oms (k : Z) : list (OmegaLimit Z) -> list (OmegaLimit spec_float) := map (fun o => mkOm (o_l o) (o_u o) (dbl_fn k (o_fn o)) (o_i o) (o_j o)).

Lemma dbl_is k z : 0 <= k <= 52 -> Z.abs z < 2 ^ 53 -> f64_is k (dbl k z) z.
Proof.
  intros Hk Hz. apply (R_of_norm k Hk z (- k) z Hz). unfold vl. replace (- k + k) with 0 by lia. reflexivity.
Qed.

Lemma dbl_fn_is k f l u : 0 <= k <= 52 -> defined_on f l u -> (forall x, l <= x <= u -> Z.abs (cost f x) < 2 ^ 53) -> fn_is k (dbl_fn k f) f l u.
Proof.
  intros Hk Hd Hc x Hx. destruct (Hd x Hx) as (z & Ez). exists (dbl k z), z. unfold dbl_fn. rewrite Ez. split; [reflexivity|]. split; [reflexivity|].
  apply dbl_is; [exact Hk|]. assert (X := Hc x Hx). rewrite (cost_of _ _ _ Ez) in X. exact X.
Qed.

Lemma dbl_problem k n mus oms A : 0 <= k <= 52 -> well_formed n mus oms -> costs_within n mus oms A -> A < 2 ^ 53 ->
  problem_is k (dbl_mus k mus) (dbl_oms k oms) mus oms.
Proof.
  intros Hk HW HA HB. destruct (costs_le n mus oms A HW HA) as (_ & C1 & C2). destruct HW as (Hlen & W1 & W2). split; [apply map_length|]. split.
  - intros i mf mz Hi Ef Ez. unfold dbl_mus in Ef. rewrite nth_error_map, Ez in Ef. injection Ef as <-.
    assert (Hin : (i < length mus)%nat) by (apply nth_error_Some; congruence).
    split; [reflexivity|]. split; [reflexivity|]. destruct (W1 i mz ltac:(lia) Ez) as (_ & D & _).
    apply dbl_fn_is; auto. intros x Hx. assert (X := C1 i mz x ltac:(lia) Ez Hx). lia.
  - clear W1 C1 HA Hlen. induction oms as [|o oms IH]; constructor.
    + destruct (W2 o (or_introl eq_refl)) as (_ & D & _). repeat (split; [reflexivity|]).
      apply dbl_fn_is; auto. intros x Hx. assert (X := C2 o x (or_introl eq_refl) Hx). lia.
    + apply IH; intros; [apply W2|apply C2]; simpl; auto.
Qed.

Lemma ex_costs : costs_within 3 ex_mus ex_oms 95.
Proof.
  exists (fun i => nth i [0; 18; 27; 9] 0), (fun i => nth i [1; 32; 6; 2] 0).
  split; [|split; [|cbn; lia]].
  - intros i m x Hi E Hx. destruct i as [|[|[|[|i]]]]; try lia; cbn [ex_mus nth_error] in E; injection E as <-; cbn [m_l m_u m_fn nth] in *; unfold cost, sq; nia.
  - intros i o x E Hx. destruct i as [|[|[|[|i]]]]; cbn [ex_oms nth_error] in E; try (destruct i; discriminate); injection E as <-;
      cbn [o_l o_u o_fn nth] in *; unfold cost, sq, lin, absf; nia.
Qed.

Definition flat_steps : nat := Z.to_nat 200000.

(** a slope of 2^-14, below the tolerance 1e-4 *)
Definition flat_mus : list (MuLimit Z) := [mkMu 0 0 absf; mkMu 0 1024 (lin (-1))].

Lemma flat_admissible : admissible 1 flat_mus [] 1024.
Proof.
  split; [|split].
  - split; [reflexivity|]. split; [|intros o []].
    intros i m Hi E. destruct i as [|[|i]]; try lia; cbn [flat_mus nth_error] in E; injection E as <-.
    unfold mu_wf; cbn [m_l m_u m_fn]. split; [lia|apply lin_wf].
  - split; [|intros o []].
    intros i m Hi E. destruct i as [|[|i]]; try lia; cbn [flat_mus nth_error] in E; injection E as <-. cbn [m_l m_u]. lia.
  - unfold int_fits, INT_MAX. lia.
Qed.

Lemma flat_costs : costs_within 1 flat_mus [] 1024.
Proof.
  exists (fun _ => 1024), (fun _ => 0). split; [|split; [|cbn; lia]].
  - intros i m x Hi E Hx. destruct i as [|[|i]]; try lia; cbn [flat_mus nth_error] in E; injection E as <-; cbn [m_l m_u m_fn] in *. unfold cost, lin. lia.
  - intros [|i] o x E; discriminate.
Qed.

Lemma flat_solution : optimum 1 flat_mus [] (-1024).
Proof.
  split.
  - exists (fun _ => 1024), (fun _ => 0). split; [|reflexivity]. split.
    + intros i Hi. destruct i as [|[|i]]; try lia; eexists; (split; [reflexivity|]); cbn [m_l m_u]; lia.
    + intros [|k] o E; discriminate.
  - intros mu om [F _]. destruct (F 1%nat ltac:(lia)) as (m1 & E1 & B1).
    cbn [flat_mus nth_error] in E1. injection E1 as <-. cbn [m_l m_u] in B1. 
    unfold total_cost, mu_cost. cbn [seq map sumZ flat_mus nth_error cost m_fn lin length]. lia.
Qed.

Definition is_some_dbl (r : res (option spec_float)) (f : spec_float) : bool :=
  match r with Ok (Some g) => match g, f with S754_finite a b c, S754_finite a' b' c' => Bool.eqb a a' && Pos.eqb b b' && Z.eqb c c' | _, _ => false end | _ => false end.

Lemma is_some_dbl_ok r f : is_some_dbl r f = true -> r = Ok (Some f).
Proof.
  destruct r as [[g|]|]; try discriminate. destruct g, f; try discriminate. cbn [is_some_dbl]. rewrite !andb_true_iff.
  intros [[A B] C]. apply eqb_prop in A. apply Pos.eqb_eq in B. apply Z.eqb_eq in C. subst. reflexivity.
Qed.

Lemma flat_wd64 : @run_solver _ wd64_ops flat_steps 1 (dbl_mus 14 flat_mus) [] = Ok (Some (dbl 14 (-512))).
Proof. apply is_some_dbl_ok. vm_compute. reflexivity. Qed.

Lemma flat_wd_exact : @run_solver _ (wd_exact_ops 10000 1) flat_steps 1 flat_mus [] = Ok (Some (-512)).
Proof. vm_compute. reflexivity. Qed.

(** a grid as fine as the tolerance is not enough *)
Lemma flat_refutes_exact : exists g one eps n mus' oms' mus oms K fuel v v',
  eps = g /\ 0 < one /\ problem_times g mus' oms' mus oms /\ admissible n mus oms K /\
  solver_fuel n (length oms) K <= Z.of_nat fuel /\ optimum n mus oms v /\
  @run_solver Z (wd_exact_ops (g * one) eps) fuel (Z.of_nat n) mus' oms' = Ok (Some v') /\ v' = g * v + 512 * eps.
Proof.
  exists 1, 10000, 1, 1%nat, flat_mus, [], flat_mus, [], 1024, flat_steps, (-1024), (-512).
  split; [reflexivity|]. split; [lia|]. split.
  { split; [reflexivity|]. split; [|constructor]. intros i m' m Hi E E'. rewrite E in E'. injection E' as <-.
    split; [reflexivity|]. split; [reflexivity|]. intros x z _ Ez. rewrite Ez. f_equal. lia. }
  split; [exact flat_admissible|]. split; [vm_compute; discriminate|]. split; [exact flat_solution|]. split; [exact flat_wd_exact|]. reflexivity.
Qed.

Lemma flat_refutes_double : exists n musf omsf mus oms K A fuel f v,
  problem_is 14 musf omsf mus oms /\ admissible n mus oms K /\ costs_within n mus oms A /\
  run_bound n (length oms) K (2 ^ 14) A < 2 ^ 50 /\ solver_fuel n (length oms) K <= Z.of_nat fuel /\
  optimum n mus oms v /\
  @run_solver spec_float wd64_ops fuel (Z.of_nat n) musf omsf = Ok (Some f) /\ f64_is 14 f (v + 512).
Proof.
  exists 1%nat, (dbl_mus 14 flat_mus), [], flat_mus, [], 1024, 1024, flat_steps, (dbl 14 (-512)), (-1024).
  split; [apply (dbl_problem 14 1 flat_mus [] 1024); [lia|apply flat_admissible|exact flat_costs|reflexivity]|].
  split; [exact flat_admissible|]. split; [exact flat_costs|]. split; [reflexivity|]. split; [vm_compute; discriminate|].
  split; [exact flat_solution|]. split; [exact flat_wd64|]. apply dbl_is; [lia|reflexivity].
Qed.

(** the problem of ExampleData with its costs in quarters and in 2^-13 *)
Lemma ex_dbl k : k = 2 \/ k = 13 ->
  problem_is k (dbl_mus k ex_mus) (dbl_oms k ex_oms) ex_mus ex_oms /\ run_bound 3 4 3 (2 ^ k) 95 < 2 ^ 50 /\
  @run_solver _ f64_ops ex_steps 3 (dbl_mus k ex_mus) (dbl_oms k ex_oms) = Ok (Some (dbl k 2)) /\
  @run_solver _ wd64_ops ex_steps 3 (dbl_mus k ex_mus) (dbl_oms k ex_oms) = Ok (Some (dbl k 2)).
Proof.
  intros Hk. split; [apply (dbl_problem k 3 ex_mus ex_oms 95); [lia|apply ex_admissible|exact ex_costs|reflexivity]|].
  destruct Hk as [-> | ->]; (split; [vm_compute; reflexivity|]); split; apply is_some_dbl_ok; vm_compute; reflexivity.
Qed.

Definition times_fn (g : Z) (f : Fn Z) : Fn Z := fun x => v <- f x ;; Ok (g * v).
Definition times_mus (g : Z) : list (MuLimit Z) -> list (MuLimit Z) := map (fun m => mkMu (m_l m) (m_u m) (times_fn g (m_fn m))).
Definition times_oms (g : Z) : list (OmegaLimit Z) -> list (OmegaLimit Z) := map (fun o => mkOm (o_l o) (o_u o) (times_fn g (o_fn o)) (o_i o) (o_j o)).

Lemma times_problem g mus oms : problem_times g (times_mus g mus) (times_oms g oms) mus oms.
Proof.
  assert (T : forall f l u, fn_times g (times_fn g f) f l u) by (intros f l u x z _ E; unfold times_fn; rewrite E; reflexivity).
  split; [apply map_length|]. split.
  - intros i m' m _ E' E. unfold times_mus in E'. rewrite nth_error_map, E in E'. injection E' as <-. repeat (split; [reflexivity|]). apply T.
  - induction oms; constructor; auto. repeat (split; [reflexivity|]). apply T.
Qed.

Lemma ex_times :
  problem_times 10 (times_mus 10 ex_mus) (times_oms 10 ex_oms) ex_mus ex_oms /\
  @run_solver _ (wd_exact_ops 30 9) ex_steps 3 (times_mus 10 ex_mus) (times_oms 10 ex_oms) = Ok (Some 20) /\
  @run_solver _ (wd_exact_ops 30 9) ex_steps 3 (times_mus 10 ex_mus) (times_oms 10 cyc_oms) = Ok None.
Proof. split; [apply times_problem|]. split; vm_compute; reflexivity. Qed.
