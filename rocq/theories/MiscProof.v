(** * Lemmas for the remaining properties: WrappedDouble, repeated calls, doubles *)
From Coq Require Import Floats.SpecFloat.
From Verif Require Import Base Data ProblemDefine Flow ProblemSolver Spec FloatSpec FloatExact SolverProof Oracles OracleProof WrappedDouble.
From Verif Require Import FlowProps ExampleData.
Local Open Scope Z_scope.

(** ** WrappedDouble over exact numbers *)
Section Wd.
Variables one eps : Z.
Hypothesis Heps : 0 <= eps.
#[local] Hint Extern 0 (DataOps Z) => exact (exact_ops one) : typeclass_instances.
Notation weq := (wd_eq Z.abs eps).
Notation wlt := (wd_lt eps).
Notation wle := (wd_le eps).
Notation wgt := (wd_gt eps).
Notation wge := (wd_ge eps).

Lemma wd_consistent a b :
  (if wlt a b then 1 else 0) + (if weq a b then 1 else 0) + (if wgt a b then 1 else 0) = 1 /\
  wle a b = negb (wgt a b) /\ wge a b = negb (wlt a b) /\
  weq a a = true /\ weq a b = weq b a /\ wlt a b = wgt b a /\ wle a b = wge b a /\
  wle a b = (wlt a b || weq a b)%bool.
Proof.
  unfold wd_eq, wd_lt, wd_le, wd_gt, wd_ge. cbn [dlt dle dadd dsub exact_ops]. repeat split;
  repeat match goal with |- context [Z.ltb ?x ?y] => destruct (Z.ltb_spec x y) end;
  repeat match goal with |- context [Z.leb ?x ?y] => destruct (Z.leb_spec x y) end; cbn; lia.
Qed.
End Wd.

Lemma wd_not_transitive one : exists eps a b c : Z, 0 < eps /\
  @wd_eq _ (exact_ops one) Z.abs eps a b = true /\ @wd_eq _ (exact_ops one) Z.abs eps b c = true /\
  @wd_eq _ (exact_ops one) Z.abs eps a c = false.
Proof. exists 1, 0, 1, 2. repeat split. Qed.

(** over doubles the comparisons are not consistent: 2 and 2 + 1e-4 *)
Lemma wd64_inconsistent : exists a b : spec_float,
  f64_is 0 a 2 /\ f64_is 51 b 4503824807351865 /\
  @wd_lt _ f64_ops eps64 a b = false /\ @wd_eq _ f64_ops SFabs eps64 a b = false /\ @wd_gt _ f64_ops eps64 a b = false /\
  @wd_le _ f64_ops eps64 a b = true /\ @wd_ge _ f64_ops eps64 a b = true.
Proof. exists (f64_of_Z 2), (SFadd 53 1024 (f64_of_Z 2) eps64). repeat split; vm_compute; reflexivity. Qed.

(** ** Calling min_cost() again *)
Definition twice (fuel n : nat) (M U : Z) (limits : list (OmegaLimit Z)) : option (Z * Z) :=
  match @flow_new Z (exact_ops 1) fuel n M U limits with
  | Ok s =>
      match @min_cost Z (exact_ops 1) fuel s with
      | Ok (s', v) => match @min_cost Z (exact_ops 1) fuel s' with Ok (_, v') => Some (v, v') | Err _ => None end
      | Err _ => None
      end
  | Err _ => None
  end.

Lemma twice_differs : exists s s1 s2 v1 v2,
  @flow_new Z (exact_ops 1) ex_steps 2 20 3 ex_limits = Ok s /\
  @min_cost Z (exact_ops 1) ex_steps s = Ok (s1, v1) /\
  @min_cost Z (exact_ops 1) ex_steps s1 = Ok (s2, v2) /\ v1 <> v2.
Proof.
  assert (H : twice ex_steps 2 20 3 ex_limits = Some (8, 4)) by (vm_compute; reflexivity). unfold twice in H.
  destruct (flow_new _ _ _ _ _) as [s|] eqn:E; [|discriminate]. exists s.
  destruct (min_cost ex_steps s) as [[s1 v1]|] eqn:E1; [|discriminate].
  destruct (min_cost ex_steps s1) as [[s2 v2]|] eqn:E2; [|discriminate].
  exists s1, s2, v1, v2. inversion H; subst. repeat split; auto. discriminate.
Qed.

(** ** Doubles *)
(** the double nearest to 0.1, and twice it *)
Definition f64_tenth : spec_float := S754_finite false 7205759403792794 (-56).
Definition f64_fifth : spec_float := S754_finite false 7205759403792794 (-55).
(** a double times the argument, as [a * x] in C++ *)
Definition flin (a : spec_float) : Fn spec_float := fun x => Ok (SFmul f64_prec f64_emax a (f64_of_Z x)).

(** two nodes, mu in [-10^6, 10^6], costs 0.1 x and 0.2 x, no omega limits *)
Definition tenth_mus : list (MuLimit spec_float) :=
  [mkMu 0 0 (flin (f64_of_Z 0)); mkMu (- 10 ^ 6) (10 ^ 6) (flin f64_tenth); mkMu (- 10 ^ 6) (10 ^ 6) (flin f64_fifth)].

(** two nodes, mu in [-2^20, 2^20], costs (1 + 3 * 2^-30) x and
    (2^24 + 2^-6) x: every value is exactly a double *)
Definition slope_mus : list (MuLimit spec_float) :=
  [mkMu 0 0 (flin (f64_of_Z 0));
   mkMu (- 2 ^ 20) (2 ^ 20) (flin (binary_normalize f64_prec f64_emax (2 ^ 30 + 3) (-30) false));
   mkMu (- 2 ^ 20) (2 ^ 20) (flin (binary_normalize f64_prec f64_emax (2 ^ 30 + 1) (-6) false))].
Definition slope_exact : list (MuLimit Z) :=
  [mkMu 0 0 (lin 0); mkMu (- 2 ^ 20) (2 ^ 20) (lin (2 ^ 30 + 3)); mkMu (- 2 ^ 20) (2 ^ 20) (lin (2 ^ 24 * (2 ^ 30 + 1)))].

Lemma slope_admissible : admissible 2 slope_exact [] (2 ^ 20).
Proof.
  split; [|split].
  - split; [reflexivity|]. split; [|intros o []].
    intros i m Hi E. destruct i as [|[|[|i]]]; try lia; cbn [slope_exact nth_error] in E; injection E as <-;
      unfold mu_wf; cbn [m_l m_u m_fn]; (split; [lia|apply lin_wf]).
  - split; [|intros o []].
    intros i m Hi E. destruct i as [|[|[|i]]]; try lia; cbn [slope_exact nth_error] in E; injection E as <-; cbn [m_l m_u]; lia.
  - unfold int_fits, INT_MAX. lia.
Qed.

(** three nodes whose omega limits form an unsatisfiable cycle; the first node
    costs 2^54 at 0 and nothing at 1 *)
Definition fbig (b : Z) : Fn spec_float := fun x => Ok (f64_of_Z (b * (1 - x))).
Definition ibig (b : Z) : Fn Z := fun x => Ok (b * (1 - x)).
Definition big_mus (b : Z) : list (MuLimit spec_float) :=
  [mkMu 0 0 (fbig 0); mkMu 0 1 (fbig b); mkMu 0 1 (fbig 0); mkMu 0 1 (fbig 0)].
Definition big_oms : list (OmegaLimit spec_float) :=
  [mkOm (-1) (-1) (fbig 0) 1 2; mkOm (-1) 0 (fbig 0) 2 3; mkOm (-1) 0 (fbig 0) 3 1].
Definition big_imus (b : Z) : list (MuLimit Z) :=
  [mkMu 0 0 (ibig 0); mkMu 0 1 (ibig b); mkMu 0 1 (ibig 0); mkMu 0 1 (ibig 0)].
Definition big_ioms : list (OmegaLimit Z) :=
  [mkOm (-1) (-1) (ibig 0) 1 2; mkOm (-1) 0 (ibig 0) 2 3; mkOm (-1) 0 (ibig 0) 3 1].

Lemma big_admissible : admissible 3 (big_imus (2 ^ 54)) big_ioms 1.
Proof.
  assert (W : forall b l u, defined_on (ibig b) l u /\ convex_on (cost (ibig b)) l u).
  { intros b l u. split; [intros x _; unfold ibig; eauto|]. intros x _. unfold cost, ibig. nia. }
  split; [|split].
  - split; [reflexivity|]. split.
    + intros i m Hi E. destruct i as [|[|[|[|i]]]]; try lia; cbn [big_imus nth_error] in E; injection E as <-;
        unfold mu_wf; cbn [m_l m_u m_fn]; (split; [lia|apply W]).
    + intros o Ho. unfold big_ioms in Ho. cbn [In] in Ho. destruct Ho as [<-|[<-|[<-|[]]]]; unfold om_wf; cbn [o_l o_u o_fn o_i o_j];
        (split; [lia|]); (split; [apply W|]); (split; [apply W|]); repeat split; lia.
  - split.
    + intros i m Hi E. destruct i as [|[|[|[|i]]]]; try lia; cbn [big_imus nth_error] in E; injection E as <-; cbn [m_l m_u]; lia.
    + intros o Ho. unfold big_ioms in Ho. cbn [In] in Ho. destruct Ho as [<-|[<-|[<-|[]]]]; cbn [o_l o_u]; lia.
  - unfold int_fits, INT_MAX. lia.
Qed.

Lemma big_infeasible : infeasible 3 (big_imus (2 ^ 54)) big_ioms.
Proof.
  intros mu om [_ F].
  assert (A := F 0%nat _ eq_refl). assert (B := F 1%nat _ eq_refl). assert (C := F 2%nat _ eq_refl).
  cbn [o_l o_u o_i o_j] in *. lia.
Qed.

Lemma big_is : problem_is 0 (big_mus (2 ^ 54)) big_oms (big_imus (2 ^ 54)) big_ioms.
Proof.
  assert (G : forall b l u, b = 0 \/ b = 2 ^ 54 -> -1 <= l -> u <= 1 -> fn_is 0 (fbig b) (ibig b) l u).
  { intros b l u Hb Hl Hu x Hx. exists (f64_of_Z (b * (1 - x))), (b * (1 - x)). split; [reflexivity|]. split; [reflexivity|].
    assert (Hx' : x = -1 \/ x = 0 \/ x = 1) by lia. destruct Hb as [-> | ->], Hx' as [->|[->| ->]]; vm_compute; auto. }
  split; [reflexivity|]. split.
  - intros i mf mz Hi E E'. destruct i as [|[|[|[|i]]]]; try lia; cbn [big_mus big_imus nth_error] in E, E';
      try (destruct i; discriminate); injection E as <-; injection E' as <-; (split; [reflexivity|]); (split; [reflexivity|]); apply G; cbn; auto; lia.
  - repeat constructor; apply G; cbn; auto; lia.
Qed.

Definition solved {D} (r : res (option D)) : bool := match r with Ok (Some _) => true | _ => false end.
Lemma solved_ok {D} (r : res (option D)) : solved r = true -> exists v, r = Ok (Some v).
Proof. destruct r as [[v|]|]; try discriminate. eauto. Qed.

Lemma big_double_solved : exists v, @run_solver _ f64_ops 4000 3 (big_mus (2 ^ 54)) big_oms = Ok (Some v).
Proof. apply solved_ok. vm_compute. reflexivity. Qed.

Lemma flin_is k j a z : 0 <= k <= 52 -> R k a z -> z <> 0 -> Z.abs z * j < 2 ^ 53 -> 0 <= j -> fn_is k (flin a) (lin z) (- j) j.
Proof.
  intros Hk Ha Nz Hj Hp x Hx. eexists _, _. split; [reflexivity|]. split; [reflexivity|].
  assert (Hxj : Z.abs x < 2 ^ 53) by nia.
  apply (R_mul k Hk a (f64_of_Z x) z x Ha); [|nia].
  assert (Q := R_of_Z 0 ltac:(lia) x). rewrite Z.pow_0_r, Z.mul_1_r in Q. apply Q. exact Hxj.
Qed.

Lemma slope_is : problem_is 30 slope_mus [] slope_exact [].
Proof.
  split; [reflexivity|]. split; [|constructor].
  intros i mf mz Hi E E'. destruct i as [|[|[|i]]]; try lia; cbn [slope_mus slope_exact nth_error] in E, E';
    try (destruct i; discriminate); injection E as <-; injection E' as <-; (split; [reflexivity|]); (split; [reflexivity|]).
  - apply (flin_is 30 (2 ^ 20)); try lia. split; [vm_compute; auto|lia].
  - assert (G : fn_is 6 (flin (binary_normalize f64_prec f64_emax (2 ^ 30 + 1) (-6) false)) (lin (2 ^ 30 + 1)) (- 2 ^ 20) (2 ^ 20)).
    { apply (flin_is 6 (2 ^ 20)); try lia. split; [vm_compute; auto|lia]. }
    intros x Hx. destruct (G x Hx) as (f & z & Ef & Ez & Is). exists f, (z * 2 ^ (30 - 6)). split; [exact Ef|].
    assert (Ez' : z = (2 ^ 30 + 1) * x) by (unfold lin in Ez; congruence).
    split; [|apply is_finer; auto; lia]. change (Ok (18014398526259200 * x) = Ok (z * 2 ^ (30 - 6))). rewrite Ez'. f_equal. lia.
Qed.

Lemma slope_overflows : @run_solver _ f64_ops (Z.to_nat 20000) 2 slope_mus [] = Err IntOverflow.
Proof. vm_compute. reflexivity. Qed.

Lemma slope_solution : solution 2 slope_exact [] (Some (- 2 ^ 20 * (2 ^ 30 + 3) - 2 ^ 20 * (2 ^ 24 * (2 ^ 30 + 1)))).
Proof.
  split.
  - exists (fun _ => - 2 ^ 20), (fun _ => 0). split; [|reflexivity]. split.
    + intros i Hi. destruct i as [|[|[|i]]]; try lia; eexists; (split; [reflexivity|]); cbn [m_l m_u]; lia.
    + intros [|k] o E; discriminate.
  - intros mu om [F _]. destruct (F 1%nat ltac:(lia)) as (m1 & E1 & B1), (F 2%nat ltac:(lia)) as (m2 & E2 & B2).
    injection E1 as <-. injection E2 as <-. cbn [m_l m_u] in B1, B2.
    unfold total_cost, mu_cost. cbn [seq map sumZ slope_exact nth_error cost m_fn lin length]. lia.
Qed.

Lemma big_refutes : exists n K fuel musf omsf mus oms v,
  admissible n mus oms K /\ problem_is 0 musf omsf mus oms /\ infeasible n mus oms /\
  @run_solver _ f64_ops fuel (Z.of_nat n) musf omsf = Ok (Some v).
Proof.
  destruct big_double_solved as [v E]. exists 3%nat, 1, 4000%nat, (big_mus (2 ^ 54)), big_oms, (big_imus (2 ^ 54)), big_ioms, v.
  split; [exact big_admissible|]. split; [exact big_is|]. split; [exact big_infeasible|exact E].
Qed.

Lemma slope_refutes : exists n K fuel musf omsf mus oms v,
  admissible n mus oms K /\ problem_is 30 musf omsf mus oms /\ solution n mus oms (Some v) /\
  @run_solver _ f64_ops fuel (Z.of_nat n) musf omsf = Err IntOverflow.
Proof.
  exists 2%nat, (2 ^ 20), (Z.to_nat 20000), slope_mus, [], slope_exact, [], (- 2 ^ 20 * (2 ^ 30 + 3) - 2 ^ 20 * (2 ^ 24 * (2 ^ 30 + 1))).
  split; [exact slope_admissible|]. split; [exact slope_is|]. split; [exact slope_solution|exact slope_overflows].
Qed.

Lemma wd_laws (one eps a b : Z) : 0 <= eps ->
  let lt := @wd_lt Z (exact_ops one) eps in
  let le := @wd_le Z (exact_ops one) eps in
  let gt := @wd_gt Z (exact_ops one) eps in
  let ge := @wd_ge Z (exact_ops one) eps in
  let eq := @wd_eq Z (exact_ops one) Z.abs eps in
  (if lt a b then 1 else 0) + (if eq a b then 1 else 0) + (if gt a b then 1 else 0) = 1 /\
  le a b = negb (gt a b) /\ ge a b = negb (lt a b) /\
  eq a a = true /\ eq a b = eq b a /\ lt a b = gt b a /\ le a b = ge b a /\
  le a b = (lt a b || eq a b)%bool.
Proof. intros H. cbv zeta. apply wd_consistent; auto. Qed.

Lemma function_min_least (one : Z) (f : Fn Z) (l u : Z) (fuel : nat) :
  l <= u -> INT_MIN <= l -> u <= INT_MAX -> u - l <= INT_MAX ->
  defined_on f l u -> convex_on (cost f) l u -> u - l <= Z.of_nat fuel ->
  exists p, @function_min Z (exact_ops one) fuel f l u = Ok (cost f p) /\
    l <= p <= u /\ forall x, l <= x <= u -> cost f p <= cost f x.
Proof.
  intros. destruct (function_min_ok one f l u fuel) as (p & E & A); auto. exists p. split; auto.
Qed.
