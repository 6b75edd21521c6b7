(** * Concrete problems with float and long double *)
From Coq Require Import Floats.SpecFloat.
From Verif Require Import Base Data ProblemDefine ProblemSolver Spec FlowSpec BinSpec FloatRun BinFormat BinRun SolverProof ExampleData MiscProof FloatExample.
Local Open Scope Z_scope.

(** the number z * 2^-k *)
Definition bin (prec emax k z : Z) : spec_float := binary_normalize prec emax z (- k) false.
Definition rounded_fn (prec emax k : Z) (f : Fn Z) : Fn spec_float := fun x => v <- f x ;; Ok (bin prec emax k v).
Definition bin_mus (prec emax k : Z) : list (MuLimit Z) -> list (MuLimit spec_float) :=
  map (fun m => mkMu (m_l m) (m_u m) (rounded_fn prec emax k (m_fn m))).
Definition bin_oms (prec emax k : Z) : list (OmegaLimit Z) -> list (OmegaLimit spec_float) :=
  map (fun o => mkOm (o_l o) (o_u o) (rounded_fn prec emax k (o_fn o)) (o_i o) (o_j o)).

Lemma rounded_is prec emax k f l u : 1 < prec -> prec + 3 <= emax -> 0 <= k <= emax - 3 ->
  defined_on f l u -> (forall x, l <= x <= u -> Z.abs (cost f x) < 2 ^ prec) -> bin_fn prec emax k (rounded_fn prec emax k f) f l u.
Proof.
  intros Hp He Hk Hd Hc x Hx. destruct (Hd x Hx) as (z & Ez). exists (bin prec emax k z), z. unfold rounded_fn. rewrite Ez. split; [reflexivity|]. split; [reflexivity|].
  assert (X := Hc x Hx). rewrite (cost_of _ _ _ Ez) in X. unfold bin.
  apply (R_of_norm prec emax Hp He k Hk z (- k) z X). unfold vl. replace (- k + k) with 0 by lia. reflexivity.
Qed.

Lemma rounded_problem prec emax k n mus oms : 1 < prec -> prec + 3 <= emax -> 0 <= k <= emax - 3 -> well_formed n mus oms ->
  (forall i m x, (1 <= i <= n)%nat -> nth_error mus i = Some m -> m_l m <= x <= m_u m -> Z.abs (cost (m_fn m) x) < 2 ^ prec) ->
  (forall o x, In o oms -> o_l o <= x <= o_u o -> Z.abs (cost (o_fn o) x) < 2 ^ prec) ->
  bin_problem prec emax k (bin_mus prec emax k mus) (bin_oms prec emax k oms) mus oms.
Proof.
  intros Hp He Hk (Hlen & W1 & W2) C1 C2. split; [apply map_length|]. split.
  - intros i mf mz Hi Ef Ez. unfold bin_mus in Ef. rewrite nth_error_map, Ez in Ef. injection Ef as <-.
    assert (Hin : (i < length mus)%nat) by (apply nth_error_Some; congruence).
    split; [reflexivity|]. split; [reflexivity|]. destruct (W1 i mz ltac:(lia) Ez) as (_ & D & _).
    apply rounded_is; auto. intros x Hx. apply (C1 i); auto. lia.
  - clear W1 C1 Hlen. induction oms as [|o oms IH]; constructor.
    + destruct (W2 o (or_introl eq_refl)) as (_ & D & _). repeat (split; [reflexivity|]).
      apply rounded_is; auto. intros x Hx. apply C2; simpl; auto.
    + apply IH; intros; [apply W2|apply C2]; simpl; auto.
Qed.

Lemma ex_bin prec emax : (prec, emax) = (24, 128) \/ (prec, emax) = (64, 16384) ->
  bin_problem prec emax 2 (bin_mus prec emax 2 ex_mus) (bin_oms prec emax 2 ex_oms) ex_mus ex_oms /\
  run_bound 3 4 3 (2 ^ 2) 95 < 2 ^ prec /\
  @run_solver _ (bin_ops prec emax) ex_steps 3 (bin_mus prec emax 2 ex_mus) (bin_oms prec emax 2 ex_oms) = Ok (Some (bin prec emax 2 2)).
Proof.
  intros H. assert (H' : 24 <= prec /\ prec + 3 <= emax) by (destruct H as [[= -> ->]|[= -> ->]]; lia).
  destruct ex_admissible as (HW & _). destruct (costs_le 3 ex_mus ex_oms 95 HW ex_costs) as (_ & C1 & C2).
  assert (P : 2 ^ 24 <= 2 ^ prec) by (apply Z.pow_le_mono_r; lia). change (2 ^ 24) with 16777216 in P. split; [|split].
  - apply (rounded_problem prec emax 2 3); auto; try lia.
    + intros i m x Hi E Hx. assert (X := C1 i m x Hi E Hx). lia.
    + intros o x Ho Hx. assert (X := C2 o x Ho Hx). lia.
  - assert (E : run_bound 3 4 3 (2 ^ 2) 95 < 16777216) by reflexivity. lia.
  - destruct H as [[= -> ->]|[= -> ->]]; vm_compute; reflexivity.
Qed.

(** two variables with steep opposite costs: every cost and the optimum are
    floats, the sums on the way are not *)
Definition steep_mus : list (MuLimit Z) := [mkMu 0 0 absf; mkMu 0 1 (lin 16777213); mkMu 0 1 (lin (-16777214))].
Definition steep_oms : list (OmegaLimit Z) := [mkOm 0 0 (lin 0) 1 2].

Lemma steep_admissible : admissible 2 steep_mus steep_oms 1.
Proof.
  split; [|split].
  - split; [reflexivity|]. split.
    + intros i m Hi E. destruct i as [|[|[|i]]]; try lia; cbn [steep_mus nth_error] in E; injection E as <-;
        unfold mu_wf; cbn [m_l m_u m_fn]; (split; [lia|apply lin_wf]).
    + intros o [<-|[]]. unfold om_wf; cbn [o_l o_u o_fn o_i o_j]. split; [lia|]. destruct (lin_wf 0 0 0) as [D C]. split; [exact D|]. split; [exact C|]. lia.
  - split.
    + intros i m Hi E. destruct i as [|[|[|i]]]; try lia; cbn [steep_mus nth_error] in E; injection E as <-; cbn [m_l m_u]; lia.
    + intros o [<-|[]]. cbn [o_l o_u]. lia.
  - unfold int_fits, INT_MAX. cbn. lia.
Qed.

Lemma steep_optimum : optimum 2 steep_mus steep_oms (-16777214).
Proof.
  split.
  - exists (fun i => if (i =? 2)%nat then 1 else 0), (fun _ => 0). split; [|reflexivity]. split.
    + intros i Hi. destruct i as [|[|[|i]]]; try lia; eexists; (split; [reflexivity|]); cbn [m_l m_u Nat.eqb]; lia.
    + intros [|k] o E; [injection E as <-|destruct k; discriminate]. vm_compute. intuition discriminate.
  - intros mu om [F _]. destruct (F 1%nat ltac:(lia)) as (m1 & E1 & B1), (F 2%nat ltac:(lia)) as (m2 & E2 & B2).
    cbn [steep_mus nth_error] in E1, E2. injection E1 as <-. injection E2 as <-. cbn [m_l m_u] in B1, B2.
    unfold total_cost, mu_cost, om_cost. cbn [seq map sumZ steep_mus steep_oms nth_error cost m_fn o_fn lin length]. lia.
Qed.

Lemma steep_refutes : exists n musf omsf mus oms K fuel f v v',
  bin_problem 24 128 0 musf omsf mus oms /\ admissible n mus oms K /\ solver_fuel n (length oms) K <= Z.of_nat fuel /\
  optimum n mus oms v /\ Z.abs v < 2 ^ 24 /\
  @run_solver spec_float (bin_ops 24 128) fuel (Z.of_nat n) musf omsf = Ok (Some f) /\ bin_is 24 128 0 f v' /\ v' < v.
Proof.
  exists 2%nat, (bin_mus 24 128 0 steep_mus), (bin_oms 24 128 0 steep_oms), steep_mus, steep_oms, 1, flat_steps, (bin 24 128 0 (-16777215)), (-16777214), (-16777215).
  split.
  { apply (rounded_problem 24 128 0 2); try lia; [apply steep_admissible| |].
    - intros i m x Hi E Hx. change (2 ^ 24) with 16777216. destruct i as [|[|[|i]]]; try lia; cbn [steep_mus nth_error] in E; injection E as <-; cbn [m_l m_u m_fn] in *; unfold cost, lin; lia.
    - intros o x [<-|[]] Hx. cbn [o_l o_u o_fn] in *. unfold cost, lin. reflexivity. }
  split; [exact steep_admissible|]. split; [vm_compute; discriminate|]. split; [exact steep_optimum|]. split; [reflexivity|].
  split; [apply is_some_dbl_ok; vm_compute; reflexivity|]. split; [vm_compute; auto|lia].
Qed.
