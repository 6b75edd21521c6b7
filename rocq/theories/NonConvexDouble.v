(** * The run of NonConvexEndless on doubles *)
From Coq Require Import Floats.SpecFloat.
From Verif Require Import Base BaseLemmas Data UniqueQueue LCT ProblemDefine Flow ProblemSolver Spec FloatSpec FloatExample.
From Verif Require Import FuelMono FlowShift FloatEndless FloatOverflow NonConvex NonConvexEndless.
Local Open Scope Z_scope.

#[local] Hint Extern 0 (DataOps spec_float) => exact f64_ops : typeclass_instances.

(** ** The run up to the link that closes a cycle *)
Definition dknothing : flow spec_float := mkFlow 0 dzero 0 [] [] [] (uq_new 0) [] [] [] [] [].
Definition dksolver : solver spec_float := value (mkSolver 0 [] []) (solver_new 100 2 (dbl_mus 0 knot_mus) (dbl_oms 0 knot_oms)).
Definition dklims : list (OmegaLimit spec_float) := match merge_limits dksolver with Ok (Some l) => l | _ => [] end.
Definition dkcalc : spec_float * spec_float * Z := value (dzero, dzero, 0) (calc 100 dklims).
Definition dkflow0 : flow spec_float := value dknothing (flow_new 100 2 (snd (fst dkcalc)) (snd dkcalc) dklims).
Definition dkflow1 : flow spec_float := value dknothing (push_all_admissible_edge (initialization dkflow0)).
Definition dkflow2 : flow spec_float := value dknothing (rounds 100 5 dkflow1).
Definition dkflow3 : flow spec_float := value dknothing (link 100 dkflow2 1).

Lemma dkrun_new : solver_new 100 2 (dbl_mus 0 knot_mus) (dbl_oms 0 knot_oms) = Ok dksolver.
Proof. apply value_ok. vm_compute. reflexivity. Qed.
Lemma dkrun_merge : merge_limits dksolver = Ok (Some dklims).
Proof. apply some_ok. vm_compute. reflexivity. Qed.
Lemma dkrun_calc : calc 100 dklims = Ok dkcalc.
Proof. apply value_ok. vm_compute. reflexivity. Qed.
Lemma dkrun_flow0 : flow_new 100 2 (snd (fst dkcalc)) (snd dkcalc) dklims = Ok dkflow0.
Proof. apply value_ok. vm_compute. reflexivity. Qed.
Lemma dkrun_flow1 : push_all_admissible_edge (initialization dkflow0) = Ok dkflow1.
Proof. apply value_ok. vm_compute. reflexivity. Qed.
Lemma dkrun_flow2 : rounds 100 5 dkflow1 = Ok dkflow2.
Proof. apply value_ok. vm_compute. reflexivity. Qed.
Lemma dkrun_flow3 : link 100 dkflow2 1 = Ok dkflow3.
Proof. apply value_ok. vm_compute. reflexivity. Qed.

(** nodes 1 and 2 are now each other's father *)
Definition dknot (c : option nat) : heap spec_float :=
  [mkNode None None None (dzero, None) dzero dzero; mkNode (Some 2%nat) None None (dbl 0 2, Some 1%nat) (dbl 0 2) dzero; mkNode (Some 1%nat) None c (dbl 0 1, Some 2%nat) (dbl 0 1) dzero].
Lemma dknot_nodes : f_nodes dkflow3 = dknot None.
Proof. vm_compute. reflexivity. Qed.

(** ** splay() on it does not end: after one turn node 1 is its own father, and stays so *)
Definition dknot_self : heap spec_float :=
  [mkNode None None None (dzero, None) dzero dzero; mkNode (Some 1%nat) (Some 1%nat) None (dbl 0 2, Some 1%nat) (dbl 0 2) dzero; mkNode (Some 1%nat) None None (dbl 0 1, Some 2%nat) (dbl 0 1) dzero].

Lemma dself_endless k : splay_loop k dknot_self 1 = Err OutOfFuel.
Proof.
  induction k as [|k IH]; [reflexivity|]. transitivity (splay_loop k dknot_self 1); [|exact IH]. reflexivity.
Qed.

Lemma dknot_down : push_down_from_root 100 (dknot (Some 1%nat)) 1 = Ok (dknot (Some 1%nat)).
Proof. reflexivity. Qed.
Lemma dknot_splay1 : splay 100 (dknot None) 1 = Ok (dknot None).
Proof. reflexivity. Qed.
Lemma dknot_splay2 : splay 100 (dknot None) 2 = Ok (dknot None).
Proof. reflexivity. Qed.

Lemma dknot_splay F : (100 <= F)%nat -> splay F (dknot (Some 1%nat)) 1 = Err OutOfFuel.
Proof.
  intro HF. unfold splay. rewrite (later_up _ _ _ (push_down_from_root_later 100 F HF (dknot (Some 1%nat)) 1%nat) dknot_down). cbn [bind].
  destruct F as [|F]; [lia|]. replace (splay_loop (S F) (dknot (Some 1%nat)) 1) with (splay_loop F dknot_self 1) by reflexivity.
  rewrite dself_endless. reflexivity.
Qed.

Lemma dknot_access F : (100 <= F)%nat -> access F (dknot None) 1 = Err OutOfFuel.
Proof.
  intro HF. unfold access. destruct F as [|[|[|F']]] eqn:EF; try lia. rewrite <- EF in *. 
  assert (X : access_loop F (S (S (S F'))) (dknot None) (Some 1%nat) None = Err OutOfFuel).
  { cbn [access_loop].
    rewrite (later_up _ _ _ (@splay_later _ _ 100 F HF (dknot None) 1%nat) dknot_splay1). cbn [bind].
    change (setc (dknot None) 1 None true) with (Ok (dknot None)). cbn [bind].
    change (push_up (dknot None) 1) with (Ok (dknot None)). cbn [bind].
    change (ld (dknot None) 1) with (Ok (mkNode (Some 2%nat) None None (dbl 0 2, Some 1%nat) (dbl 0 2) dzero)). cbn [bind n_fa].
    rewrite (later_up _ _ _ (@splay_later _ _ 100 F HF (dknot None) 2%nat) dknot_splay2). cbn [bind].
    change (setc (dknot None) 2 (Some 1%nat) true) with (Ok (dknot (Some 1%nat))). cbn [bind].
    change (push_up (dknot (Some 1%nat)) 2) with (Ok (dknot (Some 1%nat))). cbn [bind].
    change (ld (dknot (Some 1%nat)) 2) with (Ok (mkNode (Some 1%nat) None (Some 1%nat) (dbl 0 1, Some 2%nat) (dbl 0 1) dzero)). cbn [bind n_fa].
    rewrite (dknot_splay F HF). reflexivity. }
  rewrite EF at 2. rewrite X. reflexivity.
Qed.

Lemma dkround F : (100 <= F)%nat -> round F dkflow2 = Err OutOfFuel.
Proof.
  intro HF. unfold round. replace (uq_front (f_uq dkflow2)) with (Ok 1%nat) by (vm_compute; reflexivity). cbn [bind].
  assert (X : choice_operator F dkflow2 1 = Err OutOfFuel); [|rewrite X; reflexivity].
  unfold choice_operator. assert (HS : exists F', F = S F') by (exists (F - 1)%nat; lia). destruct HS as [F' EF].
  rewrite EF at 2. clear EF. cbn [choice_loop].
  replace (vget (f_cur dkflow2) 1) with (Ok 0%nat) by (vm_compute; reflexivity). cbn [bind].
  replace (vget (f_G dkflow2) 1) with (Ok [1%nat; 2%nat]) by (vm_compute; reflexivity). cbn [bind]. change (0 <? length [1%nat; 2%nat])%nat with true. cbv iota.
  change (vget [1%nat; 2%nat] 0) with (Ok 1%nat). cbn [bind].
  assert (Q : q dkflow2 1 = Ok (dbl 0 2)) by (vm_compute; reflexivity). rewrite Q. cbn [bind]. change (dlt dzero (dbl 0 2)) with true. cbv iota.
  rewrite (later_up _ _ _ (@link_later _ _ 100 F HF dkflow2 1%nat) dkrun_flow3). cbn [bind].
  unfold send, find_root. rewrite dknot_nodes, (dknot_access F HF). reflexivity.
Qed.

Lemma dknot_long F : (100 <= F)%nat -> run_solver F 2 (dbl_mus 0 knot_mus) (dbl_oms 0 knot_oms) = Err OutOfFuel.
Proof.
  intro HF. unfold run_solver.
  rewrite (later_up _ _ _ (@solver_new_later _ _ 100 F HF 2 (dbl_mus 0 knot_mus) (dbl_oms 0 knot_oms)) dkrun_new). cbn [bind].
  unfold solve. replace (s_n dksolver) with 2 by (vm_compute; reflexivity). change (2 =? SIZE_MAX) with false. cbv iota. rewrite dkrun_merge. cbn [bind].
  rewrite (later_up _ _ _ (@calc_later _ _ 100 F HF dklims) dkrun_calc). cbn [bind].
  rewrite (surjective_pairing dkcalc), (surjective_pairing (fst dkcalc)). cbv iota beta. change (Z.to_nat 2) with 2%nat.
  rewrite (later_up _ _ _ (@flow_new_later _ _ 100 F HF 2 (snd (fst dkcalc)) (snd dkcalc) dklims) dkrun_flow0). cbn [bind].
  assert (X : scaling_loop F F dkflow0 = Err OutOfFuel); [|unfold min_cost; rewrite X; reflexivity].
  destruct F as [|f] eqn:EF; [lia|]. rewrite <- EF in HF. cbn [scaling_loop]. rewrite <- EF. clear EF.
  replace (f_eps dkflow0 <? 2) with false by (vm_compute; reflexivity).
  unfold phase. rewrite dkrun_flow1. cbn [bind]. unfold Flow.refine.
  assert (X : Flow.refine_loop F F dkflow1 = Err OutOfFuel); [|rewrite X; reflexivity].
  replace (Flow.refine_loop F F dkflow1) with (Flow.refine_loop F (5 + S (F - 6)) dkflow1) by (f_equal; lia).
  rewrite (rounds_run 100 F HF 5 _ _ _ dkrun_flow2), refine_loop_step.
  replace (uq_empty (f_uq dkflow2)) with false by (vm_compute; reflexivity). rewrite (dkround F HF). reflexivity.
Qed.

Theorem dknot_endless : forall fuel, run_solver fuel 2 (dbl_mus 0 knot_mus) (dbl_oms 0 knot_oms) = Err OutOfFuel.
Proof.
  intro fuel. destruct (@run_solver_later _ _ fuel (Nat.max fuel 100) (Nat.le_max_l _ _) 2 (dbl_mus 0 knot_mus) (dbl_oms 0 knot_oms)) as [E|E]; [exact E|].
  rewrite E. apply dknot_long. apply Nat.le_max_r.
Qed.

(** ** The problem has an optimum *)
Lemma knot_optimum : optimum 2 knot_mus knot_oms (-5).
Proof.
  split.
  - exists (fun i => match i with 1%nat => 2 | _ => 1 end), (fun _ => -1). split; [|reflexivity]. split.
    + intros i Hi. destruct i as [|[|[|i]]]; try lia; eexists; (split; [reflexivity|cbn [m_l m_u]; lia]).
    + intros [|[|k]] o E; try discriminate. injection E as <-. cbn [o_l o_u o_i o_j]. lia.
  - intros mu om [F G]. destruct (F 1%nat ltac:(lia)) as (m & E & B). cbn in E. injection E as <-. cbn [m_l m_u] in B.
    destruct (F 2%nat ltac:(lia)) as (m & E & C). cbn in E. injection E as <-. cbn [m_l m_u] in C.
    destruct (G 0%nat _ eq_refl) as [H _]. cbn [o_l o_u] in H.
    unfold total_cost. cbn [seq map length sumZ knot_oms]. unfold mu_cost, om_cost. cbn [knot_mus knot_oms nth_error m_fn o_fn]. unfold cost, table_from, table.
    assert (X : mu 1%nat = 0 \/ mu 1%nat = 1 \/ mu 1%nat = 2) by lia. assert (Y : mu 2%nat = 0 \/ mu 2%nat = 1) by lia.
    assert (W : om 0%nat = -2 \/ om 0%nat = -1 \/ om 0%nat = 0 \/ om 0%nat = 1) by lia.
    destruct X as [X|[X|X]], Y as [Y|Y], W as [W|[W|[W|W]]]; rewrite X, Y, W; vm_compute; discriminate.
Qed.

Lemma knot_problem : problem_is 0 (dbl_mus 0 knot_mus) (dbl_oms 0 knot_oms) knot_mus knot_oms.
Proof.
  split; [reflexivity|]. split.
  - intros i mf mz Hi E1 E2. unfold dbl_mus in E1. rewrite nth_error_map, E2 in E1. injection E1 as <-. split; [reflexivity|]. split; [reflexivity|].
    intros x Hx. cbn [m_fn]. assert (A : exists z, m_fn mz x = Ok z /\ Z.abs z <= 6).
    { destruct i as [|[|[|i]]]; try lia; cbn [knot_mus nth_error] in E2; try (destruct i; discriminate); injection E2 as <-; cbn [m_fn]; unfold table;
        (eexists; split; [reflexivity|]); destruct (Z.to_nat x) as [|[|[|[|?]]]]; cbn; lia. }
    destruct A as (z & Ez & Bz). exists (dbl 0 z), z. split; [unfold dbl_fn; rewrite Ez; reflexivity|]. split; [exact Ez|]. apply dbl_is; lia.
  - constructor; [|constructor]. repeat split. intros x Hx. cbn [o_fn]. unfold dbl_fn, table_from, table. eexists _, _. split; [reflexivity|]. split; [reflexivity|].
    apply dbl_is; [lia|]. destruct (Z.to_nat (x - -2)) as [|[|[|[|[|?]]]]]; cbn; lia.
Qed.

Theorem endless_without_convexity :
  exists n mus oms K v, admissible_but_convex n mus oms K /\ optimum n mus oms v /\
    (forall fuel, @run_solver Z (exact_ops 1) fuel (Z.of_nat n) mus oms = Err OutOfFuel) /\
    exists musf omsf, problem_is 0 musf omsf mus oms /\
      forall fuel, @run_solver spec_float f64_ops fuel (Z.of_nat n) musf omsf = Err OutOfFuel.
Proof.
  exists 2%nat, knot_mus, knot_oms, 2, (-5). split; [exact knot_wf|]. split; [exact knot_optimum|]. split; [exact knot_endless|].
  exists (dbl_mus 0 knot_mus), (dbl_oms 0 knot_oms). split; [exact knot_problem|exact dknot_endless].
Qed.
