(** * Rounding down instead of to the next lower integer: the solver need not return *)
From Verif Require Import Base BaseLemmas Data UniqueQueue LCT ProblemDefine Flow ProblemSolver Rounding Spec.
From Verif Require Import FuelMono FlowShift FlowNet SolverProof SolverProps FloatEndless FloatOverflow NonConvex NonConvexEndless.
Local Open Scope Z_scope.

Lemma below_same {D} {ops : DataOps D} fuel n mus (oms : list (OmegaLimit D)) : run_solver_g below fuel n mus oms = run_solver fuel n mus oms.
Proof. reflexivity. Qed.

(** ** More steps do not change an outcome *)
Section Later.
Context {D : Type} {ops : DataOps D}.
Variable rnd : Z -> Z -> Z.
Variables f1 f2 : nat.
Hypothesis Hf : (f1 <= f2)%nat.

Lemma link_g_later (s : flow D) p : later (link_g rnd f1 s p) (link_g rnd f2 s p).
Proof. assert (H1 := @set_val_later D ops f1 f2 Hf). assert (H2 := @set_fa_later D ops f1 f2 Hf). unfold link_g. later_tac. Qed.

Lemma flow_cut_g_later (s : flow D) p : later (flow_cut_g rnd f1 s p) (flow_cut_g rnd f2 s p).
Proof. assert (H1 := @cut_later D ops f1 f2 Hf). assert (H2 := @get_val_later D ops f1 f2 Hf). unfold flow_cut_g. later_tac. Qed.

Lemma send_loop_g_later : forall k1 k2, (k1 <= k2)%nat -> forall (s : flow D) p r, later (send_loop_g rnd f1 k1 s p r) (send_loop_g rnd f2 k2 s p r).
Proof.
  assert (H1 := @get_min_wtrbnr_later D ops f1 f2 Hf). assert (H2 := @send_push_later D ops f1 f2 Hf). assert (H3 := flow_cut_g_later).
  induction k1 as [|k1 IH]; intros k2 Hk s p r; [destruct k2; cbn [send_loop_g]; later_tac|]. destruct k2 as [|k2]; [lia|]. assert (IH' := IH k2 ltac:(lia)). clear IH.
  cbn [send_loop_g]. later_tac.
Qed.

Lemma send_g_later (s : flow D) p : later (send_g rnd f1 s p) (send_g rnd f2 s p).
Proof. assert (H1 := @find_root_later D ops f1 f2 Hf). assert (H2 := send_loop_g_later f1 f2 Hf). unfold send_g. later_tac. Qed.

Lemma update_scaling_g_later (s : flow D) p : later (update_scaling_g rnd f1 s p) (update_scaling_g rnd f2 s p).
Proof. assert (H1 := flow_cut_g_later). unfold update_scaling_g. later_tac. Qed.

Lemma choice_loop_g_later : forall k1 k2, (k1 <= k2)%nat -> forall (s : flow D) p, later (choice_loop_g rnd f1 k1 s p) (choice_loop_g rnd f2 k2 s p).
Proof.
  assert (H1 := link_g_later). assert (H2 := send_g_later). assert (H3 := update_scaling_g_later).
  induction k1 as [|k1 IH]; intros k2 Hk s p; [apply later_out|]. destruct k2 as [|k2]; [lia|]. assert (IH' := IH k2 ltac:(lia)). clear IH.
  cbn [choice_loop_g]. later_tac.
Qed.

Lemma choice_operator_g_later (s : flow D) p : later (choice_operator_g rnd f1 s p) (choice_operator_g rnd f2 s p).
Proof. exact (choice_loop_g_later f1 f2 Hf s p). Qed.

Lemma refine_loop_g_later : forall k1 k2, (k1 <= k2)%nat -> forall (s : flow D), later (refine_loop_g rnd f1 k1 s) (refine_loop_g rnd f2 k2 s).
Proof.
  assert (H1 := choice_operator_g_later).
  induction k1 as [|k1 IH]; intros k2 Hk s; [destruct k2; cbn [refine_loop_g]; later_tac|]. destruct k2 as [|k2]; [lia|]. assert (IH' := IH k2 ltac:(lia)). clear IH.
  cbn [refine_loop_g]. later_tac.
Qed.

Lemma cut_all_g_later (s : flow D) : later (cut_all_g rnd f1 s) (cut_all_g rnd f2 s).
Proof. assert (H1 := flow_cut_g_later). unfold cut_all_g. later_tac. Qed.

Lemma flow_refine_g_later (s : flow D) : later (refine_g rnd f1 s) (refine_g rnd f2 s).
Proof. assert (H1 := refine_loop_g_later f1 f2 Hf). assert (H2 := cut_all_g_later). unfold refine_g. later_tac. Qed.

Lemma phase_g_later (s : flow D) : later (phase_g rnd f1 s) (phase_g rnd f2 s).
Proof. assert (H1 := flow_refine_g_later). unfold phase_g. later_tac. Qed.

Lemma scaling_loop_g_later : forall k1 k2, (k1 <= k2)%nat -> forall (s : flow D), later (scaling_loop_g rnd f1 k1 s) (scaling_loop_g rnd f2 k2 s).
Proof.
  assert (H1 := phase_g_later).
  induction k1 as [|k1 IH]; intros k2 Hk s; [destruct k2; cbn [scaling_loop_g]; later_tac|]. destruct k2 as [|k2]; [lia|]. assert (IH' := IH k2 ltac:(lia)). clear IH.
  cbn [scaling_loop_g]. later_tac.
Qed.

Lemma min_cost_g_later (s : flow D) : later (min_cost_g rnd f1 s) (min_cost_g rnd f2 s).
Proof. assert (H1 := scaling_loop_g_later f1 f2 Hf). assert (H2 := @sum_answer_later D ops f1 f2 Hf). unfold min_cost_g. later_tac. Qed.

Lemma solve_g_later (s : solver D) : later (solve_g rnd f1 s) (solve_g rnd f2 s).
Proof. assert (H1 := @calc_later D ops f1 f2 Hf). assert (H2 := @flow_new_later D ops f1 f2 Hf). assert (H3 := min_cost_g_later). unfold solve_g. later_tac. Qed.

Lemma run_solver_g_later n (mus : list (MuLimit D)) oms : later (run_solver_g rnd f1 n mus oms) (run_solver_g rnd f2 n mus oms).
Proof. assert (H1 := @solver_new_later D ops f1 f2 Hf). assert (H2 := solve_g_later). unfold run_solver_g. later_tac. Qed.
End Later.

(** ** Turns of the refine loop *)
Section Turns.
Context {D : Type} {ops : DataOps D}.
Variable rnd : Z -> Z -> Z.

Definition round_g (fuel : nat) (s : flow D) : res (flow D) :=
  p <- uq_front (f_uq s) ;;
  s <- choice_operator_g rnd fuel s p ;;
  p <- uq_front (f_uq s) ;;
  a <- vget (f_imb s) p ;;
  if deq a dzero then u <- uq_pop (f_uq s) ;; Ok (with_uq s u) else Ok s.

Lemma refine_loop_g_step f0 f (s : flow D) :
  refine_loop_g rnd f0 (S f) s = if uq_empty (f_uq s) then Ok s else t <- round_g f0 s ;; refine_loop_g rnd f0 f t.
Proof.
  cbn [refine_loop_g]. unfold round_g. destruct (uq_empty (f_uq s)); [reflexivity|].
  destruct (uq_front (f_uq s)) as [p|]; cbn [bind]; [|reflexivity]. destruct (choice_operator_g rnd f0 s p) as [t|]; cbn [bind]; [|reflexivity].
  destruct (uq_front (f_uq t)) as [p'|]; cbn [bind]; [|reflexivity]. destruct (vget (f_imb t) p') as [a|]; cbn [bind]; [|reflexivity].
  destruct (deq a dzero); [|reflexivity]. destruct (uq_pop (f_uq t)); reflexivity.
Qed.

Fixpoint rounds_g (fuel k : nat) (s : flow D) : res (flow D) :=
  match k with
  | O => Ok s
  | S k => if uq_empty (f_uq s) then Err EmptyQueue else t <- round_g fuel s ;; rounds_g fuel k t
  end.

Lemma round_g_later f1 f2 (s : flow D) : (f1 <= f2)%nat -> later (round_g f1 s) (round_g f2 s).
Proof. intro H. assert (H1 := @choice_operator_g_later D ops rnd f1 f2 H). unfold round_g. later_tac. Qed.

Lemma rounds_g_run N F : (N <= F)%nat -> forall k f (s t : flow D), rounds_g N k s = Ok t -> refine_loop_g rnd F (k + f) s = refine_loop_g rnd F f t.
Proof.
  intros HN k. induction k as [|k IH]; intros f s t HK; cbn [rounds_g] in HK; [injection HK as <-; reflexivity|].
  destruct (uq_empty (f_uq s)) eqn:E; [discriminate|]. apply bind_inv in HK. destruct HK as (s1 & E1 & HK).
  cbn [Nat.add]. rewrite refine_loop_g_step, E. rewrite (later_up _ _ _ (round_g_later N F s HN) E1). cbn [bind]. exact (IH f s1 t HK).
Qed.

(** one turn of the scaling loop is known, the next one has no end *)
Lemma scaling_second F (s s1 s2 : flow D) k t :
  (100 <= F)%nat -> (k + 2 <= F)%nat -> (f_eps s <? 2) = false -> phase_g rnd 100 s = Ok s1 -> (Z.quot (f_eps s1) 2 <? 2) = false ->
  push_all_admissible_edge_g rnd (initialization (with_eps s1 (Z.quot (f_eps s1) 2))) = Ok s2 ->
  rounds_g 100 k s2 = Ok t -> uq_empty (f_uq t) = false -> round_g F t = Err OutOfFuel ->
  scaling_loop_g rnd F F s = Err OutOfFuel.
Proof.
  intros HF HK E0 E1 E2 E3 E4 E5 E6. assert (HS : exists F', F = S (S F')) by (exists (F - 2)%nat; lia). destruct HS as [F' EF].
  rewrite EF at 2. cbn [scaling_loop_g]. rewrite E0. rewrite (later_up _ _ _ (@phase_g_later D ops rnd 100 F HF s) E1). cbn [bind].
  change (f_eps (with_eps s1 (Z.quot (f_eps s1) 2))) with (Z.quot (f_eps s1) 2). rewrite E2. unfold phase_g. rewrite E3. cbn [bind]. unfold refine_g.
  replace (refine_loop_g rnd F F s2) with (refine_loop_g rnd F (k + S (F - k - 1)) s2) by (f_equal; lia).
  rewrite (rounds_g_run 100 F HF k _ _ _ E4), refine_loop_g_step, E5, E6. reflexivity.
Qed.
End Turns.

(** ** The problem: x1 = 0, x2 in 0..1 at costs 0, 1, x1 - x2 at most 0 *)
#[local] Hint Extern 0 (DataOps Z) => exact (exact_ops 1) : typeclass_instances.

Definition down_mus : list (MuLimit Z) := [mkMu 0 0 (table []); mkMu 0 0 (table [0]); mkMu 0 1 (table [0; 1])].
Definition down_oms : list (OmegaLimit Z) := [mkOm 0 0 (table [0]) 1 2].

Lemma down_admissible : admissible 2 down_mus down_oms 1.
Proof.
  split; [|split; [split|unfold int_fits, INT_MAX; lia]].
  - split; [reflexivity|]. split.
    + intros i m Hi E. destruct i as [|[|[|i]]]; try lia; cbn [down_mus nth_error] in E; injection E as <-; (split; [cbn; lia|]);
        (split; [intros x Hx; cbn [m_fn]; unfold table; eexists; reflexivity|intros x Hx; cbn [m_l m_u] in Hx; lia]).
    + intros o [<-|[]]. split; [cbn; lia|]. cbn [o_l o_u o_i o_j o_fn]. split; [intros x Hx; unfold table; eexists; reflexivity|].
      split; [intros x Hx; lia|lia].
  - intros i m Hi E. destruct i as [|[|[|i]]]; try lia; cbn [down_mus nth_error] in E; injection E as <-; cbn [m_l m_u]; lia.
  - intros o [<-|[]]. cbn [o_l o_u]. lia.
Qed.

Definition dsolver : solver Z := value (mkSolver 0 [] []) (solver_new 100 2 down_mus down_oms).
Definition dlims : list (OmegaLimit Z) := match merge_limits dsolver with Ok (Some l) => l | _ => [] end.
Definition dcalc : Z * Z * Z := value (0, 0, 0) (calc 100 dlims).
Definition dflow0 : flow Z := value knothing (flow_new 100 2 (snd (fst dcalc)) (snd dcalc) dlims).
Definition dflow1 : flow Z := value knothing (phase_g floor 100 dflow0).
Definition dflow2 : flow Z := value knothing (push_all_admissible_edge_g floor (initialization (with_eps dflow1 (Z.quot (f_eps dflow1) 2)))).
Definition dflow3 : flow Z := value knothing (rounds_g floor 100 5 dflow2).
Definition dflow4 : flow Z := value knothing (link_g floor 100 dflow3 0).

Lemma drun_new : solver_new 100 2 down_mus down_oms = Ok dsolver.
Proof. apply value_ok. vm_compute. reflexivity. Qed.
Lemma drun_merge : merge_limits dsolver = Ok (Some dlims).
Proof. apply some_ok. vm_compute. reflexivity. Qed.
Lemma drun_calc : calc 100 dlims = Ok dcalc.
Proof. apply value_ok. vm_compute. reflexivity. Qed.
Lemma drun_flow0 : flow_new 100 2 (snd (fst dcalc)) (snd dcalc) dlims = Ok dflow0.
Proof. apply value_ok. vm_compute. reflexivity. Qed.
Lemma drun_flow1 : phase_g floor 100 dflow0 = Ok dflow1.
Proof. apply value_ok. vm_compute. reflexivity. Qed.
Lemma drun_flow2 : push_all_admissible_edge_g floor (initialization (with_eps dflow1 (Z.quot (f_eps dflow1) 2))) = Ok dflow2.
Proof. apply value_ok. vm_compute. reflexivity. Qed.
Lemma drun_flow3 : rounds_g floor 100 5 dflow2 = Ok dflow3.
Proof. apply value_ok. vm_compute. reflexivity. Qed.
Lemma drun_flow4 : link_g floor 100 dflow3 0 = Ok dflow4.
Proof. apply value_ok. vm_compute. reflexivity. Qed.

(** nodes 0 and 1 are now each other's father *)
Definition tangle (c : option nat) (m : Z * option nat) : heap Z :=
  [mkNode (Some 1%nat) None None (1, Some 0%nat) 1 0; mkNode (Some 0%nat) None c m 2 0; mkNode None None None (1, Some 2%nat) 1 0].
Definition tangle0 : heap Z := tangle None (2, Some 1%nat).
Definition tangle1 : heap Z := tangle (Some 0%nat) (1, Some 0%nat).
Lemma tangle_nodes : f_nodes dflow4 = tangle0.
Proof. vm_compute. reflexivity. Qed.

Definition tangle_self : heap Z :=
  [mkNode (Some 0%nat) (Some 0%nat) None (1, Some 0%nat) 1 0; mkNode (Some 0%nat) None None (2, Some 1%nat) 2 0; mkNode None None None (1, Some 2%nat) 1 0].

Lemma tangle_self_endless k : splay_loop k tangle_self 0 = Err OutOfFuel.
Proof. induction k as [|k IH]; [reflexivity|]. transitivity (splay_loop k tangle_self 0); [|exact IH]. reflexivity. Qed.

Lemma tangle_down : push_down_from_root 100 tangle1 0 = Ok tangle1.
Proof. reflexivity. Qed.
Lemma tangle_splay0 : splay 100 tangle0 0 = Ok tangle0.
Proof. reflexivity. Qed.
Lemma tangle_splay1 : splay 100 tangle0 1 = Ok tangle0.
Proof. reflexivity. Qed.

Lemma tangle_splay F : (100 <= F)%nat -> splay F tangle1 0 = Err OutOfFuel.
Proof.
  intro HF. unfold splay. rewrite (later_up _ _ _ (push_down_from_root_later 100 F HF tangle1 0%nat) tangle_down). cbn [bind].
  destruct F as [|F]; [lia|]. replace (splay_loop (S F) tangle1 0) with (splay_loop F tangle_self 0) by reflexivity.
  rewrite tangle_self_endless. reflexivity.
Qed.

Lemma tangle_access F : (100 <= F)%nat -> access F tangle0 0 = Err OutOfFuel.
Proof.
  intro HF. unfold access. assert (HS : exists F', F = S (S (S F'))) by (exists (F - 3)%nat; lia). destruct HS as [F' EF].
  rewrite EF at 2. clear EF. cbn [access_loop].
  rewrite (later_up _ _ _ (@splay_later _ _ 100 F HF tangle0 0%nat) tangle_splay0). cbn [bind].
  change (setc tangle0 0 None true) with (Ok tangle0). cbn [bind].
  change (push_up tangle0 0) with (Ok tangle0). cbn [bind].
  change (ld tangle0 0) with (Ok (mkNode (Some 1%nat) None None (1, Some 0%nat) 1 0)). cbn [bind n_fa].
  rewrite (later_up _ _ _ (@splay_later _ _ 100 F HF tangle0 1%nat) tangle_splay1). cbn [bind].
  change (setc tangle0 1 (Some 0%nat) true) with (Ok (tangle (Some 0%nat) (2, Some 1%nat))). cbn [bind].
  change (push_up (tangle (Some 0%nat) (2, Some 1%nat)) 1) with (Ok tangle1). cbn [bind].
  change (ld tangle1 1) with (Ok (mkNode (Some 0%nat) None (Some 0%nat) (1, Some 0%nat) 2 0)). cbn [bind n_fa].
  rewrite (tangle_splay F HF). reflexivity.
Qed.

Lemma down_round F : (100 <= F)%nat -> round_g floor F dflow3 = Err OutOfFuel.
Proof.
  intro HF. unfold round_g. replace (uq_front (f_uq dflow3)) with (Ok 0%nat) by (vm_compute; reflexivity). cbn [bind].
  assert (X : choice_operator_g floor F dflow3 0 = Err OutOfFuel); [|rewrite X; reflexivity].
  unfold choice_operator_g. assert (HS : exists F', F = S F') by (exists (F - 1)%nat; lia). destruct HS as [F' EF].
  rewrite EF at 2. clear EF. cbn [choice_loop_g].
  replace (vget (f_cur dflow3) 0) with (Ok 0%nat) by (vm_compute; reflexivity). cbn [bind].
  replace (vget (f_G dflow3) 0) with (Ok [3%nat; 5%nat]) by (vm_compute; reflexivity). cbn [bind]. change (0 <? length [3%nat; 5%nat])%nat with true. cbv iota.
  change (vget [3%nat; 5%nat] 0) with (Ok 3%nat). cbn [bind].
  assert (Q : q_g floor dflow3 3 = Ok 1) by (vm_compute; reflexivity). rewrite Q. cbn [bind]. change (dlt dzero 1) with true. cbv iota.
  rewrite (later_up _ _ _ (@link_g_later _ _ floor 100 F HF dflow3 0%nat) drun_flow4). cbn [bind].
  unfold send_g, find_root. rewrite tangle_nodes, (tangle_access F HF). reflexivity.
Qed.

Lemma down_long F : (100 <= F)%nat -> run_solver_g floor F 2 down_mus down_oms = Err OutOfFuel.
Proof.
  intro HF. unfold run_solver_g.
  rewrite (later_up _ _ _ (@solver_new_later _ _ 100 F HF 2 down_mus down_oms) drun_new). cbn [bind].
  unfold solve_g. replace (s_n dsolver) with 2 by (vm_compute; reflexivity). change (2 =? SIZE_MAX) with false. cbv iota. rewrite drun_merge. cbn [bind].
  rewrite (later_up _ _ _ (@calc_later _ _ 100 F HF dlims) drun_calc). cbn [bind].
  rewrite (surjective_pairing dcalc), (surjective_pairing (fst dcalc)). cbv iota beta. change (Z.to_nat 2) with 2%nat.
  rewrite (later_up _ _ _ (@flow_new_later _ _ 100 F HF 2 (snd (fst dcalc)) (snd dcalc) dlims) drun_flow0). cbn [bind].
  assert (X : scaling_loop_g floor F F dflow0 = Err OutOfFuel); [|unfold min_cost_g; rewrite X; reflexivity].
  apply (scaling_second floor F dflow0 dflow1 dflow2 5 dflow3 HF ltac:(lia)).
  - vm_compute. reflexivity.
  - exact drun_flow1.
  - vm_compute. reflexivity.
  - exact drun_flow2.
  - exact drun_flow3.
  - vm_compute. reflexivity.
  - exact (down_round F HF).
Qed.

Theorem down_endless : forall fuel, run_solver_g floor fuel 2 down_mus down_oms = Err OutOfFuel.
Proof.
  intro fuel. destruct (@run_solver_g_later _ _ floor fuel (Nat.max fuel 100) (Nat.le_max_l _ _) 2 down_mus down_oms) as [E|E]; [exact E|].
  rewrite E. apply down_long. apply Nat.le_max_r.
Qed.

Lemma down_runs : run_solver 100 2 down_mus down_oms = Ok (Some 0).
Proof. vm_compute. reflexivity. Qed.

Lemma down_optimum : optimum 2 down_mus down_oms 0.
Proof.
  assert (HF : solver_fuel 2 (length down_oms) 1 <= Z.of_nat (Nat.max 100 (Z.to_nat (solver_fuel 2 (length down_oms) 1)))) by lia.
  apply (solve_optimum 1 ltac:(lia) 2 down_mus down_oms 1 _ 0 down_admissible HF).
  exact (later_up _ _ _ (@run_solver_later _ _ 100 _ (Nat.le_max_l _ _) 2 down_mus down_oms) down_runs).
Qed.

Theorem floor_endless :
  exists n mus oms K v, admissible n mus oms K /\ optimum n mus oms v /\
    @run_solver Z (exact_ops 1) 100 (Z.of_nat n) mus oms = Ok (Some v) /\
    forall fuel, @run_solver_g Z (exact_ops 1) floor fuel (Z.of_nat n) mus oms = Err OutOfFuel.
Proof.
  exists 2%nat, down_mus, down_oms, 1, 0. split; [exact down_admissible|]. split; [exact down_optimum|]. split; [exact down_runs|exact down_endless].
Qed.

(** where the two roundings differ *)
Lemma rounding_cases num denom : 0 < denom ->
  (num mod denom <> 0 -> below num denom = floor num denom) /\ (num mod denom = 0 -> below num denom = floor num denom - 1).
Proof.
  intro H. unfold below, floor. rewrite (ceil_div_cdiv num denom H). unfold cdiv.
  assert (A := Z.div_mod num denom ltac:(lia)). assert (B := Z.mod_pos_bound num denom H).
  split; intro E.
  - assert (- num / denom = - (num / denom) - 1) by (symmetry; apply (Z.div_unique (- num) denom _ (denom - num mod denom)); lia). lia.
  - assert (- num / denom = - (num / denom)) by (symmetry; apply (Z.div_unique (- num) denom _ 0); lia). lia.
Qed.
