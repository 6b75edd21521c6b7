(** * A problem with costs that are not convex on which the solver never returns *)
From Verif Require Import Base BaseLemmas Data UniqueQueue LCT ProblemDefine Flow ProblemSolver Spec.
From Verif Require Import FuelMono FlowShift FloatEndless FloatOverflow NonConvex.
Local Open Scope Z_scope.

#[local] Hint Extern 0 (DataOps Z) => exact (exact_ops 1) : typeclass_instances.

(** a cost given by its values at l, l + 1, ... *)
Definition table_from (l : Z) (t : list Z) : Fn Z := fun x => table t (x - l).

(** x1 in 0..2 at costs 1, 2, -6; x2 in 0..1 at costs 2, 1; x2 - x1 at most omega in -2..1 at costs 2, 0, 2, 0 *)
Definition knot_mus : list (MuLimit Z) := [mkMu 0 0 (table []); mkMu 0 2 (table [1; 2; -6]); mkMu 0 1 (table [2; 1])].
Definition knot_oms : list (OmegaLimit Z) := [mkOm (-2) 1 (table_from (-2) [2; 0; 2; 0]) 2 1].

Lemma knot_wf : admissible_but_convex 2 knot_mus knot_oms 2.
Proof.
  split; [reflexivity|]. split; [|split; [|split; [split|unfold int_fits, INT_MAX; lia]]].
  - intros i m Hi E. destruct i as [|[|[|i]]]; try lia; cbn [knot_mus nth_error] in E; injection E as <-; cbn [m_l m_u m_fn]; (split; [lia|]);
      intros x Hx; unfold table; eexists; reflexivity.
  - intros o [<-|[]]. cbn [o_l o_u o_i o_j o_fn]. split; [lia|]. split; [intros x Hx; unfold table_from, table; eexists; reflexivity|lia].
  - intros i m Hi E. destruct i as [|[|[|i]]]; try lia; cbn [knot_mus nth_error] in E; injection E as <-; cbn [m_l m_u]; lia.
  - intros o [<-|[]]. cbn [o_l o_u]. lia.
Qed.

(** ** The run up to the link that closes a cycle *)
Definition knothing : flow Z := mkFlow 0 0 0 [] [] [] (uq_new 0) [] [] [] [] [].
Definition ksolver : solver Z := value (mkSolver 0 [] []) (solver_new 100 2 knot_mus knot_oms).
Definition klims : list (OmegaLimit Z) := match merge_limits ksolver with Ok (Some l) => l | _ => [] end.
Definition kcalc : Z * Z * Z := value (0, 0, 0) (calc 100 klims).
Definition kflow0 : flow Z := value knothing (flow_new 100 2 (snd (fst kcalc)) (snd kcalc) klims).
Definition kflow1 : flow Z := value knothing (push_all_admissible_edge (initialization kflow0)).
Definition kflow2 : flow Z := value knothing (rounds 100 5 kflow1).
Definition kflow3 : flow Z := value knothing (link 100 kflow2 1).

Lemma krun_new : solver_new 100 2 knot_mus knot_oms = Ok ksolver.
Proof. apply value_ok. vm_compute. reflexivity. Qed.
Lemma some_ok {A} (m : res (option (list A))) :
  (match m with Ok (Some _) => true | _ => false end) = true -> m = Ok (Some (match m with Ok (Some l) => l | _ => [] end)).
Proof. destruct m as [[l|]|]; [reflexivity|discriminate|discriminate]. Qed.
Lemma krun_merge : merge_limits ksolver = Ok (Some klims).
Proof. apply some_ok. vm_compute. reflexivity. Qed.
Lemma krun_calc : calc 100 klims = Ok kcalc.
Proof. apply value_ok. vm_compute. reflexivity. Qed.
Lemma krun_flow0 : flow_new 100 2 (snd (fst kcalc)) (snd kcalc) klims = Ok kflow0.
Proof. apply value_ok. vm_compute. reflexivity. Qed.
Lemma krun_flow1 : push_all_admissible_edge (initialization kflow0) = Ok kflow1.
Proof. apply value_ok. vm_compute. reflexivity. Qed.
Lemma krun_flow2 : rounds 100 5 kflow1 = Ok kflow2.
Proof. apply value_ok. vm_compute. reflexivity. Qed.
Lemma krun_flow3 : link 100 kflow2 1 = Ok kflow3.
Proof. apply value_ok. vm_compute. reflexivity. Qed.

(** nodes 1 and 2 are now each other's father *)
Definition knot (c : option nat) : heap Z :=
  [mkNode None None None (0, None) 0 0; mkNode (Some 2%nat) None None (2, Some 1%nat) 2 0; mkNode (Some 1%nat) None c (1, Some 2%nat) 1 0].
Lemma knot_nodes : f_nodes kflow3 = knot None.
Proof. vm_compute. reflexivity. Qed.

(** ** splay() on it does not end: after one turn node 1 is its own father, and stays so *)
Definition knot_self : heap Z :=
  [mkNode None None None (0, None) 0 0; mkNode (Some 1%nat) (Some 1%nat) None (2, Some 1%nat) 2 0; mkNode (Some 1%nat) None None (1, Some 2%nat) 1 0].

Lemma self_endless k : splay_loop k knot_self 1 = Err OutOfFuel.
Proof.
  induction k as [|k IH]; [reflexivity|]. transitivity (splay_loop k knot_self 1); [|exact IH]. reflexivity.
Qed.

Lemma knot_down : push_down_from_root 100 (knot (Some 1%nat)) 1 = Ok (knot (Some 1%nat)).
Proof. reflexivity. Qed.
Lemma knot_splay1 : splay 100 (knot None) 1 = Ok (knot None).
Proof. reflexivity. Qed.
Lemma knot_splay2 : splay 100 (knot None) 2 = Ok (knot None).
Proof. reflexivity. Qed.

Lemma knot_splay F : (100 <= F)%nat -> splay F (knot (Some 1%nat)) 1 = Err OutOfFuel.
Proof.
  intro HF. unfold splay. rewrite (later_up _ _ _ (push_down_from_root_later 100 F HF (knot (Some 1%nat)) 1%nat) knot_down). cbn [bind].
  destruct F as [|F]; [lia|]. replace (splay_loop (S F) (knot (Some 1%nat)) 1) with (splay_loop F knot_self 1) by reflexivity.
  rewrite self_endless. reflexivity.
Qed.

Lemma knot_access F : (100 <= F)%nat -> access F (knot None) 1 = Err OutOfFuel.
Proof.
  intro HF. unfold access. destruct F as [|[|[|F']]] eqn:EF; try lia. rewrite <- EF in *. 
  assert (X : access_loop F (S (S (S F'))) (knot None) (Some 1%nat) None = Err OutOfFuel).
  { cbn [access_loop].
    rewrite (later_up _ _ _ (@splay_later _ _ 100 F HF (knot None) 1%nat) knot_splay1). cbn [bind].
    change (setc (knot None) 1 None true) with (Ok (knot None)). cbn [bind].
    change (push_up (knot None) 1) with (Ok (knot None)). cbn [bind].
    change (ld (knot None) 1) with (Ok (mkNode (Some 2%nat) None None (2, Some 1%nat) 2 0)). cbn [bind n_fa].
    rewrite (later_up _ _ _ (@splay_later _ _ 100 F HF (knot None) 2%nat) knot_splay2). cbn [bind].
    change (setc (knot None) 2 (Some 1%nat) true) with (Ok (knot (Some 1%nat))). cbn [bind].
    change (push_up (knot (Some 1%nat)) 2) with (Ok (knot (Some 1%nat))). cbn [bind].
    change (ld (knot (Some 1%nat)) 2) with (Ok (mkNode (Some 1%nat) None (Some 1%nat) (1, Some 2%nat) 1 0)). cbn [bind n_fa].
    rewrite (knot_splay F HF). reflexivity. }
  rewrite EF at 2. rewrite X. reflexivity.
Qed.

Lemma kround F : (100 <= F)%nat -> round F kflow2 = Err OutOfFuel.
Proof.
  intro HF. unfold round. replace (uq_front (f_uq kflow2)) with (Ok 1%nat) by (vm_compute; reflexivity). cbn [bind].
  assert (X : choice_operator F kflow2 1 = Err OutOfFuel); [|rewrite X; reflexivity].
  unfold choice_operator. assert (HS : exists F', F = S F') by (exists (F - 1)%nat; lia). destruct HS as [F' EF].
  rewrite EF at 2. clear EF. cbn [choice_loop].
  replace (vget (f_cur kflow2) 1) with (Ok 0%nat) by (vm_compute; reflexivity). cbn [bind].
  replace (vget (f_G kflow2) 1) with (Ok [1%nat; 2%nat]) by (vm_compute; reflexivity). cbn [bind]. change (0 <? length [1%nat; 2%nat])%nat with true. cbv iota.
  change (vget [1%nat; 2%nat] 0) with (Ok 1%nat). cbn [bind].
  assert (Q : q kflow2 1 = Ok 2) by (vm_compute; reflexivity). rewrite Q. cbn [bind]. change (dlt dzero 2) with true. cbv iota.
  rewrite (later_up _ _ _ (@link_later _ _ 100 F HF kflow2 1%nat) krun_flow3). cbn [bind].
  unfold send, find_root. rewrite knot_nodes, (knot_access F HF). reflexivity.
Qed.

Lemma rounds_run {D} {ops : DataOps D} N F : (N <= F)%nat -> forall k f (s t : flow D), rounds N k s = Ok t -> Flow.refine_loop F (k + f) s = Flow.refine_loop F f t.
Proof.
  intros HN k. induction k as [|k IH]; intros f s t HK; cbn [rounds] in HK; [injection HK as <-; reflexivity|].
  destruct (uq_empty (f_uq s)) eqn:E; [discriminate|]. apply bind_inv in HK. destruct HK as (s1 & E1 & HK).
  cbn [Nat.add]. rewrite refine_loop_step, E. rewrite (later_up _ _ _ (round_later N F s HN) E1). cbn [bind]. exact (IH f s1 t HK).
Qed.

Lemma knot_long F : (100 <= F)%nat -> run_solver F 2 knot_mus knot_oms = Err OutOfFuel.
Proof.
  intro HF. unfold run_solver.
  rewrite (later_up _ _ _ (@solver_new_later _ _ 100 F HF 2 knot_mus knot_oms) krun_new). cbn [bind].
  unfold solve. replace (s_n ksolver) with 2 by (vm_compute; reflexivity). change (2 =? SIZE_MAX) with false. cbv iota. rewrite krun_merge. cbn [bind].
  rewrite (later_up _ _ _ (@calc_later _ _ 100 F HF klims) krun_calc). cbn [bind].
  rewrite (surjective_pairing kcalc), (surjective_pairing (fst kcalc)). cbv iota beta. change (Z.to_nat 2) with 2%nat.
  rewrite (later_up _ _ _ (@flow_new_later _ _ 100 F HF 2 (snd (fst kcalc)) (snd kcalc) klims) krun_flow0). cbn [bind].
  assert (X : scaling_loop F F kflow0 = Err OutOfFuel); [|unfold min_cost; rewrite X; reflexivity].
  destruct F as [|f] eqn:EF; [lia|]. rewrite <- EF in HF. cbn [scaling_loop]. rewrite <- EF. clear EF.
  replace (f_eps kflow0 <? 2) with false by (vm_compute; reflexivity).
  unfold phase. rewrite krun_flow1. cbn [bind]. unfold Flow.refine.
  assert (X : Flow.refine_loop F F kflow1 = Err OutOfFuel); [|rewrite X; reflexivity].
  replace (Flow.refine_loop F F kflow1) with (Flow.refine_loop F (5 + S (F - 6)) kflow1) by (f_equal; lia).
  rewrite (rounds_run 100 F HF 5 _ _ _ krun_flow2), refine_loop_step.
  replace (uq_empty (f_uq kflow2)) with false by (vm_compute; reflexivity). rewrite (kround F HF). reflexivity.
Qed.

Theorem knot_endless : forall fuel, run_solver fuel 2 knot_mus knot_oms = Err OutOfFuel.
Proof.
  intro fuel. destruct (@run_solver_later _ _ fuel (Nat.max fuel 100) (Nat.le_max_l _ _) 2 knot_mus knot_oms) as [E|E]; [exact E|].
  rewrite E. apply knot_long. apply Nat.le_max_r.
Qed.
