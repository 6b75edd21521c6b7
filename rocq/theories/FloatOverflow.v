(** * The run of FloatEndless ends in an int overflow *)
From Coq Require Import Floats.SpecFloat.
From Verif Require Import Base BaseLemmas Data UniqueQueue LCT ProblemDefine Flow ProblemSolver Spec FloatSpec.
From Verif Require Import FuelMono FlowShift FlowRise FloatEndless.
Local Open Scope Z_scope.

Section Cycles.
Context {D : Type} {ops : DataOps D}.

Lemma later_up {A} (m1 m2 : res A) a : later m1 m2 -> m1 = Ok a -> m2 = Ok a.
Proof. intros [->|H] E; congruence. Qed.

Lemma rounds_rise N F c : 0 <= c -> (N <= F)%nat -> forall k f (s' s t : flow D), risen c s' s -> rounds N k s = Ok t ->
  Flow.refine_loop F (k + f) s' = Err IntOverflow \/
  exists t', risen c t' t /\ Flow.refine_loop F (k + f) s' = Flow.refine_loop F f t'.
Proof.
  intros Hc HN. induction k as [|k IH]; intros f s' s t HR HK; cbn [rounds] in HK.
  - injection HK as <-. right. exists s'. auto.
  - destruct (uq_empty (f_uq s)) eqn:E; [discriminate|]. apply bind_inv in HK. destruct HK as (s1 & E1 & HK).
    rewrite <- (risen_uq c s' s HR) in E. cbn [Nat.add]. rewrite refine_loop_step, E.
    apply (later_up _ _ _ (round_later N F s HN)) in E1.
    destruct (round_risen c Hc F s' s HR s1 E1) as [->|(s1' & -> & HR1)]; [left; reflexivity|]. cbn [bind]. exact (IH f s1' s1 t HR1 HK).
Qed.

Lemma risen_raised c d (s2 s1 s : flow D) : 0 <= d -> risen c s2 s1 -> raised d s1 s -> risen (c + d) s2 s.
Proof.
  intros Hd (-> & H1 & H2) (-> & H3 & H4). split; [|split; auto].
  - unfold with_scal. cbn [f_n f_M f_eps f_nodes f_imb f_cur f_uq f_fa f_edges f_flows f_G f_scal].
    f_equal. rewrite map_map. apply map_ext. intro. lia.
  - cbn [with_scal f_scal] in H1. rewrite Forall_forall in *. intros x Hx. specialize (H3 x Hx).
    specialize (H1 (d + x) (in_map (Z.add d) _ _ Hx)). lia.
Qed.

Lemma cycles_rise N F k d (s t : flow D) : (N <= F)%nat -> 0 <= d -> rounds N k s = Ok t -> raised d t s ->
  forall m c f s', 0 <= c -> risen c s' s ->
  Flow.refine_loop F (m * k + f) s' = Err IntOverflow \/ exists t', risen (c + Z.of_nat m * d) t' s.
Proof.
  intros HN Hd HK HT. induction m as [|m IH]; intros c f s' Hc HR.
  - right. exists s'. replace (c + Z.of_nat 0 * d) with c by lia. exact HR.
  - replace (S m * k + f)%nat with (k + (m * k + f))%nat by lia.
    destruct (rounds_rise N F c Hc HN k (m * k + f) s' s t HR HK) as [->|(t' & HR' & ->)]; [auto|].
    destruct (IH (c + d) f t' ltac:(lia) (risen_raised c d t' t s Hd HR' HT)) as [->|(u & Hu)]; [auto|].
    right. exists u. replace (c + Z.of_nat (S m) * d) with (c + d + Z.of_nat m * d) by lia. exact Hu.
Qed.

(** a state that recurs with potentials larger by [d > 0] *)
Lemma cycle_overflows N F j k d m f (s s1 t : flow D) : (N <= F)%nat -> 0 <= d -> INT_MAX < Z.of_nat m * d ->
  Forall (fun x => 0 <= x <= INT_MAX) (f_scal s) -> 0 <= f_eps s -> f_scal s1 <> [] ->
  rounds N j s = Ok s1 -> rounds N k s1 = Ok t -> raised d t s1 ->
  Flow.refine_loop F (j + (m * k + f)) s = Err IntOverflow.
Proof.
  intros HN Hd Hm HS He Hne HJ HK HT.
  assert (H0 : risen 0 s s).
  { split; [|split; [|exact He]].
    - rewrite (map_ext _ (fun x => x)) by (intro; lia). rewrite map_id. destruct s; reflexivity.
    - eapply Forall_impl; [|exact HS]. cbn beta. intros. lia. }
  destruct (rounds_rise N F 0 (Z.le_refl 0) HN j (m * k + f) s s s1 H0 HJ) as [->|(s1' & H1 & ->)]; [reflexivity|].
  destruct (cycles_rise N F k d s1 t HN Hd HK HT m 0 f s1' (Z.le_refl 0) H1) as [E|(u & _ & HB & _)]; [exact E|].
  exfalso. destruct (f_scal s1) as [|x l]; [congruence|]. inversion HB as [|? ? B ?]; subst. lia.
Qed.

Lemma scaling_step N F f (s t : flow D) : (N <= F)%nat -> 2 <= f_eps s -> phase N s = Ok t ->
  scaling_loop F (S f) s = scaling_loop F f (with_eps t (Z.quot (f_eps t) 2)).
Proof.
  intros HN He HP. cbn [scaling_loop]. destruct (Z.ltb_spec (f_eps s) 2); [lia|].
  rewrite (later_up _ _ _ (@phase_later D ops N F HN s) HP). reflexivity.
Qed.
End Cycles.

#[local] Hint Extern 0 (DataOps spec_float) => exact f64_ops : typeclass_instances.

Lemma flow3_overflows F : 6000000000 <= Z.of_nat F -> Flow.refine_loop F F flow3 = Err IntOverflow.
Proof.
  intro HF. set (m := Z.to_nat 536870912). assert (Hm : Z.of_nat m = 536870912) by (apply Z2Nat.id; lia). clearbody m.
  replace (Flow.refine_loop F F flow3) with (Flow.refine_loop F (20 + (m * 10 + (F - 20 - m * 10))) flow3) by (f_equal; lia).
  apply (cycle_overflows 100 F 20 10 4 m _ flow3 flow4 (with_scal flow4 (map (Z.add 4) (f_scal flow4)))).
  - lia.
  - lia.
  - unfold INT_MAX. lia.
  - replace (f_scal flow3) with [4; 8; 0] by (vm_compute; reflexivity). unfold INT_MAX. repeat constructor; lia.
  - replace (f_eps flow3) with 4 by (vm_compute; reflexivity). lia.
  - replace (f_scal flow4) with [12; 16; 10] by (vm_compute; reflexivity). discriminate.
  - exact run_flow4.
  - exact run_again.
  - split; [reflexivity|]. replace (f_scal flow4) with [12; 16; 10] by (vm_compute; reflexivity). split; [repeat constructor; lia|].
    replace (f_eps flow4) with 4 by (vm_compute; reflexivity). lia.
Qed.

Theorem tenths_overflows : forall fuel, 6000000000 <= Z.of_nat fuel -> run_solver fuel 2 tenths_mus [] = Err IntOverflow.
Proof.
  intros F HF. assert (HN : (100 <= F)%nat) by lia. unfold run_solver.
  rewrite (later_up _ _ _ (@solver_new_later _ f64_ops 100 F HN 2 tenths_mus []) run_new). cbn [bind].
  unfold solve. cbn [s_n]. change (2 =? SIZE_MAX) with false. cbv iota. rewrite run_merge. cbn [bind].
  rewrite (later_up _ _ _ (@calc_later _ f64_ops 100 F HN lims0) run_calc). cbn [bind].
  rewrite (surjective_pairing calc0), (surjective_pairing (fst calc0)). cbv iota beta. change (Z.to_nat 2) with 2%nat.
  rewrite (later_up _ _ _ (@flow_new_later _ f64_ops 100 F HN 2 (snd (fst calc0)) (snd calc0) lims0) run_flow0). cbn [bind].
  assert (X : scaling_loop F F flow0 = Err IntOverflow); [|unfold min_cost; rewrite X; reflexivity].
  assert (E : F = S (S (S (F - 3)))) by lia. rewrite E at 2. generalize (F - 3)%nat. intro f. clear E.
  rewrite (scaling_step 100 F _ flow0 flow1 HN); [|replace (f_eps flow0) with 16 by (vm_compute; reflexivity); lia|exact run_flow1].
  change (with_eps flow1 (Z.quot (f_eps flow1) 2)) with (next_eps flow1).
  rewrite (scaling_step 100 F _ (next_eps flow1) flow2 HN); [|replace (f_eps (next_eps flow1)) with 8 by (vm_compute; reflexivity); lia|exact run_flow2].
  change (with_eps flow2 (Z.quot (f_eps flow2) 2)) with (next_eps flow2).
  cbn [scaling_loop]. replace (f_eps (next_eps flow2) <? 2) with false by (vm_compute; reflexivity).
  unfold phase. rewrite run_flow3. cbn [bind]. unfold Flow.refine. rewrite (flow3_overflows F HF). reflexivity.
Qed.

Lemma tenths_refute_overflow : exists k n musf omsf mus oms K v,
  problem_is k musf omsf mus oms /\ admissible n mus oms K /\ optimum n mus oms v /\
  forall fuel, 6000000000 <= Z.of_nat fuel -> @run_solver spec_float f64_ops fuel (Z.of_nat n) musf omsf = Err IntOverflow.
Proof.
  exists 55, 2%nat, tenths_mus, [], tenths_exact, [], 2, (-25220157913274776).
  split; [exact tenths_problem|]. split; [exact tenths_admissible|]. split; [exact tenths_optimum|exact tenths_overflows].
Qed.
