(** * A cost that is infinite at the lower end of its range *)
From Coq Require Import Floats.SpecFloat.
From Verif Require Import Base BaseLemmas Data UniqueQueue LCT ProblemDefine Flow ProblemSolver Spec.
From Verif Require Import FuelMono FlowShift FloatEndless FloatOverflow NonConvexEndless.
Local Open Scope Z_scope.

#[local] Hint Extern 0 (DataOps spec_float) => exact f64_ops : typeclass_instances.

(** infinite at 0, [v] from 1 on *)
Definition barred (v : spec_float) : Fn spec_float := fun x => if x =? 0 then Ok (S754_infinity false) else Ok v.
Definition barred_mus (v : spec_float) : list (MuLimit spec_float) := [mkMu 0 0 (barred v); mkMu 0 1 (barred v)].

Definition finite (v : spec_float) : bool := match v with S754_zero _ | S754_finite _ _ _ => true | _ => false end.

Definition inothing : flow spec_float := mkFlow 0 dzero 0 [] [] [] (uq_new 0) [] [] [] [] [].
Definition isolver (v : spec_float) : solver spec_float := value (mkSolver 0 [] []) (solver_new 100 1 (barred_mus v) []).
Definition ilims (v : spec_float) : list (OmegaLimit spec_float) := match merge_limits (isolver v) with Ok (Some l) => l | _ => [] end.
Definition icalc (v : spec_float) : spec_float * spec_float * Z := value (dzero, dzero, 0) (calc 100 (ilims v)).
Definition iflow0 (v : spec_float) : flow spec_float := value inothing (flow_new 100 1 (snd (fst (icalc v))) (snd (icalc v)) (ilims v)).
Definition iflow1 (v : spec_float) : flow spec_float := value inothing (push_all_admissible_edge (initialization (iflow0 v))).
Definition iflow2 (v : spec_float) : flow spec_float := value inothing (rounds 100 4 (iflow1 v)).

Section Run.
Variable v : spec_float.
Hypothesis Hv : finite v = true.

Ltac run := destruct v as [?|?| |? ? ?]; try discriminate; vm_compute; reflexivity.

Lemma irun_new : solver_new 100 1 (barred_mus v) [] = Ok (isolver v).
Proof. apply value_ok. run. Qed.
Lemma irun_merge : merge_limits (isolver v) = Ok (Some (ilims v)).
Proof. apply some_ok. run. Qed.
Lemma irun_calc : calc 100 (ilims v) = Ok (icalc v).
Proof. apply value_ok. run. Qed.
Lemma irun_flow0 : flow_new 100 1 (snd (fst (icalc v))) (snd (icalc v)) (ilims v) = Ok (iflow0 v).
Proof. apply value_ok. run. Qed.
Lemma irun_flow1 : push_all_admissible_edge (initialization (iflow0 v)) = Ok (iflow1 v).
Proof. apply value_ok. run. Qed.
Lemma irun_flow2 : rounds 100 4 (iflow1 v) = Ok (iflow2 v).
Proof. apply value_ok. run. Qed.

(** from here on the flows and the imbalances are NaN, and each turn raises the potential of node 1 *)
Lemma iflow2_is :
  f_eps (iflow2 v) = 4 /\ f_n (iflow2 v) = 1%nat /\ f_imb (iflow2 v) = [S754_nan; S754_nan] /\ f_cur (iflow2 v) = [0%nat; 0%nat] /\
  f_uq (iflow2 v) = mkUQ [1%nat] [false; true] /\ f_fa (iflow2 v) = [None; None] /\ f_flows (iflow2 v) = [S754_nan; S754_nan] /\
  f_G (iflow2 v) = [[1%nat]; [0%nat]] /\ f_scal (iflow2 v) = [0; 6] /\ f_M (iflow2 v) = S754_infinity false.
Proof. repeat split; run. Qed.

Lemma iflow2_edge : exists e, vget (f_edges (iflow2 v)) 0 = Ok e /\ o_l e = 0 /\ o_u e = 1 /\ o_i e = 1%nat /\ o_j e = 0%nat.
Proof.
  assert (X : match vget (f_edges (iflow2 v)) 0 with Ok e => ((o_l e =? 0) && (o_u e =? 1) && (o_i e =? 1)%nat && (o_j e =? 0)%nat)%bool | Err _ => false end = true) by run.
  destruct (vget (f_edges (iflow2 v)) 0) as [e|]; [|discriminate]. exists e. split; [reflexivity|].
  rewrite !Bool.andb_true_iff, !Z.eqb_eq, !Nat.eqb_eq in X. tauto.
Qed.

Lemma iround F p : (2 <= F)%nat -> 6 <= p <= INT_MAX ->
  round F (with_scal (iflow2 v) [0; p]) = if p + 2 <=? INT_MAX then Ok (with_scal (iflow2 v) [0; p + 2]) else Err IntOverflow.
Proof.
  intros HF Hp. destruct iflow2_is as (He & Hn & Hi & Hc & Hu & Ha & Hf & HG & Hs & HM). destruct iflow2_edge as (e & Ee & El & Eu & Ei & Ej).
  clear Hs. remember (iflow2 v) as s0 eqn:E0. clear E0.
  unfold round. cbn [with_scal f_uq]. rewrite Hu. change (uq_front (mkUQ [1%nat] [false; true])) with (Ok 1%nat). cbn [bind].
  set (s := with_scal s0 [0; p]).
  assert (Q : q s 0 = Ok S754_nan).
  { unfold q. subst s. cbn [with_scal f_edges f_scal f_flows f_n f_M]. rewrite Ee. cbn [bind]. rewrite Ei, Ej, Eu, El, Hf, Hn, HM.
    change (vget [0; p] 1) with (Ok p). change (vget [0; p] 0) with (Ok 0). cbn [bind]. change (vget [S754_nan; S754_nan] 0) with (Ok S754_nan).
    assert (T : 1 <= ceil_div (p - 0) (Z.of_nat (2 * (1 + 1))) - 1 <= INT_MAX - 1).
    { unfold ceil_div. change (Z.of_nat (2 * (1 + 1))) with 4. rewrite Z.quot_div_nonneg, Z.rem_mod_nonneg by lia.
      unfold INT_MAX in *. destruct (Z.ltb_spec 0 ((p - 0) mod 4)); Z.div_mod_to_equations; lia. }
    rewrite ck_ok by (unfold INT_MIN, INT_MAX in *; lia). cbn [bind]. set (t := ceil_div _ _ - 1) in *. clearbody t.
    rewrite !ck_ok by (unfold INT_MIN, INT_MAX in *; lia). cbn [bind]. rewrite ck_ok by (unfold INT_MIN, INT_MAX in *; lia). cbn [bind].
    destruct (Z.ltb_spec 1 (t + 1)); [|lia]. reflexivity. }
  assert (X : choice_operator F s 1 = if p + 2 <=? INT_MAX then Ok (with_scal s0 [0; p + 2]) else Err IntOverflow).
  { unfold choice_operator. assert (HS : exists F', F = S (S F')) by (exists (F - 2)%nat; lia). destruct HS as [F' EF]. rewrite EF at 2. clear EF.
    cbn [choice_loop]. replace (vget (f_cur s) 1) with (Ok 0%nat) by (subst s; cbn [with_scal f_cur]; rewrite Hc; reflexivity). cbn [bind].
    replace (vget (f_G s) 1) with (Ok [0%nat]) by (subst s; cbn [with_scal f_G]; rewrite HG; reflexivity). cbn [bind].
    change (0 <? length [0%nat])%nat with true. cbv iota. change (vget [0%nat] 0) with (Ok 0%nat). cbn [bind]. rewrite Q. cbn [bind].
    change (dlt dzero S754_nan) with false. cbv iota.
    replace (vset (f_cur s) 1 (0 + 1)%nat) with (Ok [0%nat; 1%nat]) by (subst s; cbn [with_scal f_cur]; rewrite Hc; reflexivity). cbn [bind].
    replace (vget (f_cur (with_cur s [0%nat; 1%nat])) 1) with (Ok 1%nat) by reflexivity. cbn [bind].
    replace (vget (f_G (with_cur s [0%nat; 1%nat])) 1) with (Ok [0%nat]) by (subst s; cbn [with_cur with_scal f_G]; rewrite HG; reflexivity). cbn [bind].
    change (1 <? length [0%nat])%nat with false. cbv iota. unfold update_scaling.
    replace (vget (f_G (with_cur s [0%nat; 1%nat])) 1) with (Ok [0%nat]) by (subst s; cbn [with_cur with_scal f_G]; rewrite HG; reflexivity). cbn [bind for_each].
    subst s. cbn [with_cur with_scal f_n f_M f_eps f_nodes f_imb f_cur f_uq f_fa f_edges f_flows f_G f_scal]. rewrite Ee. cbn [bind]. cbv zeta. rewrite Ej. cbn [f_fa]. rewrite Ha. change (vget [None; None] 0) with (Ok (@None nat)). cbn [bind].
    change (ptr_eqb None (Some 1%nat)) with false. cbv iota. cbn [bind with_cur with_scal f_n f_M f_eps f_nodes f_imb f_cur f_uq f_fa f_edges f_flows f_G f_scal]. change (vget [0; p] 1) with (Ok p). cbn [bind]. rewrite He. change (Z.quot 4 2) with 2.
    destruct (Z.leb_spec (p + 2) INT_MAX).
    - rewrite ck_ok by (unfold INT_MIN, INT_MAX in *; lia). cbn [bind]. change (vset [0; p] 1 (p + 2)) with (Ok [0; p + 2]). cbn [bind].
      change (vset [0%nat; 1%nat] 1 0%nat) with (Ok [0%nat; 0%nat]). cbn [bind with_cur with_scal f_n f_M f_eps f_nodes f_imb f_cur f_uq f_fa f_edges f_flows f_G f_scal].
      rewrite <- Hc. unfold with_scal. rewrite He. reflexivity.
    - unfold ck. destruct (Z.leb_spec (p + 2) INT_MAX); [lia|]. rewrite Bool.andb_false_r. reflexivity. }
  rewrite X. destruct (p + 2 <=? INT_MAX); [|reflexivity]. cbn [bind with_scal f_uq f_imb]. rewrite Hu, Hi. reflexivity.
Qed.

Lemma rising_overflows F (s : flow spec_float) : uq_empty (f_uq s) = false ->
  (forall p, 6 <= p <= INT_MAX -> round F (with_scal s [0; p]) = if p + 2 <=? INT_MAX then Ok (with_scal s [0; p + 2]) else Err IntOverflow) ->
  forall k p, 6 <= p <= INT_MAX -> INT_MAX < p + 2 * Z.of_nat k -> Flow.refine_loop F k (with_scal s [0; p]) = Err IntOverflow.
Proof.
  intros E R k. induction k as [|k IH]; intros p Hp HK; [lia|]. rewrite refine_loop_step. cbn [with_scal f_uq]. rewrite E.
  rewrite (R p Hp). destruct (Z.leb_spec (p + 2) INT_MAX); [|reflexivity]. cbn [bind]. apply IH; lia.
Qed.

Lemma iloop F k p : (2 <= F)%nat -> 6 <= p <= INT_MAX -> INT_MAX < p + 2 * Z.of_nat k ->
  Flow.refine_loop F k (with_scal (iflow2 v) [0; p]) = Err IntOverflow.
Proof.
  intros HF. apply rising_overflows; [run|]. intros p' Hp'. exact (iround F p' HF Hp').
Qed.

Lemma barred_overflows F : 2000000000 <= Z.of_nat F -> run_solver F 1 (barred_mus v) [] = Err IntOverflow.
Proof.
  intro HF. assert (HN : (100 <= F)%nat) by lia. unfold run_solver.
  rewrite (later_up _ _ _ (@solver_new_later _ _ 100 F HN 1 (barred_mus v) []) irun_new). cbn [bind].
  unfold solve. replace (s_n (isolver v)) with 1 by run. change (1 =? SIZE_MAX) with false. cbv iota. rewrite irun_merge. cbn [bind].
  rewrite (later_up _ _ _ (@calc_later _ _ 100 F HN (ilims v)) irun_calc). cbn [bind].
  rewrite (surjective_pairing (icalc v)), (surjective_pairing (fst (icalc v))). cbv iota beta. change (Z.to_nat 1) with 1%nat.
  rewrite (later_up _ _ _ (@flow_new_later _ _ 100 F HN 1 (snd (fst (icalc v))) (snd (icalc v)) (ilims v)) irun_flow0). cbn [bind].
  assert (X : scaling_loop F F (iflow0 v) = Err IntOverflow); [|unfold min_cost; rewrite X; reflexivity].
  assert (HS : exists f, F = S f) by (exists (F - 1)%nat; lia). destruct HS as [f EF]. rewrite EF at 2. clear EF. cbn [scaling_loop].
  replace (f_eps (iflow0 v) <? 2) with false by run.
  unfold phase. rewrite irun_flow1. cbn [bind]. unfold Flow.refine.
  assert (X : Flow.refine_loop F F (iflow1 v) = Err IntOverflow); [|rewrite X; reflexivity].
  replace (Flow.refine_loop F F (iflow1 v)) with (Flow.refine_loop F (4 + (F - 4)) (iflow1 v)) by (f_equal; lia).
  rewrite (rounds_run 100 F HN 4 _ _ _ irun_flow2).
  replace (iflow2 v) with (with_scal (iflow2 v) [0; 6]) at 1.
  - apply iloop; unfold INT_MAX; lia.
  - destruct iflow2_is as (_ & _ & _ & _ & _ & _ & _ & _ & Hs & _). rewrite <- Hs. generalize (iflow2 v). intros []. reflexivity.
Qed.
End Run.

Lemma barred_no_answer v : finite v = true -> forall fuel r, run_solver fuel 1 (barred_mus v) [] <> Ok r.
Proof.
  intros Hv fuel r E. set (N := Z.to_nat 2000000000). assert (HN : 2000000000 <= Z.of_nat N) by (unfold N; lia). clearbody N.
  assert (X := barred_overflows v Hv (Nat.max fuel N) ltac:(lia)).
  assert (Y := later_up _ _ _ (@run_solver_later _ _ fuel (Nat.max fuel N) (Nat.le_max_l _ _) 1 (barred_mus v) []) E).
  rewrite X in Y. discriminate.
Qed.
