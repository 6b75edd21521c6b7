(** * The client finds the least optimal solution *)
From Verif Require Import Base Data BaseLemmas ProblemDefine ProblemSolver Spec FracSpec PDProof SolverProof SolverProps FracProof LatticeProof Client.
Local Open Scope Z_scope.

Section Find.
Variable one : Z.
Hypothesis H1 : 0 < one.
Variables (n : nat) (mus : list (MuLimit Z)) (oms : list (OmegaLimit Z)) (K : Z) (fuel : nat) (v : Z) (k : nat).
Hypothesis HA : admissible n mus oms K.
Hypothesis HF : solver_fuel n (length oms) K <= Z.of_nat fuel.
Hypothesis HK : 2 * K < 2 ^ Z.of_nat k.
Hypothesis HR : @run_solver Z (exact_ops one) fuel (Z.of_nat n) mus oms = Ok (Some v).

Lemma answers_v_ok i l u : subrange mus i l u -> (1 <= i <= n)%nat ->
  exists b, @answers_v (exact_ops one) fuel (Z.of_nat n) (narrowed mus i l u) oms v = Ok b /\
    (b = true <-> exists mu, solves n mus oms v mu /\ l <= mu i <= u).
Proof.
  intros HP Hi. assert (HA' := narrowed_admissible n mus oms K i l u HP HA).
  destruct (solve_solution one H1 n _ oms K fuel HA' HF) as (r & Er & _). unfold answers_v. rewrite Er. cbn [bind].
  eexists. split; [reflexivity|]. rewrite <- (narrowed_run one H1 n mus oms K fuel v HA HF HR i l u HP Hi), Er.
  destruct r as [w|]; [|split; discriminate]. rewrite Z.eqb_eq. split; [intros ->; reflexivity|congruence].
Qed.

Lemma find_value_ok lo i : (1 <= i <= n)%nat -> solves n mus oms v lo -> (forall mu, solves n mus oms v mu -> lo i <= mu i) ->
  @find_value (exact_ops one) (S k) fuel (Z.of_nat n) mus oms v i = Ok (lo i).
Proof.
  intros Hi HL Hlo. unfold find_value. destruct (nth_error mus i) as [m|] eqn:Em; [|apply nth_error_None in Em; destruct HA as ((HL' & _) & _); lia].
  rewrite (vget_ok _ _ _ Em). cbn [bind].
  assert (W := within n mus oms v i m lo Hi Em HL).
  assert (B : - K <= m_l m /\ m_u m <= K) by (destruct HA as (_ & (HB & _) & _); exact (HB i m Hi Em)).
  assert (I : 28 * K <= INT_MAX) by (destruct HA as (_ & _ & HK1 & HI); nia).
  destruct (partition_point_ok (fun x => b <- @answers_v (exact_ops one) fuel (Z.of_nat n) (narrowed mus i (m_l m) x) oms v ;; Ok (negb b))
    (fun x => x <? lo i) k (S k) (m_l m) (m_u m)) as (p & Ep & Hp & Hp1 & Hp2); try (unfold INT_MIN, INT_MAX in *; lia).
  { intros x Hx. destruct (answers_v_ok i (m_l m) x) as (b & Eb & Hb); [exists m; repeat split; try assumption; lia|exact Hi|]. rewrite Eb. cbn [bind]. f_equal.
    destruct b; cbn [negb].
    - destruct (proj1 Hb eq_refl) as (mu & HS & Hm). specialize (Hlo mu HS). symmetry. apply Z.ltb_ge. lia.
    - symmetry. apply Z.ltb_lt. destruct (Z.le_gt_cases (lo i) x) as [C|C]; [|exact C]. exfalso.
      assert (X : false = true) by (apply Hb; exists lo; split; [exact HL|lia]). discriminate. }
  rewrite Ep. f_equal. destruct (Z.lt_trichotomy p (lo i)) as [C|[C|C]]; [|exact C|].
  - specialize (Hp1 ltac:(lia)). apply Z.ltb_ge in Hp1. lia.
  - specialize (Hp2 ltac:(lia)). apply Z.ltb_lt in Hp2. lia.
Qed.

Lemma find_values_ok lo : solves n mus oms v lo -> (forall mu, solves n mus oms v mu -> forall i, (1 <= i <= n)%nat -> lo i <= mu i) ->
  forall b a acc, (a + b = n)%nat ->
  for_each (seq (S a) b) acc (fun xs i => x <- @find_value (exact_ops one) (S k) fuel (Z.of_nat n) mus oms v i ;; Ok (xs ++ [x])) = Ok (acc ++ map lo (seq (S a) b)).
Proof.
  intros HL Hlo. induction b as [|b IH]; intros a acc Hab; cbn [seq for_each map]; [rewrite app_nil_r; reflexivity|].
  rewrite (find_value_ok lo (S a)); [|lia|exact HL|intros mu HS; apply Hlo; [exact HS|lia]]. cbn [bind]. rewrite IH by lia. rewrite <- app_assoc. reflexivity.
Qed.
End Find.

Lemma values_seq lo n i : (1 <= i <= n)%nat -> values (map lo (seq 1 n)) i = lo i.
Proof.
  intro Hi. unfold values. destruct i as [|i]; [lia|]. cbn [nth]. rewrite nth_indep with (d' := lo O) by (rewrite map_length, seq_length; lia).
  rewrite map_nth, seq_nth by lia. reflexivity.
Qed.

Lemma solves_ext n mus oms K v mu mu' : admissible n mus oms K -> (forall i, (1 <= i <= n)%nat -> mu i = mu' i) -> solves n mus oms v mu -> solves n mus oms v mu'.
Proof.
  intros ((_ & _ & HO) & _) H (om & [F1 F2] & Hc). exists om. split; [split|].
  - intros i Hi. rewrite <- H by exact Hi. apply F1, Hi.
  - intros j o Ej. assert (X := HO o ltac:(eapply nth_error_In; exact Ej)). destruct X as (_ & _ & _ & A & B & _). rewrite <- !H by lia. apply F2, Ej.
  - rewrite <- Hc. unfold total_cost. f_equal. f_equal. apply map_ext_in. intros i Hi. apply in_seq in Hi. unfold mu_cost. rewrite H by lia. reflexivity.
Qed.

Theorem find_ok : forall one n mus oms K fuel k, 0 < one -> admissible n mus oms K -> solver_fuel n (length oms) K <= Z.of_nat fuel -> 2 * K < 2 ^ Z.of_nat k ->
  exists r, @find_solution (exact_ops one) (S k) fuel n mus oms = Ok r /\
    match r with
    | None => infeasible n mus oms
    | Some (v, xs) => length xs = n /\ optimum n mus oms v /\ solves n mus oms v (values xs) /\
        forall mu, solves n mus oms v mu -> forall i, (1 <= i <= n)%nat -> values xs i <= mu i
    end.
Proof.
  intros one n mus oms K fuel k H1 HA HF HK. destruct (solve_solution one H1 n mus oms K fuel HA HF) as (r & Er & Hr).
  unfold find_solution. rewrite Er. cbn [bind]. destruct r as [v|]; [|exists None; split; [reflexivity|exact Hr]].
  destruct (run_extremes one H1 n mus oms K fuel v HA HF Er) as (lo & hi & HL & _ & Hlo).
  assert (Hlo' : forall mu, solves n mus oms v mu -> forall i, (1 <= i <= n)%nat -> lo i <= mu i) by (intros mu HS i Hi; apply (Hlo mu HS i Hi)).
  rewrite (find_values_ok one H1 n mus oms K fuel v k HA HF HK Er lo HL Hlo' n 0 []) by lia. cbn [bind app]. eexists. split; [reflexivity|].
  split; [rewrite map_length, seq_length; reflexivity|]. split; [exact Hr|]. split.
  - apply (solves_ext n mus oms K v lo); [exact HA| |exact HL]. intros i Hi. symmetry. apply values_seq, Hi.
  - intros mu HS i Hi. rewrite values_seq by exact Hi. apply Hlo'; assumption.
Qed.
