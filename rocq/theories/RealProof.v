(** * solve() with real costs: the real numbers are an ordered group *)
From Coq Require Import Reals Lra.
From Verif Require Import Base Data ProblemDefine ProblemSolver Spec SolverProof RealSpec GroupSpec GroupProof.
Local Open Scope Z_scope.

Lemma real_lt a b : @dlt R real_ops a b = true <-> (a < b)%R.
Proof. cbn [dlt real_ops]. destruct (Rlt_dec a b); split; congruence || contradiction || auto. Qed.
Lemma real_le a b : @dle R real_ops a b = true <-> (a <= b)%R.
Proof. cbn [dle real_ops]. destruct (Rle_dec a b); split; congruence || contradiction || auto. Qed.

Lemma real_group : ordered_group real_ops.
Proof.
  constructor; try (cbn [dzero done dadd dsub dopp dmuli dhalf real_ops]; intros).
  - ring.
  - ring.
  - ring.
  - ring.
  - ring.
  - ring.
  - rewrite plus_IZR. ring.
  - field.
  - cbn [dlt real_ops]. destruct (Rlt_dec x x); [lra|reflexivity].
  - rewrite real_lt in *. lra.
  - rewrite !real_lt. destruct (Rtotal_order x y) as [H|[H|H]]; auto.
  - rewrite real_lt in *. lra.
  - cbn [dle dlt real_ops]. destruct (Rle_dec x y), (Rlt_dec y x); cbn [negb]; try reflexivity; lra.
  - cbn [deq real_ops]. destruct (Req_EM_T x y); split; congruence.
  - apply real_lt. lra.
Qed.

Theorem real_solve n mus oms K fuel : radmissible n mus oms K -> solver_fuel n (length oms) K <= Z.of_nat fuel ->
  (exists v, @run_solver R real_ops fuel (Z.of_nat n) mus oms = Ok (Some v) /\ roptimum n mus oms v) \/
  (@run_solver R real_ops fuel (Z.of_nat n) mus oms = Ok None /\ rinfeasible n mus oms).
Proof.
  intros ((W1 & W2 & W3) & HB & HF) Hfuel.
  assert (CV : forall F l u, rconvex_on F l u -> @gconvex_on R real_ops F l u).
  { intros F l u H x Hx. apply real_le. specialize (H x Hx). cbn [dadd real_ops]. lra. }
  assert (AD : @gadmissible R real_ops n mus oms K).
  { split; [|split; [exact HB|exact HF]]. split; [exact W1|]. split.
    - intros i m Hi E. destruct (W2 i m Hi E) as (X1 & X2 & X3). split; [exact X1|]. split; [exact X2|]. apply CV. exact X3.
    - intros o Ho. destruct (W3 o Ho) as (X1 & X2 & X3 & X4). split; [exact X1|]. split; [exact X2|]. split; [apply CV; exact X3|exact X4]. }
  destruct (group_solve real_group n mus oms K fuel AD Hfuel) as [(v & E & O & L)|N]; [left|right; exact N].
  exists v. split; [exact E|]. split; [exact O|]. intros mu om F. apply real_le. exact (L mu om F).
Qed.
