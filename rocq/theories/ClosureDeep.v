(** * Problems in which the function objects are nested as deep as possible *)
From Verif Require Import Base BaseLemmas Data ProblemDefine Flow ProblemSolver EvalSpec Closure ClosureProof.
Local Open Scope Z_scope.

(** two variables that can only be 0 and [d] omega limits between them *)
Definition zero_fn : Fn Z := fun _ => Ok 0.
Definition flat_mus : list (MuLimit Z) := repeat (mkMu 0 0 zero_fn) 3.
Definition flat_oms (d : nat) : list (OmegaLimit Z) := repeat (mkOm 0 0 zero_fn 1 2) d.

Section Deep.
Variable one : Z.
#[local] Hint Extern 0 (DataOps Z) => exact (exact_ops one) : typeclass_instances.

Lemma flat_parallel d i j : (parallel (flat_oms d) i j <= d)%nat.
Proof.
  unfold parallel, flat_oms. induction d as [|d IH]; cbn [repeat filter]; [reflexivity|]. destruct (joins _ _ _); cbn [length]; lia.
Qed.
Definition prepared (k : nat) : climit Z := mkC 0 0 (CPre 0 (CUser (OfOmega k))) 1 2.
Lemma flat_check oms fuel d : (1 <= fuel)%nat -> forall k,
  check_omegas_c flat_mus oms fuel 2 (given k (flat_oms d)) = Ok (Some (map prepared (seq k d))).
Proof.
  intro HF. destruct fuel as [|fuel]; [lia|]. induction d as [|d IH]; intro k; [reflexivity|]. cbn [flat_oms repeat given check_omegas_c seq map].
  change (repeat _ d) with (flat_oms d). unfold check_omega_c at 1. cbn. cbn in IH. rewrite IH. reflexivity.
Qed.
Lemma flat_new fuel d : (3 <= fuel)%nat -> solver_new_c flat_mus (flat_oms d) fuel 2 = Ok (Some (map prepared (seq 0 d))).
Proof. intro H. destruct fuel as [|[|[|fuel]]]; try lia. unfold solver_new_c. cbn [negb]. rewrite <- (flat_check (flat_oms d) (S (S (S fuel))) d) by lia. reflexivity. Qed.

Lemma flat_merge d : forall k c h, nesting c = h -> (3 <= h)%nat ->
  exists c', merge_loop_c (map prepared (seq k d)) [((2, 1)%nat, mkC 0 0 c 2 1)] = Ok (Some [((2, 1)%nat, mkC 0 0 c' 2 1)]) /\ nesting c' = (h + d)%nat.
Proof.
  induction d as [|d IH]; intros k c h Hc Hh; cbn [seq map].
  - exists c. split; [reflexivity|lia].
  - destruct (IH (S k) (CSum c (CRev (CPre 0 (CUser (OfOmega k))))) (S h)) as (c' & E & N); [cbn [nesting]; rewrite Hc; lia|lia|].
    exists c'. split; [|lia]. rewrite <- E. reflexivity.
Qed.
Theorem nested_deep fuel d : (1 <= d)%nat -> (3 <= fuel)%nat ->
  exists s limits cs c, solver_new fuel 2 flat_mus (flat_oms d) = Ok s /\ merge_limits s = Ok (Some limits) /\
    solver_new_c flat_mus (flat_oms d) fuel 2 = Ok (Some (map prepared (seq 0 d))) /\
    merge_limits_c flat_mus 2 (map prepared (seq 0 d)) = Ok (Some cs) /\
    limits = map (plain flat_mus (flat_oms d)) cs /\ In c cs /\ nesting (c_fn c) = (d + 2)%nat.
Proof.
  intros Hd HF. destruct d as [|d]; [lia|]. destruct (flat_merge d 1 (CRev (CPre 0 (CUser (OfOmega 0)))) 3 eq_refl (le_n _)) as (c' & E & N).
  set (L := merge_limits_c flat_mus 2 (map prepared (seq 0 (S d)))).
  assert (EL : L = Ok (Some (mkC 0 0 c' 2 1 :: map (fun i => mkC 0 0 (CUser (OfMu i)) i 0) [1; 2]%nat))).
  { unfold L, merge_limits_c. cbn [seq map]. replace (merge_loop_c _ _) with (Ok (Some [((2, 1)%nat, mkC 0 0 c' 2 1)])) by (rewrite <- E; reflexivity). reflexivity. }
  assert (ES := flat_new fuel (S d) HF). exists (solver_of flat_mus (flat_oms (S d)) 2 (Some (map prepared (seq 0 (S d))))). do 3 eexists.
  split; [rewrite solver_new_plain, ES; reflexivity|]. split; [cbn [solver_of]; rewrite merge_limits_plain; fold L; rewrite EL; reflexivity|].
  split; [exact ES|]. split; [exact EL|]. split; [reflexivity|]. split; [left; reflexivity|]. cbn [c_fn]. rewrite N. lia.
Qed.
End Deep.
