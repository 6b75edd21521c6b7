(** * The statements about the trees drawn with [std::pow] *)
From Coq Require Import Floats.SpecFloat.
From Verif Require Import Base Data BaseLemmas ProblemDefine CostScaling Generator GenMore GenFar Spec GenSpec GenMoreSpec FloatSpec GenFarSpec GenRng FloatRound GenFarFloat GenFarProof GenFarShapes.
Local Open Scope Z_scope.

Theorem unrooted_trees powf (fuel : nat) (n : Z) (s : rng) : pow_good powf -> 1 <= n <= INT_MAX -> 2 ^ 48 + 2 <= Z.of_nat fuel ->
  (exists E s', unroot_chain_run powf fuel n s = Ok (E, s') /\ Z.of_nat (length E) = n - 1 /\ simple_connected n E) /\
  (exists E s', unroot_flower_run powf fuel n s = Ok (E, s') /\ Z.of_nat (length E) = n - 1 /\ simple_connected n E).
Proof. intros G HN HF. split; apply far_unroot; auto. Qed.

Lemma chain_root n root rtf : 1 <= n -> 0 <= root -> rt_root (new_root_chain n root rtf) = Z.min root (n - 1) /\ 0 <= rt_root (new_root_chain n root rtf) < n.
Proof. cbn. lia. Qed.
Lemma flower_root n root rtf : 1 <= n -> 0 <= root -> rt_root (new_root_flower n root rtf) = Z.min root (n - 1) /\ 0 <= rt_root (new_root_flower n root rtf) < n.
Proof. cbn. lia. Qed.

Theorem rooted_trees powf (fuel : nat) (n root rootfather : Z) (s : rng) : pow_good powf ->
  1 <= n <= INT_MAX -> 0 <= root -> 2 ^ 48 + 2 <= Z.of_nat fuel ->
  (exists E father s', root_run powf fuel (new_root_chain n root rootfather) s = Ok (E, father, s') /\
     Z.of_nat (length E) = n - 1 /\ simple_connected n E /\ rooted_tree n (Z.min root (n - 1)) rootfather father E) /\
  (exists E father s', root_run powf fuel (new_root_flower n root rootfather) s = Ok (E, father, s') /\
     Z.of_nat (length E) = n - 1 /\ simple_connected n E /\ rooted_tree n (Z.min root (n - 1)) rootfather father E).
Proof.
  intros G HN HR HF. destruct (chain_root n root rootfather ltac:(lia) HR) as [C1 C2]. destruct (flower_root n root rootfather ltac:(lia) HR) as [F1 F2]. split.
  - pose proof (far_root powf fuel n G HN (new_root_chain n root rootfather) s eq_refl (or_introl eq_refl) C2 HF) as H. rewrite C1 in H. exact H.
  - pose proof (far_root powf fuel n G HN (new_root_flower n root rootfather) s eq_refl (or_intror eq_refl) F2 HF) as H. rewrite F1 in H. exact H.
Qed.

Lemma int_small n : 1 <= n <= 2701 -> 1 <= n <= INT_MAX.
Proof. unfold INT_MAX. lia. Qed.

Theorem chains powf (fuel : nat) (n root rootfather : Z) (s : rng) : pow_good powf -> 1 <= n <= 2701 -> 0 <= root -> 2 ^ 48 + 2 <= Z.of_nat fuel ->
  (exists E s', unroot_chain_run powf fuel n s = Ok (E, s') /\ is_path n E) /\
  (exists E father s', root_run powf fuel (new_root_chain n root rootfather) s = Ok (E, father, s') /\ is_path n E).
Proof.
  intros G HN HR HF. pose proof (int_small n HN) as HI. split; [apply far_unroot_path; auto; lia|].
  apply (far_root_path powf fuel n G HI); auto; [apply chain_root; lia|lia].
Qed.

Theorem flowers powf (fuel : nat) (n root rootfather : Z) (s : rng) : pow_good powf -> 1 <= n <= 2701 -> 0 <= root -> 2 ^ 48 + 2 <= Z.of_nat fuel ->
  (exists E s', unroot_flower_run powf fuel n s = Ok (E, s') /\ (is_star n E \/ is_bent_star n E)) /\
  (exists E father s', root_run powf fuel (new_root_flower n root rootfather) s = Ok (E, father, s') /\ (is_star n E \/ is_bent_star n E)).
Proof.
  intros G HN HR HF. pose proof (int_small n HN) as HI. split; [apply far_unroot_star; auto; lia|].
  apply (far_root_star powf fuel n G HI); auto; [apply flower_root; lia|lia].
Qed.

Theorem any_pow powf powf' (fuel : nat) (n root rootfather : Z) (s : rng) : pow_good powf -> pow_good powf' -> n <= 2701 ->
  unroot_chain_run powf fuel n s = unroot_chain_run powf' fuel n s /\
  unroot_flower_run powf fuel n s = unroot_flower_run powf' fuel n s /\
  root_run powf fuel (new_root_chain n root rootfather) s = root_run powf' fuel (new_root_chain n root rootfather) s /\
  root_run powf fuel (new_root_flower n root rootfather) s = root_run powf' fuel (new_root_flower n root rootfather) s.
Proof.
  intros G G' HN. split; [|split; [|split]].
  - apply unroot_same; auto.
  - apply unroot_same; auto.
  - apply root_same; auto.
  - apply root_same; auto.
Qed.

(** 1 - 2^-53 in place of 1 *)
Definition cruder_pow (x y : spec_float) : spec_float := if SFeqb x (f64_of_Z 0) then S754_zero false else S754_finite false (2 ^ 53 - 1) (-53).

Lemma cruder_good : pow_good cruder_pow.
Proof.
  split.
  - intros x H. unfold cruder_pow. rewrite H. reflexivity.
  - intros x z Hz Hx. exists (2 ^ 53 - 1). split; [|split; [split; discriminate|]].
    + unfold cruder_pow. destruct (SFeqb x (f64_of_Z 0)) eqn:E; [|vm_compute; auto].
      exfalso. destruct (is53_fin _ _ Hx) as [F V]. destruct x as [s|s| |s m e]; try contradiction F; [|destruct s; discriminate E].
      cbn [fv] in V. assert (0 < 2 ^ 1021) by (apply Z.pow_pos_nonneg; lia). nia.
    + rewrite Z.pow_mul_r by (unfold root_degree; lia). eapply Z.le_trans; [apply (Z.mul_le_mono_nonneg_r z (2 ^ 53)); [apply Z.pow_nonneg; discriminate|lia]|].
      apply Z.le_trans with ((2 ^ 53) ^ root_degree); [|apply Z.pow_le_mono_l; split; discriminate].
      rewrite <- Z.pow_succ_r by (unfold root_degree; lia). apply Z.eq_le_incl. f_equal.
Qed.
