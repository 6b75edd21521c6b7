(** * What the seed given to TinyGen determines

    generator.cpp:41-44: [m] is drawn before the seed is set. *)
From Verif Require Import Base Data BaseLemmas ProblemDefine CostScaling Generator Spec GenSpec GenRng GenGraphProof GenProof FuelMono LCTTime.
Local Open Scope Z_scope.

Section Seed.
Context {D : Type} {ops : DataOps D}.

(** TinyGen draws [m] and then uses the seed *)
Lemma tiny_gen_split fuel n mlimit multi nl el fl sd info (q : fun_queue D) :
  exists K : Z -> res (graph D * (fun_queue D * rng)),
    (forall s, tiny_gen fuel n mlimit multi nl el fl sd info (q, s) =
      (mlimit <- (if multi then Ok mlimit else n1 <- ck (n - 1) ;; nn <- ck (n * n1) ;; Ok (Z.min mlimit (Z.quot nn 2))) ;;
       n1 <- ck (n - 1) ;;
       bind (next_range fuel n1 mlimit s) (fun ms => K (fst ms)))) /\
    forall m g st, K m = Ok (g, st) -> gr_m g = m.
Proof.
  unfold tiny_gen. eexists. split.
  - intro s. apply bind_ext. intro ml. apply bind_ext. intro n1. apply bind_ext. intros [m s']. cbv beta iota zeta. cbn [fst].
    match goal with |- _ = ?K m => revert m; match goal with |- forall m, @?b m = _ => intro m; instantiate (1 := b); reflexivity end end.
  - intros m g st H. cbv beta in H.
    apply bind_inv in H. destruct H as ((g0 & s0) & _ & H).
    apply bind_inv in H. destruct H as ((ns & q1 & s1) & _ & H).
    apply bind_inv in H. destruct H as ((es & q2 & s2) & _ & H).
    destruct info.
    + apply bind_inv in H. destruct H as ((i1 & q3) & _ & H). apply bind_inv in H. destruct H as ((i2 & q4) & _ & H). inversion H. reflexivity.
    + inversion H. reflexivity.
Qed.

(** the same arguments and the same number of edges: the same graph, and the same state *)
Lemma tiny_gen_same f1 f2 n mlimit multi nl el fl sd info (q : fun_queue D) s1 s2 g1 g2 st1 st2 :
  tiny_gen f1 n mlimit multi nl el fl sd info (q, s1) = Ok (g1, st1) ->
  tiny_gen f2 n mlimit multi nl el fl sd info (q, s2) = Ok (g2, st2) ->
  gr_m g1 = gr_m g2 -> g1 = g2 /\ st1 = st2.
Proof.
  intros E1 E2 Em.
  assert (L1 := tiny_gen_later (Nat.le_max_l f1 f2) n mlimit multi nl el fl sd info (q, s1)).
  assert (L2 := tiny_gen_later (Nat.le_max_r f1 f2) n mlimit multi nl el fl sd info (q, s2)).
  rewrite E1 in L1. rewrite E2 in L2. destruct L1 as [L1|L1]; [discriminate|]. destruct L2 as [L2|L2]; [discriminate|].
  symmetry in L1, L2. revert L1 L2. generalize (Nat.max f1 f2). intros f. clear E1 E2.
  destruct (tiny_gen_split f n mlimit multi nl el fl sd info q) as (K & HK & Hm). rewrite !HK. intros L1 L2.
  apply bind_inv in L1. destruct L1 as (ml & E1 & L1). rewrite E1 in L2. cbn [bind] in L2.
  apply bind_inv in L1. destruct L1 as (n1 & E3 & L1). rewrite E3 in L2. cbn [bind] in L2.
  apply bind_inv in L1. destruct L1 as (m1 & _ & L1). apply bind_inv in L2. destruct L2 as (m2 & _ & L2).
  assert (Hm1 := Hm _ _ _ L1). assert (Hm2 := Hm _ _ _ L2).
  assert (E : fst m1 = fst m2) by congruence. rewrite E in L1. rewrite L1 in L2. inversion L2. split; reflexivity.
Qed.

(** so few graphs can come out of one call *)
Lemma tiny_gen_few fuel n mlimit multi nl el fl sd info : tiny_args n mlimit multi nl el fl ->
  exists L : list (graph D), Z.of_nat (length L) <= mlimit - n + 2 /\
    forall s g st, tiny_gen fuel n mlimit multi nl el fl sd info ([], s) = Ok (g, st) -> In g L.
Proof.
  intro HA. destruct (tiny_gen_split fuel n mlimit multi nl el fl sd info []) as (K & HK & Hm).
  exists (flat_map (fun i => match K (n - 1 + Z.of_nat i) with Ok (g, _) => [g] | Err _ => [] end) (seq 0 (Z.to_nat (mlimit - n + 2)))). split.
  - assert (G : forall l, (length (flat_map (fun i => match K (n - 1 + Z.of_nat i)%Z with Ok (g, _) => [g] | Err _ => [] end) l) <= length l)%nat).
    { induction l as [|x l IH]; cbn [flat_map length]; [lia|]. rewrite app_length. destruct (K (n - 1 + Z.of_nat x)) as [[g st]|e]; cbn [length]; lia. }
    specialize (G (seq 0 (Z.to_nat (mlimit - n + 2)))). rewrite seq_length in G.
    assert (n - 1 <= mlimit) by (unfold tiny_args in HA; tauto). lia.
  - intros s g st E. assert (X := tiny_gen_shape fuel n mlimit multi nl el fl sd info s HA). rewrite E in X. cbn [runs] in X. destruct st as [q s'].
    destruct X as (na & ea & _ & _ & _ & HB & _).
    rewrite HK in E. apply bind_inv in E. destruct E as (ml & _ & E). apply bind_inv in E. destruct E as (n1 & _ & E). apply bind_inv in E. destruct E as (m & _ & E).
    assert (Hg := Hm _ _ _ E). rewrite <- Hg in E. apply in_flat_map. exists (Z.to_nat (gr_m g - (n - 1))). split; [apply in_seq; lia|].
    replace (n - 1 + Z.of_nat (Z.to_nat (gr_m g - (n - 1)))) with (gr_m g) by lia. rewrite E. left. reflexivity.
Qed.
End Seed.

(** ** The first number after setSeed *)
Lemma first_bits fuel s k j c : 0 <= k <= j -> j <= 4 -> fst (next_bits 31 s) / 2 ^ (31 - j) = c -> next_int fuel (2 ^ k) s = Ok (c / 2 ^ (j - k), rng_step s).
Proof.
  intros Hk Hj X.
  assert (P : Z.land (2 ^ k) (- 2 ^ k) =? 2 ^ k = true) by (assert (k = 0 \/ k = 1 \/ k = 2 \/ k = 3 \/ k = 4) as [->|[->|[->|[->| ->]]]] by lia; reflexivity).
  unfold next_int. rewrite P. rewrite (proj2 (Z.leb_gt _ _)) by (apply Z.pow_pos_nonneg; lia). change (fst (next_bits 31 s)) with (Z.shiftr (rng_step s) (48 - 31)) in X. cbn [next_bits]. f_equal. f_equal.
  rewrite Z.shiftr_div_pow2 by lia. rewrite <- X. clear X. generalize (Z.shiftr (rng_step s) (48 - 31)). intros b.
  replace (2 ^ 31) with (2 ^ k * (2 ^ (31 - j) * 2 ^ (j - k))) by (rewrite <- !Z.pow_add_r by lia; f_equal; lia).
  assert (0 < 2 ^ k) by (apply Z.pow_pos_nonneg; lia). assert (0 < 2 ^ (31 - j)) by (apply Z.pow_pos_nonneg; lia).
  assert (0 < 2 ^ (j - k)) by (apply Z.pow_pos_nonneg; lia).
  rewrite Z.div_mul_cancel_l by nia. rewrite Z.div_div by lia. reflexivity.
Qed.
Lemma small_seeds fuel s : 0 <= s < 4096 -> next_int fuel 2 (set_seed s) = Ok (1, rng_step (set_seed s)).
Proof.
  intro H. assert (X : forallb (fun i => fst (next_bits 31 (set_seed (Z.of_nat i))) / 2 ^ 30 =? 1) (seq 0 (Z.to_nat 4096)) = true) by (vm_compute; reflexivity).
  rewrite forallb_forall in X. specialize (X (Z.to_nat s)). rewrite Z2Nat.id in X by lia.
  specialize (X ltac:(apply in_seq; lia)). apply Z.eqb_eq in X. exact (first_bits fuel (set_seed s) 1 1 1 ltac:(lia) ltac:(lia) X).
Qed.
Lemma smaller_seeds fuel s k : 0 <= s < 256 -> 0 <= k <= 4 -> next_int fuel (2 ^ k) (set_seed s) = Ok (11 / 2 ^ (4 - k), rng_step (set_seed s)).
Proof.
  intros H Hk. assert (X : forallb (fun i => fst (next_bits 31 (set_seed (Z.of_nat i))) / 2 ^ 27 =? 11) (seq 0 (Z.to_nat 256)) = true) by (vm_compute; reflexivity).
  rewrite forallb_forall in X. specialize (X (Z.to_nat s)). rewrite Z2Nat.id in X by lia.
  specialize (X ltac:(apply in_seq; lia)). apply Z.eqb_eq in X. apply first_bits; [lia|lia|exact X].
Qed.

(** ** The seed does not determine the number of edges *)
Definition edges_of (s : rng) : res Z :=
  '(g, _) <- @tiny_gen Z (exact_ops 4) (Z.to_nat 1000) 5 10 false (-2, 2) (-2, 6) (-10, 10) 1 true ([], s) ;; Ok (gr_m g).

Lemma seed_refutes : exists fuel n mlimit multi nl el fl sd s1 s2 g1 g2 st1 st2,
  tiny_args n mlimit multi nl el fl /\
  @tiny_gen Z (exact_ops 4) fuel n mlimit multi nl el fl sd true ([], s1) = Ok (g1, st1) /\
  @tiny_gen Z (exact_ops 4) fuel n mlimit multi nl el fl sd true ([], s2) = Ok (g2, st2) /\
  gr_m g1 <> gr_m g2.
Proof.
  assert (E0 : edges_of 0 = Ok 6) by (vm_compute; reflexivity). assert (E1 : edges_of 1 = Ok 9) by (vm_compute; reflexivity).
  unfold edges_of in *. apply bind_inv in E0. destruct E0 as ((g1 & st1) & H1 & E0). apply bind_inv in E1. destruct E1 as ((g2 & st2) & H2 & E1).
  inversion E0. inversion E1. exists (Z.to_nat 1000), 5, 10, false, (-2, 2), (-2, 6), (-10, 10), 1, 0, 1, g1, g2, st1, st2.
  split; [|split; [exact H1|split; [exact H2|lia]]]. unfold tiny_args, int_range, INT_MIN, INT_MAX; repeat split; intros; vm_compute; congruence.
Qed.
