(** * CycleGraph, WheelGraph and the graphs with one cycle *)
From Coq Require Import Permutation FinFun.
From Verif Require Import Base Data BaseLemmas ProblemDefine CostScaling Generator GenMore Spec GenSpec GenMoreSpec GenRng GenGraphProof GenWeb.
Local Open Scope Z_scope.

Lemma firstn_snoc (a : list Z) n : (n < length a)%nat -> firstn (S n) a = firstn n a ++ [nth n a 0].
Proof.
  intro H. pose proof (firstn_skipn n a) as FS. destruct (skipn n a) as [|y t] eqn:K.
  - apply (f_equal (@length _)) in K. rewrite skipn_length in K. cbn in K. lia.
  - assert (Y : nth n a 0 = y).
    { rewrite <- FS, app_nth2; rewrite firstn_length_le by lia; [|lia]. rewrite Nat.sub_diag. reflexivity. }
    rewrite Y. rewrite <- FS at 1. rewrite firstn_app, firstn_firstn, firstn_length_le by lia.
    replace (Nat.min (S n) n) with n by lia. replace (S n - n)%nat with 1%nat by lia. reflexivity.
Qed.

Lemma nth_firstn (a : list Z) n k : (k < n)%nat -> (n <= length a)%nat -> nth k (firstn n a) 0 = nth k a 0.
Proof. intros H L. rewrite <- (firstn_skipn n a) at 2. rewrite app_nth1; [reflexivity|rewrite firstn_length_le; lia]. Qed.

Lemma NoDup_firstn (a : list Z) n : NoDup a -> NoDup (firstn n a).
Proof.
  revert n. induction a as [|x a IH]; intros [|n] H; cbn; try constructor; inversion H; subst.
  - intro C. apply H2. rewrite <- (firstn_skipn n a). apply in_or_app. auto.
  - apply IH. assumption.
Qed.

Lemma in_firstn (a : list Z) n x : In x (firstn n a) -> In x a.
Proof. intro H. rewrite <- (firstn_skipn n a). apply in_or_app. auto. Qed.

Lemma new_not_in (a : list Z) n : NoDup a -> (n < length a)%nat -> ~ In (nth n a 0) (firstn n a).
Proof.
  intros ND L C. apply (In_nth _ _ 0) in C. destruct C as [k [Hk E]]. rewrite firstn_length_le in Hk by lia.
  rewrite nth_firstn in E by lia. apply (proj1 (NoDup_nth a 0) ND) in E; lia.
Qed.

Lemma map_nth_seq (a : list Z) : map (fun i => nth i a 0) (seq 0 (length a)) = a.
Proof.
  induction a as [|x a IH]; [reflexivity|]. cbn [length seq map nth]. f_equal. rewrite <- seq_shift, map_map. exact IH.
Qed.

Lemma ring_heads a : a <> [] -> map snd (ring_edges a) = a.
Proof.
  intro NN. destruct a as [|x a]; [congruence|]. unfold ring_edges, path_edges. rewrite map_app, map_map. cbn [map snd].
  rewrite <- (map_nth_seq (x :: a)) at 4. cbn [length]. rewrite seq_S, map_app, Nat.sub_succ, Nat.sub_0_r, <- seq_shift, map_map.
  cbn [map Nat.add]. f_equal. apply map_ext. intro i. rewrite Nat.sub_succ, Nat.sub_0_r. reflexivity.
Qed.

Lemma ring_tails a : a <> [] -> Permutation (map fst (ring_edges a)) a.
Proof.
  intro NN. destruct a as [|x a]; [congruence|]. unfold ring_edges, path_edges. rewrite map_app, map_map. cbn [map fst].
  rewrite <- (map_nth_seq (x :: a)) at 3. cbn [length seq map]. rewrite Nat.sub_succ, Nat.sub_0_r.
  apply Permutation_sym, Permutation_cons_append.
Qed.

Lemma same_true a b : same_edge true a b -> a = b.
Proof. intros [H|[H _]]; [exact H|discriminate]. Qed.

Lemma Forall2_true E F : Forall2 (same_edge true) E F -> E = F.
Proof. intro H. induction H as [|a b l l' S _ IH]; [reflexivity|]. rewrite (same_true _ _ S), IH. reflexivity. Qed.

Lemma drawn_weaken d E F : drawn_as d E F -> drawn_as false E F.
Proof.
  intros (E0 & P & H). exists E0. split; [exact P|]. clear P. induction H; constructor; auto. eapply same_undirected. eassumption.
Qed.

Lemma closed_ring d a : (3 <= length a)%nat -> closed d a = ring_edges a.
Proof. intro L. unfold closed. rewrite (proj2 (Nat.leb_gt _ _)) by (destruct d; lia). reflexivity. Qed.

(** ** CycleGraph *)
Lemma cycle_run_ok fuel g s : 1 <= g_node g <= INT_MAX -> g_multiply g = false -> g_self_loop g = false ->
  runs (rng_fuel fuel) (fun '(g', _) => same_params g g' /\ exists p, all_nodes (g_node g) p /\ drawn_as (g_direction g) (g_edge g') (closed (g_direction g) p))
    (cycle_run fuel g s).
Proof.
  intros HN Em Es. unfold cycle_run. destruct (iota_ok (g_node g)) as [p0 (E0 & A0 & L0 & _)]; [lia|]. rewrite E0. cbn [bind].
  eapply runs_bind; [apply shuffle_ok; lia|]. intros [p s1] P. pose proof (all_nodes_perm _ _ _ P A0) as A.
  assert (L : Z.of_nat (length p) = g_node g) by (rewrite <- (Permutation_length P); exact L0).
  eapply runs_bind; [apply cycle_from_ok; [apply A| |exact Em|exact Es]; destruct p; [cbn in L; lia|discriminate]|].
  intros [g' s2] (E & e & -> & F). cbn [with_edges g_edge g_e].
  pose proof (drawn_length _ _ _ (drawn_forall _ _ _ F)) as LE.
  assert (LC : (length (closed (g_direction g) p) <= length p)%nat).
  { unfold closed. destruct (length p <=? _)%nat; [rewrite path_length; lia|]. rewrite ring_length; [lia|]. destruct p; [cbn in L; lia|discriminate]. }
  eapply runs_bind; [apply shuffle_ok; lia|]. intros [E' s3] P'. cbn [runs]. split; [unfold same_params; cbn; tauto|].
  exists p. split; [exact A|]. cbn [with_edges g_edge]. apply (drawn_perm _ E); [exact P'|]. apply drawn_forall. exact F.
Qed.

Lemma ring_nodes N p E d : 3 <= N -> all_nodes N p -> drawn_as d E (ring_edges p) -> Z.of_nat (length E) = N /\ simple_connected N E.
Proof.
  intros HN A D. pose proof (all_nodes_length N p ltac:(lia) A) as L. split.
  - rewrite (drawn_length _ _ _ D), ring_length; [exact L|]. destruct p; [cbn in L; lia|discriminate].
  - apply (web_nodes N p); [apply A|]. eapply web_drawn; [exact D|]. apply ring_web; [apply A|lia].
Qed.

Theorem cycle_graph fuel g s : 3 <= g_node g <= INT_MAX -> g_multiply g = false -> g_self_loop g = false -> rng_fuel fuel ->
  exists g' s', cycle_run fuel g s = Ok (g', s') /\ Z.of_nat (length (g_edge g')) = g_node g /\ simple_connected (g_node g) (g_edge g') /\
    exists p, all_nodes (g_node g) p /\ drawn_as (g_direction g) (g_edge g') (ring_edges p).
Proof.
  intros HN Em Es Hf. destruct (runs_ok _ _ _ (cycle_run_ok fuel g s ltac:(lia) Em Es) Hf) as [[g' s'] (E & _ & p & A & D)].
  pose proof (all_nodes_length (g_node g) p ltac:(lia) A) as L. rewrite closed_ring in D by lia.
  exists g', s'. split; [exact E|]. destruct (ring_nodes (g_node g) _ _ _ ltac:(lia) A D) as [H1 H2]. split; [exact H1|]. split; [exact H2|].
  exists p. auto.
Qed.

(** ** WheelGraph *)
Lemma spokes_web l E h q : web l E -> ~ In h l -> q <> [] -> NoDup q -> (forall x, In x q -> In x l) ->
  web (l ++ [h]) (E ++ map (fun x => (h, x)) q).
Proof.
  intros W NH. induction q as [|x q IH] using rev_ind; intros NN ND INC; [congruence|].
  rewrite map_app, app_assoc. cbn [map]. apply NoDup_remove in ND. rewrite app_nil_r in ND. destruct ND as [ND NX].
  destruct q as [|y q].
  - cbn [map]. rewrite app_nil_r. apply (web_grow _ _ h x); [exact W|exact NH|apply INC; left; reflexivity|left; reflexivity].
  - apply (web_close _ _ h x).
    + apply IH; [discriminate|exact ND|]. intros z Hz. apply INC. apply in_or_app. auto.
    + apply in_or_app. right. left. reflexivity.
    + apply in_or_app. left. apply INC. apply in_or_app. right. left. reflexivity.
    + intros ->. apply NH. apply INC. apply in_or_app. right. left. reflexivity.
    + intros [u v] Hb S. apply in_app_or in Hb. destruct Hb as [Hb|Hb].
      * destruct (proj1 W u v Hb) as (A & B & _). destruct S as [[= -> ->]|[_ [= -> ->]]]; contradiction.
      * apply in_map_iff in Hb. destruct Hb as [z [[= <- <-] Hz]]. destruct S as [[= ->]|[_ [= -> ->]]]; [contradiction|].
        apply NH. apply INC. apply in_or_app. auto.
    + left. reflexivity.
Qed.

Lemma wheel_run_ok fuel g s : 2 <= g_node g -> 2 * g_node g <= INT_MAX -> g_multiply g = false -> g_self_loop g = false ->
  runs (rng_fuel fuel) (fun '(g', _) => same_params g g' /\ exists h p, all_nodes (g_node g) (h :: p) /\
     drawn_as false (g_edge g') (closed false p ++ map (fun x => (h, x)) p)) (wheel_run fuel g s).
Proof.
  intros HN HX Em Es. unfold wheel_run. destruct (iota_ok (g_node g)) as [p0 (E0 & A0 & L0 & _)]; [lia|]. rewrite E0. cbn [bind].
  eapply runs_bind; [apply shuffle_ok; lia|]. intros [p s1] P. pose proof (all_nodes_perm _ _ _ P A0) as A.
  assert (L : Z.of_nat (length p) = g_node g) by (rewrite <- (Permutation_length P); exact L0).
  destruct p as [|h p]; [cbn in L; lia|]. cbn [length] in L. unfold wheel_from.
  assert (ND : NoDup p) by (destruct A as [A _]; inversion A; assumption).
  assert (NN : p <> []) by (destruct p; [cbn in L; lia|discriminate]).
  eapply runs_bind; [apply cycle_from_ok; [exact ND|exact NN|reflexivity|reflexivity]|].
  intros [c s2] (E & e & -> & F). cbn [with_edges g_edge g_e new_cycle g_direction] in *.
  eapply runs_bind.
  - apply (runs_for _ _ _ (fun pre '(g', _) => same_params g g' /\ exists E1, g_edge g' = E ++ E1 /\ Forall2 (same_edge false) E1 (map (fun x => (h, x)) pre))).
    + split; [unfold same_params; cbn; tauto|]. exists []. split; [cbn; rewrite app_nil_r; reflexivity|constructor].
    + intros pre x suf [g' s'] _ (SP & E1 & EE & F1). eapply runs_weaken; [apply add_plain|auto|].
      intros [g'' s''] (b & S & ->). split; [unfold same_params in *; cbn; tauto|]. exists (E1 ++ [b]). cbn [with_edges g_edge].
      rewrite EE, app_assoc. split; [reflexivity|]. rewrite map_app. apply Forall2_snoc; [exact F1|]. eapply same_undirected. exact S.
  - intros [g' s'] (SP & E1 & EE & F1).
    assert (LE : (length (g_edge g') <= 2 * length p)%nat).
    { rewrite EE, app_length, (drawn_length _ _ _ (drawn_forall _ _ _ F)), (drawn_length _ _ _ (drawn_forall _ _ _ F1)), map_length.
      unfold closed. destruct (length p <=? _)%nat; [rewrite path_length; lia|rewrite ring_length by exact NN; lia]. }
    eapply runs_bind; [apply shuffle_ok; lia|]. intros [E' s3] P'. cbn [runs]. split; [unfold same_params in *; cbn; tauto|].
    exists h, p. split; [exact A|]. cbn [with_edges g_edge]. apply (drawn_perm _ _ _ _ P'). rewrite EE. apply drawn_forall.
    apply Forall2_app; assumption.
Qed.

Theorem wheel_graph fuel g s : 4 <= g_node g -> 2 * g_node g <= INT_MAX -> g_multiply g = false -> g_self_loop g = false -> rng_fuel fuel ->
  exists g' s', wheel_run fuel g s = Ok (g', s') /\ Z.of_nat (length (g_edge g')) = 2 * g_node g - 2 /\ simple_connected (g_node g) (g_edge g') /\
    exists hub rim, all_nodes (g_node g) (hub :: rim) /\ drawn_as false (g_edge g') (ring_edges rim ++ map (fun x => (hub, x)) rim).
Proof.
  intros HN HX Em Es Hf. destruct (runs_ok _ _ _ (wheel_run_ok fuel g s ltac:(lia) HX Em Es) Hf) as [[g' s'] (E & _ & h & p & A & D)].
  pose proof (all_nodes_length (g_node g) _ ltac:(lia) A) as L. cbn [length] in L. rewrite closed_ring in D by lia.
  assert (NN : p <> []) by (destruct p; [cbn in L; lia|discriminate]).
  exists g', s'. split; [exact E|]. split; [|split].
  - rewrite (drawn_length _ _ _ D), app_length, map_length, ring_length by exact NN. lia.
  - apply (web_nodes _ (p ++ [h])).
    + intro x. rewrite <- (proj2 A x), in_app_iff. cbn. tauto.
    + eapply web_drawn; [exact D|]. destruct A as [ND _]. inversion ND; subst. apply spokes_web; auto. apply ring_web; [assumption|lia].
  - exists h, p. auto.
Qed.

(** ** Graphs with one cycle *)
Definition pseudo_ends (out : bool) (e : Z * Z) : Z := if out then snd e else fst e.

Lemma pseudo_run_ok round out fuel g size s : 3 <= g_node g <= INT_MAX -> size = -1 \/ 3 <= size -> g_direction g = round ->
  runs (rng_fuel fuel) (fun '(g', _) => same_params g g' /\ Z.of_nat (length (g_edge g')) = g_node g /\ simple_connected (g_node g) (g_edge g') /\
     (round = true -> all_nodes (g_node g) (map (pseudo_ends out) (g_edge g'))) /\
     exists k, 3 <= k <= g_node g /\ (size <> -1 -> k = Z.min size (g_node g)) /\ has_ring round k (g_edge g')) (pseudo_run round out fuel g size s).
Proof.
  intros HN HS Ed. unfold pseudo_run.
  apply (runs_bind _ (fun '(k, _) => 3 <= k /\ (size = -1 -> k <= g_node g) /\ (size <> -1 -> k = size))).
  { destruct (Z.eqb_spec size (-1)) as [Hs|Hs].
    - eapply runs_weaken; [apply (next_range_ok fuel 3 (g_node g) s); unfold INT_MIN; lia|auto|]. intros [k s'] [Hk _]. split; [lia|]. split; [lia|contradiction].
    - cbn. lia. }
  intros [k0 s0] (K1 & K2 & K3). set (k := Z.min k0 (g_node g)).
  assert (KR : 3 <= k <= g_node g) by (unfold k; lia).
  assert (KS : size <> -1 -> k = Z.min size (g_node g)) by (unfold k; intro H; rewrite (K3 H); reflexivity).
  clearbody k. clear K1 K2 K3 k0. cbn zeta.
  destruct (iota_ok (g_node g)) as [p0 (E0 & A0 & L0 & _)]; [lia|]. rewrite E0. cbn [bind].
  eapply runs_bind; [apply shuffle_ok; lia|]. intros [p s1] P. pose proof (all_nodes_perm _ _ _ P A0) as A.
  assert (L : Z.of_nat (length p) = g_node g) by (rewrite <- (Permutation_length P); exact L0).
  rewrite (proj2 (Z.ltb_ge k 0)) by lia. cbn [bind].
  assert (ND : NoDup (firstn (Z.to_nat k) p)) by (apply NoDup_firstn, A).
  assert (LF : length (firstn (Z.to_nat k) p) = Z.to_nat k) by (apply firstn_length_le; lia).
  assert (NN : firstn (Z.to_nat k) p <> []) by (intro C; rewrite C in LF; cbn in LF; lia).
  eapply runs_bind; [apply cycle_from_ok; [exact ND|exact NN|reflexivity|reflexivity]|].
  intros [c s2] (E & e & -> & F). cbn [with_edges g_edge g_e new_cycle set_direction g_direction] in *.
  rewrite closed_ring in F by lia.
  assert (LE : length E = Z.to_nat k) by (rewrite (drawn_length _ _ _ (drawn_forall _ _ _ F)), ring_length by exact NN; exact LF).
  eapply runs_bind.
  - apply (runs_for _ _ _ (fun pre '(g', _) => same_params g g' /\ (forall x, In x E -> In x (g_edge g')) /\
       length (g_edge g') = (Z.to_nat k + length pre)%nat /\ web (firstn (Z.to_nat k + length pre) p) (g_edge g') /\
       (round = true -> Permutation (map (pseudo_ends out) (g_edge g')) (firstn (Z.to_nat k + length pre) p)))).
    + cbn [length with_edges g_edge]. rewrite Nat.add_0_r. split; [unfold same_params; cbn; tauto|]. split; [auto|]. split; [exact LE|]. split.
      * eapply web_drawn; [apply drawn_forall; exact F|]. apply ring_web; [exact ND|lia].
      * intro Er. subst round. rewrite Er in F. rewrite (Forall2_true _ _ F). unfold pseudo_ends. destruct out.
        -- rewrite ring_heads by exact NN. apply Permutation_refl.
        -- apply ring_tails. exact NN.
    + intros pre i suf [g' s'] Eq (SP & IN & LG & W & HP). cbn [g_node with_edges] in Eq. destruct (seq_pre _ _ _ _ _ Eq) as (Ei & Li & _).
      rewrite app_length. cbn [length]. replace (Z.to_nat k + (length pre + 1))%nat with (S i) by lia. rewrite <- Ei in *.
      eapply runs_bind; [apply next_int_ok; lia|]. intros [f s3] [Hf _].
      rewrite (vget_nth p i 0), (vget_nth p (Z.to_nat f) 0) by lia. cbn [bind].
      assert (X : runs (rng_fuel fuel) (fun '(g'', _) => exists b e', (if round then b = (if out then (nth (Z.to_nat f) p 0, nth i p 0) else (nth i p 0, nth (Z.to_nat f) p 0))
           else same_edge false b (nth i p 0, nth (Z.to_nat f) p 0)) /\ g'' = with_edges g' (g_edge g' ++ [b]) e')
         (if out then gen_add_edge fuel g' (nth (Z.to_nat f) p 0) (nth i p 0) s3 else gen_add_edge fuel g' (nth i p 0) (nth (Z.to_nat f) p 0) s3)).
      { assert (Ed' : g_direction g' = round) by (unfold same_params in SP; intuition congruence).
        destruct out; (eapply runs_weaken; [apply add_plain|auto|]; intros [g'' s''] (b & S & ->); rewrite Ed' in S; exists b; eexists; (split; [|reflexivity])).
        - destruct round; [apply same_true; exact S|]. eapply same_trans; [exact S|right; auto].
        - destruct round; [apply same_true; exact S|exact S]. }
      eapply runs_weaken; [exact X|auto|]. intros [g'' s''] (b & e' & S & ->). cbn [with_edges g_edge].
      rewrite (firstn_snoc p i) by lia.
      split; [unfold same_params in *; cbn; tauto|]. split; [intros x Hx; apply in_or_app; auto|].
      split; [rewrite app_length; cbn; lia|]. split.
      * apply (web_grow _ _ (nth i p 0) (nth (Z.to_nat f) p 0)).
        -- exact W.
        -- apply new_not_in; [apply A|lia].
        -- rewrite <- (nth_firstn p i) by lia. apply nth_In. rewrite firstn_length_le; lia.
        -- destruct round; [subst b; destruct out; [right; auto|left; reflexivity]|exact S].
      * intro Er. rewrite Er in S. rewrite map_app. cbn [map]. apply Permutation_app; [apply HP; exact Er|].
        subst b. unfold pseudo_ends. destruct out; apply Permutation_refl.
  - intros [g' s'] (SP & IN & LG & W & HP). cbn [g_node with_edges] in *. rewrite seq_length in *.
    replace (Z.to_nat k + Z.to_nat (g_node g - k))%nat with (length p) in * by lia. rewrite firstn_all in *.
    eapply runs_bind; [apply shuffle_ok; lia|]. intros [E' s3] P'. cbn [runs with_edges g_edge].
    split; [unfold same_params in *; cbn; tauto|]. split; [rewrite <- (Permutation_length P'); lia|]. split; [|split].
    + apply (web_nodes _ p); [apply A|]. apply (web_perm _ _ _ P' W).
    + intro Er. apply (all_nodes_perm _ p); [|exact A]. eapply Permutation_trans; [apply Permutation_sym, HP; exact Er|].
      apply Permutation_map. exact P'.
    + exists k. split; [lia|]. split; [exact KS|]. exists (firstn (Z.to_nat k) p). split; [exact ND|]. split; [rewrite LF; lia|].
      intros x Hx. destruct (Forall2_in_r _ _ _ F x Hx) as [x' [Hx' S]]. exists x'. split; [|exact S].
      apply (Permutation_in _ P'). apply IN. exact Hx'.
Qed.

Theorem pseudo_tree fuel g size s : 3 <= g_node g <= INT_MAX -> size = -1 \/ 3 <= size -> g_direction g = false -> rng_fuel fuel ->
  exists g' s', pseudo_tree_run fuel g size s = Ok (g', s') /\ Z.of_nat (length (g_edge g')) = g_node g /\ simple_connected (g_node g) (g_edge g') /\
    exists k, 3 <= k <= g_node g /\ (size <> -1 -> k = Z.min size (g_node g)) /\ has_ring false k (g_edge g').
Proof.
  intros HN HS Ed Hf. destruct (runs_ok _ _ _ (pseudo_run_ok false false fuel g size s HN HS Ed) Hf) as [[g' s'] (E & _ & H1 & H2 & _ & H3)].
  exists g', s'. auto.
Qed.

Theorem pseudo_in_tree fuel g size s : 3 <= g_node g <= INT_MAX -> size = -1 \/ 3 <= size -> g_direction g = true -> rng_fuel fuel ->
  exists g' s', pseudo_in_tree_run fuel g size s = Ok (g', s') /\ Z.of_nat (length (g_edge g')) = g_node g /\ simple_connected (g_node g) (g_edge g') /\
    all_nodes (g_node g) (map fst (g_edge g')) /\
    exists k, 3 <= k <= g_node g /\ (size <> -1 -> k = Z.min size (g_node g)) /\ has_ring true k (g_edge g').
Proof.
  intros HN HS Ed Hf. destruct (runs_ok _ _ _ (pseudo_run_ok true false fuel g size s HN HS Ed) Hf) as [[g' s'] (E & _ & H1 & H2 & H4 & H3)].
  exists g', s'. split; [exact E|]. split; [exact H1|]. split; [exact H2|]. split; [exact (H4 eq_refl)|exact H3].
Qed.

Theorem pseudo_out_tree fuel g size s : 3 <= g_node g <= INT_MAX -> size = -1 \/ 3 <= size -> g_direction g = true -> rng_fuel fuel ->
  exists g' s', pseudo_out_tree_run fuel g size s = Ok (g', s') /\ Z.of_nat (length (g_edge g')) = g_node g /\ simple_connected (g_node g) (g_edge g') /\
    all_nodes (g_node g) (map snd (g_edge g')) /\
    exists k, 3 <= k <= g_node g /\ (size <> -1 -> k = Z.min size (g_node g)) /\ has_ring true k (g_edge g').
Proof.
  intros HN HS Ed Hf. destruct (runs_ok _ _ _ (pseudo_run_ok true true fuel g size s HN HS Ed) Hf) as [[g' s'] (E & _ & H1 & H2 & H4 & H3)].
  exists g', s'. split; [exact E|]. split; [exact H1|]. split; [exact H2|]. split; [exact (H4 eq_refl)|exact H3].
Qed.
