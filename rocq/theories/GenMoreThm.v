(** * The generators of gen.h as a whole, and settings for which they fail *)
From Coq Require Import Permutation.
From Verif Require Import Base Data BaseLemmas ProblemDefine CostScaling Generator GenMore Spec GenSpec GenMoreSpec GenRng GenGraphProof GenWeb GenShapes GenTrees GenCactus GenParts GenBipartite GenGrid.
Local Open Scope Z_scope.

Lemma safe_of {A} (P : A -> Prop) m : runs False P m -> (exists a, m = Ok a /\ P a) \/ m = Err OutOfFuel.
Proof. destruct m as [a|e]; cbn; [left; exists a; auto|intros [-> _]; auto]. Qed.

(** ** RootTree *)
Theorem root_tree_all fuel t s : 1 <= rt_node t <= INT_MAX -> 0 <= rt_root t < rt_node t -> rng_fuel fuel ->
  exists E father s', root_tree_run fuel t s = Ok (E, father, s') /\ Z.of_nat (length E) = rt_node t - 1 /\ simple_connected (rt_node t) E /\
    rooted_tree (rt_node t) (rt_root t) (rt_rootfather t) father E.
Proof.
  intros H1 H2 Hf. destruct (runs_ok _ _ _ (root_tree_ok fuel t s H1 H2) Hf) as [[[E father] s'] (X & Y)]. exists E, father, s'. auto.
Qed.

(** ** DAG *)
Theorem dag_all fuel g s : 1 <= g_node g <= INT_MAX -> 0 <= g_side g <= INT_MAX -> g_direction g = true -> g_self_loop g = false ->
  (g_multiply g = false -> g_node g * (g_node g - 1) <= INT_MAX) -> drawable (g_multiply g) (g_node g) -> rng_fuel fuel ->
  exists g' s', dag_run fuel g s = Ok (g', s') /\ Z.of_nat (length (g_edge g')) = dag_wanted g /\
     nodes_in (g_node g) (g_edge g') /\ acyclic (g_edge g') /\ (g_multiply g = false -> no_repetition true (g_edge g')) /\
     (g_connect g = true -> connected (g_node g) (g_edge g')).
Proof.
  intros H1 H2 H3 H4 H5 HD Hf. destruct (runs_ok _ _ _ (dag_run_ok fuel g s H1 H2 H3 H4 H5) (conj Hf HD)) as [[g' s'] (X & Y)]. exists g', s'. auto.
Qed.

Theorem dag_overflow fuel g s : 46342 <= g_node g <= INT_MAX -> g_multiply g = false -> dag_run fuel g s = Err IntOverflow.
Proof.
  intros H Em. unfold dag_run. cbn [with_edges g_node g_multiply]. rewrite Em. destruct (iota_ok (g_node g)) as [p (-> & _)]; [lia|]. cbn [bind].
  rewrite ck_ok by (unfold INT_MIN; lia). cbn [bind]. unfold ck. destruct (Z.leb_spec INT_MIN (g_node g * (g_node g - 1))) as [A|A];
    [|reflexivity]. destruct (Z.leb_spec (g_node g * (g_node g - 1)) INT_MAX) as [B|B]; [|reflexivity]. unfold INT_MAX in *. nia.
Qed.

(** ** BipartiteGraph *)
Theorem bipartite_all fuel g left s : 2 <= g_node g <= INT_MAX - 1 -> 0 <= g_side g <= INT_MAX -> g_self_loop g = false ->
  left = -1 /\ (g_multiply g = false -> g_node g / 2 * ((g_node g + 1) / 2) <= INT_MAX) \/
  1 <= left < g_node g /\ (g_connect g = true -> 2 * left <= g_node g + 1) ->
  (exists g' s', bipartite_run fuel g left s = Ok (g', s') /\
     Z.of_nat (length (g_edge g')) = bipartite_wanted g left /\ nodes_in (g_node g) (g_edge g') /\
     (g_multiply g = false -> no_repetition (g_direction g) (g_edge g')) /\ (g_connect g = true -> connected (g_node g) (g_edge g')) /\
     exists A, NoDup A /\ (forall x, In x A -> 0 <= x < g_node g) /\
       (if left =? -1 then 1 <= Z.of_nat (length A) <= g_node g / 2 else Z.of_nat (length A) = left) /\ two_sides A (g_edge g')) \/
  bipartite_run fuel g left s = Err OutOfFuel.
Proof.
  intros H1 H2 H3 H4. destruct (safe_of _ _ (bipartite_run_ok fuel g left s H1 H2 H3 H4)) as [[[g' s'] (E & H)]|E]; [left|right; exact E].
  exists g', s'. auto.
Qed.

Definition lone : gen_graph := mkGen 1 0 [] [] false false false false.
Lemma lone_refutes fuel s : bipartite_run fuel lone (-1) s = Err BadCall.
Proof. destruct fuel; reflexivity. Qed.

Definition wide : gen_graph := mkGen 200000 100000 [] [] false false false false.
Lemma wide_refutes fuel s : (1 <= fuel)%nat -> bipartite_run fuel wide (-1) s = Err IntOverflow.
Proof. destruct fuel; [lia|reflexivity]. Qed.

Definition lopsided : gen_graph := mkGen 4 3 [] [] false false false true.
Lemma lopsided_refutes : bipartite_run 1000 lopsided 3 1 = Err OutOfBounds.
Proof. vm_compute. reflexivity. Qed.

(** ** Small cycles and wheels *)
Lemma cycle_1 fuel s : exists g' s', cycle_run fuel (new_cycle 1) s = Ok (g', s') /\ g_edge g' = [].
Proof. eexists _, _. split; reflexivity. Qed.
Lemma cycle_2 : exists g' s', cycle_run 1000 (new_cycle 2) 1 = Ok (g', s') /\ length (g_edge g') = 1%nat.
Proof. eexists _, _. split; [vm_compute; reflexivity|reflexivity]. Qed.
Lemma wheel_1 fuel s : wheel_run fuel (new_wheel 1) s = Err OutOfBounds.
Proof. reflexivity. Qed.
Lemma wheel_3 : exists g' s', wheel_run 1000 (new_wheel 3) 1 = Ok (g', s') /\ length (g_edge g') = 3%nat.
Proof. eexists _, _. split; [vm_compute; reflexivity|reflexivity]. Qed.

(** ** Cactus *)
Lemma cactus_1 fuel m s : rng_fuel fuel -> cactus_run fuel (new_cactus 1 m) s = Err OutOfBounds.
Proof.
  intro Hf. unfold cactus_run. cbn [g_node g_side new_cactus]. change (ck (1 - 1)) with (Ok 0). cbn [bind]. change (ck (0 + Z.quot 0 2)) with (Ok 0). cbn [bind].
  replace (if 0 <? (if m <? 0 then 0 else m) then 0 else if m <? 0 then 0 else m) with 0.
  { change (iota 1) with (Ok [0]). cbn [bind]. change (shuffle fuel 0 [0] s) with (Ok ([0], s)). cbn [bind].
    change (cactus_cycles [0] (0 - 0)) with (Ok (@nil (list Z))). cbn [bind]. change (1 - (2 * (0 - 0) + 1)) with 0.
    destruct (runs_ok _ _ _ (next_range_ok fuel 0 0 s ltac:(unfold INT_MIN; lia) ltac:(unfold INT_MAX; lia) ltac:(lia)) Hf) as [[add s'] (E & _)].
    rewrite E. reflexivity. }
  destruct (Z.ltb_spec m 0); [reflexivity|]. destruct (Z.ltb_spec 0 m); lia.
Qed.

(** ** GridGraph *)
Theorem grid_all fuel g s : 2 <= g_node g -> 16 * g_node g <= INT_MAX -> 0 <= g_side g <= INT_MAX -> g_self_loop g = false ->
  (exists g' s' row, grid_run fuel g s = Ok (g', s') /\ 1 <= row <= g_node g /\
     grid_amount g row (Z.of_nat (length (g_edge g'))) /\ grid_result g row (g_edge g')) \/
  grid_run fuel g s = Err OutOfFuel.
Proof.
  intros H1 H2 H3 H4. destruct (safe_of _ _ (grid_run_ok fuel g s H1 H2 H3 H4)) as [[[g' s'] (E & row & H)]|E]; [left|right; exact E].
  exists g', s', row. auto.
Qed.

Lemma grid_1 fuel m s : 0 < m <= INT_MAX -> grid_run fuel (new_grid 1 m) s = Err OutOfBounds.
Proof.
  intro H. unfold grid_run. cbn [with_edges g_node g_multiply new_grid].
  change (iota 1) with (Ok [0]). cbn [bind].
  assert (E : grid_shapes (with_edges (new_grid 1 m) [] []) = Ok (0, 0, [])).
  { unfold grid_shapes. cbn. destruct m; [lia|reflexivity|lia]. }
  rewrite E. cbn [bind]. reflexivity.
Qed.

Definition two_way : gen_graph := mkGen 2 30 [] [] true false false true.
Lemma two_way_endless fuel s : grid_run fuel two_way s = Err OutOfFuel.
Proof.
  destruct (grid_all fuel two_way s) as [(g' & s' & row & _ & Hr & A & N & L & R & _)|E]; [cbn; unfold INT_MAX; lia..|reflexivity| |exact E].
  exfalso. specialize (R eq_refl). cbn in Hr. assert (X : row = 1 \/ row = 2) by lia.
  assert (LE : length (g_edge g') = 4%nat).
  { destruct A as [[A _]|[_ A]]; destruct X as [-> | ->]; [exfalso; vm_compute in A; apply A; reflexivity..| |]; change (Z.of_nat (length (g_edge g')) = 4) in A; lia. }
  destruct (g_edge g') as [|[a b] [|[c d] [|[e f] l]]] eqn:E; cbn in LE; try lia.
  destruct (N a b ltac:(left; reflexivity)), (N c d ltac:(right; left; reflexivity)), (N e f ltac:(right; right; left; reflexivity)).
  pose proof (L a b ltac:(left; reflexivity)). pose proof (L c d ltac:(right; left; reflexivity)). pose proof (L e f ltac:(right; right; left; reflexivity)).
  assert (X1 := R 0%nat 1%nat _ _ eq_refl eq_refl). assert (X2 := R 0%nat 2%nat _ _ eq_refl eq_refl). assert (X3 := R 1%nat 2%nat _ _ eq_refl eq_refl).
  unfold same_edge in *. cbn in *.
  assert (a = 0 /\ b = 1 \/ a = 1 /\ b = 0) by lia. assert (c = 0 /\ d = 1 \/ c = 1 /\ d = 0) by lia. assert (e = 0 /\ f = 1 \/ e = 1 /\ f = 0) by lia.
  assert (Y1 : ~ (a = c /\ b = d)) by (intros [-> ->]; discriminate (X1 (or_introl eq_refl))).
  assert (Y2 : ~ (a = e /\ b = f)) by (intros [-> ->]; discriminate (X2 (or_introl eq_refl))).
  assert (Y3 : ~ (c = e /\ d = f)) by (intros [-> ->]; discriminate (X3 (or_introl eq_refl))).
  lia.
Qed.

(** ** Numbers of edges of grids *)
Lemma grid_ignores : exists g' s', grid_run 1000 (new_grid 4 3) 200000000 = Ok (g', s') /\ length (g_edge g') <> 3%nat.
Proof. eexists _, _. split; [vm_compute; reflexivity|discriminate]. Qed.

Lemma grid_miscounts : exists N row l, 1 <= row <= N /\ NoDup l /\
  (forall x y, In (x, y) l -> 0 <= x < N /\ 0 <= y < N /\ beside (columns N row) x y) /\ grid_pairs N row < Z.of_nat (length l).
Proof.
  exists 5, 4, [(0, 1); (2, 3); (0, 2); (1, 3); (2, 4)]. split; [lia|]. split; [repeat constructor; cbn; intuition discriminate|]. split.
  - intros x y H. cbn in H. unfold beside. change (columns 5 4) with 2.
    destruct H as [[= <- <-]|[[= <- <-]|[[= <- <-]|[[= <- <-]|[[= <- <-]|[]]]]]]; (split; [lia|split; [lia|]]); try (right; reflexivity); left; split; [lia|discriminate|lia|discriminate].
  - vm_compute. reflexivity.
Qed.
