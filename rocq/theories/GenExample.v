(** * Examples and counterexamples for the generators *)
From Verif Require Import Base Data BaseLemmas ProblemDefine ProblemSolver Oracles CostScaling Generator TestSuite Spec GenSpec GenRng GenGraphProof GenProof GenTable GenExact TestProof.
Local Open Scope Z_scope.

(** ** The random numbers *)
Lemma iter_steps k s : Nat.iter k rng_step s = steps k s.
Proof. induction k as [|k IH]; [reflexivity|]. rewrite steps_S, <- IH. reflexivity. Qed.

Lemma full_period s t : 0 <= t < 2 ^ 48 -> exists k : nat, (1 <= k)%nat /\ Z.of_nat k <= 2 ^ 48 /\ Nat.iter k rng_step s = t.
Proof. intro H. destruct (orbit s t H) as (k & H1 & H2 & H3). exists k. rewrite iter_steps. auto. Qed.

Lemma next_ok fuel n s : 1 <= n <= INT_MAX -> 2 ^ 48 + 2 <= Z.of_nat fuel ->
  exists r s', next_int fuel n s = Ok (r, s') /\ 0 <= r < n /\ 0 <= s' < 2 ^ 48.
Proof.
  intros Hn Hf. destruct (runs_ok _ _ _ (next_int_ok fuel n s ltac:(lia)) Hf) as ([r s'] & E & H1 & H2). exists r, s'. auto.
Qed.

Lemma next_between fuel from to s : INT_MIN <= from -> from <= to -> to <= INT_MAX -> 2 ^ 48 + 2 <= Z.of_nat fuel ->
  exists r s', next_range fuel from to s = Ok (r, s') /\ from <= r <= to /\ 0 <= s' < 2 ^ 48.
Proof.
  intros H1 H2 H3 Hf. destruct (runs_ok _ _ _ (next_range_ok fuel from to s H1 H3 H2) Hf) as ([r s'] & E & H4 & H5). exists r, s'. auto.
Qed.

(** ** Graphs *)
Lemma gen_graph_safe fuel g s : 1 <= g_node g <= INT_MAX -> 0 <= g_side g <= INT_MAX ->
  (exists g' s', gen_graph_run fuel g s = Ok (g', s') /\
     Z.of_nat (length (g_edge g')) = edges_wanted g /\ nodes_in (g_node g) (g_edge g') /\
     (g_self_loop g = false -> forall u v, In (u, v) (g_edge g') -> u <> v) /\
     (g_multiply g = false -> no_repetition (g_direction g) (g_edge g')) /\
     (g_connect g = true -> connected (g_node g) (g_edge g'))) \/
  gen_graph_run fuel g s = Err OutOfFuel.
Proof.
  intros H1 H2. assert (X := gen_graph_run_ok fuel g s ltac:(lia) H2).
  destruct (gen_graph_run fuel g s) as [[g' s']|e]; cbn [runs] in X.
  - left. exists g', s'. destruct X as (_ & X). split; [reflexivity|exact X].
  - right. destruct X as [-> _]. reflexivity.
Qed.

Lemma gen_graph_ends fuel g s : 1 <= g_node g <= INT_MAX -> 0 <= g_side g <= INT_MAX ->
  g_direction g = false -> g_self_loop g = false -> drawable (g_multiply g) (g_node g) ->
  2 ^ 48 + 2 <= Z.of_nat fuel -> exists g' s', gen_graph_run fuel g s = Ok (g', s').
Proof.
  intros H1 H2 H3 H4 H6 H7. assert (X := gen_graph_run_ok fuel g s ltac:(lia) H2).
  destruct (gen_graph_run fuel g s) as [[g' s']|e]; cbn [runs] in X; [eauto|].
  exfalso. destruct X as [_ X]. apply X. auto.
Qed.

(** directed with loops: twice as many loops are asked for as exist *)
Definition crowded : gen_graph := mkGen 1 2 [] [] true false true false.

Lemma crowded_endless fuel s : gen_graph_run fuel crowded s = Err OutOfFuel.
Proof.
  destruct (gen_graph_safe fuel crowded s) as [(g' & s' & _ & L & N & _ & R & _)|E]; [cbn; unfold INT_MAX; lia..| |exact E].
  exfalso. specialize (R eq_refl). cbn in L, N. destruct (g_edge g') as [|[a b] [|[c d] [|? ?]]] eqn:E; cbn in L; try lia.
  destruct (N a b ltac:(left; reflexivity)), (N c d ltac:(right; left; reflexivity)).
  assert (X := R 0%nat 1%nat _ _ eq_refl eq_refl). assert (a = 0) by lia. assert (b = 0) by lia. assert (c = 0) by lia. assert (d = 0) by lia. subst.
  discriminate (X (or_introl eq_refl)).
Qed.

Lemma crowded_refutes : exists g, 1 <= g_node g <= INT_MAX /\ 0 <= g_side g <= INT_MAX /\ forall fuel s, gen_graph_run fuel g s = Err OutOfFuel.
Proof. exists crowded. split; [cbn; unfold INT_MAX; lia|]. split; [cbn; unfold INT_MAX; lia|exact crowded_endless]. Qed.

(** ** TinyGen *)
Lemma tiny_gen_result unit fuel n mlimit multi nl el fl sd s :
  tiny_args n mlimit multi nl el fl -> drawable multi n -> 2 ^ 48 + 2 <= Z.of_nat fuel ->
  exists g s', @tiny_gen Z (exact_ops (4 * unit)) fuel n mlimit multi nl el fl sd true ([], s) = Ok (g, ([], s')) /\
    tiny_result unit n mlimit multi nl el fl g.
Proof.
  intros HA HD Hf. assert (X := @tiny_gen_shape Z (exact_ops (4 * unit)) fuel n mlimit multi nl el fl sd true s HA).
  apply (fun H => runs_ok _ _ _ H (conj Hf HD)) in X. destruct X as ([g [q s']] & E & X). apply tiny_result_of in X. destruct X as [X ->].
  exists g, s'. split; [exact E|exact X].
Qed.

Lemma tiny_gen_admissible unit n mlimit multi nl el fl K g : 0 < unit -> 1 <= n ->
  tiny_result unit n mlimit multi nl el fl g -> within_K K nl -> within_K K el -> int_fits (Z.to_nat n) K ->
  admissible (Z.to_nat n) (gr_node g) (gr_edge g) K.
Proof. intros Hu Hn HG H1 H2 H3. exact (tiny_admissible unit Hu n mlimit K multi nl el fl g HG Hn H1 H2 H3). Qed.

Definition gen_steps : nat := 1000.

(** the text of a generated graph *)
Definition shown_graph {D} (r : res (graph D * (fun_queue D * rng))) : option (list (Z * Z * (D * D * D)) * list (Z * Z * (D * D * D) * nat * nat)) :=
  match r with Ok (g, _) => Some (gr_info g) | Err _ => None end.

Lemma isolated l u v : u <> v -> (forall e, In e l -> fst e <> u /\ snd e <> u) -> ~ linked l u v.
Proof.
  intros N H L. apply N. clear N. induction L as [w|w v x L IH [E|E]]; [reflexivity| |]; specialize (IH H); subst; apply H in E; cbn in E; tauto.
Qed.

(** node 1 has no edge *)
Definition apart (fuel : nat) : res (graph Z * (fun_queue Z * rng)) := @make Z (exact_ops 4) fuel SmallGen1 2 ([], 55434337).
Lemma apart_refutes : exists fuel n mlimit multi nl el fl sd s g st,
  tiny_args n mlimit multi nl el fl /\ drawable multi n /\
  @tiny_gen Z (exact_ops 4) fuel n mlimit multi nl el fl sd true ([], s) = Ok (g, st) /\
  ~ (forall u v, 1 <= u <= n -> 1 <= v <= n -> linked (map edge_ends (gr_edge g)) u v).
Proof.
  destruct (apart gen_steps) as [[g st]|] eqn:E; [|vm_compute in E; discriminate E].
  exists gen_steps, 5, 10, false, (-2, 2), (-2, 6), (-10, 10), 2, 55434337, g, st.
  split; [exact (so_args _ _ _ small1_ok)|]. split; [exact drawable_5|]. split; [exact E|].
  intro C. apply (isolated (map edge_ends (gr_edge g)) 1 2) in C; try lia.
  assert (M : match apart gen_steps with Ok (g, _) => map edge_ends (gr_edge g) | Err _ => [] end = map edge_ends (gr_edge g)) by (rewrite E; reflexivity).
  rewrite <- M. vm_compute. intros e He. repeat (destruct He as [<-|He]; [cbn; lia|]). destruct He.
Qed.

(** ** The tests, on a few graphs *)
Definition shortened (k : Z) (s : gen_spec) : gen_spec := mkSpec (s_n s) (s_m s) (s_multi s) (s_node s) (s_edge s) (s_fun s) k k.
Definition test_steps : nat := Z.to_nat 100000.
