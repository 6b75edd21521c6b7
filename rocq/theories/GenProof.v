(** * TinyGen *)
From Coq Require Import Permutation.
From Verif Require Import Base Data BaseLemmas ProblemDefine CostScaling Generator Spec GenSpec GenRng GenGraphProof.
Local Open Scope Z_scope.

(** what TinyGen chose for a node and for an edge *)
Definition node_choice : Type := Z * Z * coefficients.
Definition edge_choice : Type := Z * Z * coefficients * nat * nat.

Section Tiny.
Context {D : Type} {ops : DataOps D}.

Definition q3 (t : coefficients) : D * D * D := let '(a, b, c) := t in (quarter a, quarter b, quarter c).
Definition fn_of (t : coefficients) : Fn D := let '(a, b, c) := q3 t in quadratic a b c.
Definition node_of (x : node_choice) : MuLimit D := let '(l, u, t) := x in mkMu l u (fn_of t).
Definition edge_of (x : edge_choice) : OmegaLimit D := let '(l, u, t, i, j) := x in mkOm l u (fn_of t) i j.
Definition node_info (x : node_choice) : Z * Z * (D * D * D) := let '(l, u, t) := x in (l, u, q3 t).
Definition edge_info (x : edge_choice) : Z * Z * (D * D * D) * nat * nat := let '(l, u, t, i, j) := x in (l, u, q3 t, i, j).
Definition node_t (x : node_choice) : D * D * D := let '(l, u, t) := x in q3 t.
Definition edge_t (x : edge_choice) : D * D * D := let '(l, u, t, i, j) := x in q3 t.

Definition node_good (nl fl : Z * Z) (x : node_choice) : Prop := let '(l, u, t) := x in range_in nl l u /\ coefficients_in fl t.
Definition edge_good (n : Z) (el fl : Z * Z) (x : edge_choice) : Prop :=
  let '(l, u, t, i, j) := x in
  range_in el l u /\ coefficients_in fl t /\ 1 <= Z.of_nat i <= n /\ 1 <= Z.of_nat j <= n /\ i <> j.
Definition ends (x : edge_choice) : Z * Z := let '(l, u, t, i, j) := x in (Z.of_nat i, Z.of_nat j).

Lemma rand_bounds_ok fuel lim s : int_range lim ->
  runs (rng_fuel fuel) (fun '(l, u, _) => range_in lim l u) (rand_bounds fuel lim s).
Proof.
  intros (H1 & H2 & H3). unfold rand_bounds.
  eapply runs_bind; [apply next_range_ok; assumption|]. intros [l s1] [Hl _].
  eapply runs_bind; [apply next_range_ok; assumption|]. intros [u s2] [Hu _]. cbn.
  destruct (u <? l) eqn:E; [apply Z.ltb_lt in E|apply Z.ltb_ge in E]; unfold range_in; lia.
Qed.

Lemma rand_f_ok fuel lim (info : bool) q s : int_range (4 * fst lim, 4 * snd lim) -> fst lim <= snd lim ->
  @runs (Fn D * (fun_queue D * rng)) (rng_fuel fuel) (fun '(f, (q', _)) => exists t, coefficients_in lim t /\ f = fn_of t /\ q' = if info then q ++ [q3 t] else q)
    (rand_f fuel lim info (q, s)).
Proof.
  destruct lim as [l r]. intros (H1 & H2 & H3) H4. cbn [fst snd] in *. unfold rand_f.
  eapply runs_bind; [apply (runs_ck _ (fun x => x = 4 * Z.max 0 l)); [unfold INT_MIN, INT_MAX in *; lia|reflexivity]|]. intros l0 ->.
  eapply runs_bind; [apply (runs_ck _ (fun x => x = 4 * Z.max 0 r)); [unfold INT_MIN, INT_MAX in *; lia|reflexivity]|]. intros r0 ->.
  eapply runs_bind; [apply next_range_ok; unfold INT_MIN, INT_MAX in *; lia|]. intros [a s1] [Ha _].
  eapply runs_bind; [apply (runs_ck _ (fun x => x = 4 * l)); [lia|reflexivity]|]. intros l4 ->.
  eapply runs_bind; [apply (runs_ck _ (fun x => x = 4 * r)); [lia|reflexivity]|]. intros r4 ->.
  eapply runs_bind; [apply next_range_ok; lia|]. intros [b s2] [Hb _].
  eapply runs_bind; [apply next_range_ok; lia|]. intros [c s3] [Hc _]. cbn [runs].
  exists (a, b, c). split; [unfold coefficients_in; cbn [fst snd]; lia|]. split; reflexivity.
Qed.

(** the loops that print the choices *)
Lemma print_loop {A B X} (l : list A) (mk : A -> X) (out_ : A -> B) (tt_ : A -> D * D * D) (body : list B * fun_queue D -> nat -> res (list B * fun_queue D))
  pre0 q0 : 
  (forall info q i a, nth_error l i = Some a -> body (info, tt_ a :: q) (pre0 + i)%nat = Ok (info ++ [out_ a], q)) ->
  for_each (seq pre0 (length l)) ([], map tt_ l ++ q0) body = Ok (map out_ l, q0).
Proof.
  intro H.
  enough (G : forall suf pre, l = pre ++ suf ->
    for_each (seq (pre0 + length pre) (length suf)) (map out_ pre, map tt_ suf ++ q0) body = Ok (map out_ l, q0)).
  { specialize (G l [] eq_refl). rewrite Nat.add_0_r in G. exact G. }
  induction suf as [|a suf IH]; intros pre E; cbn.
  - rewrite app_nil_r in E. subst. reflexivity.
  - rewrite (H _ _ _ a) by (rewrite E, nth_error_app2, Nat.sub_diag by lia; reflexivity). cbn.
    specialize (IH (pre ++ [a])). rewrite map_app, app_length in IH. cbn in IH.
    replace (S (pre0 + length pre)) with (pre0 + (length pre + 1))%nat by lia. apply IH. rewrite E, <- app_assoc. reflexivity.
Qed.

Definition tiny_shape (n mlimit : Z) (multi : bool) (nl el fl : Z * Z) (info : bool) (g : graph D) (q : fun_queue D) : Prop :=
  exists na ea, gr_n g = n /\ Z.of_nat (length na) = n /\ Z.of_nat (length ea) = gr_m g /\
    n - 1 <= gr_m g <= mlimit /\ (multi = false -> 2 * gr_m g <= n * (n - 1)) /\
    gr_node g = no_node :: map node_of na /\ gr_edge g = map edge_of ea /\
    (forall x, In x na -> node_good nl fl x) /\ (forall x, In x ea -> edge_good n el fl x) /\
    (multi = false -> no_repetition false (map ends ea)) /\
    q = [] /\ gr_info g = if info then (map node_info na, map edge_info ea) else ([], []).

Lemma tiny_gen_shape fuel n mlimit multi nl el fl sd info s : tiny_args n mlimit multi nl el fl ->
  @runs (graph D * (fun_queue D * rng)) (rng_fuel fuel /\ drawable multi n) (fun '(g, (q, _)) => tiny_shape n mlimit multi nl el fl info g q)
    (tiny_gen fuel n mlimit multi nl el fl sd info ([], s)).
Proof.
  intros (Hn & Hnn & HnM & Hml & Hnl & Hel & Hfl & Hfl2). unfold tiny_gen.
  set (T := rng_fuel fuel /\ drawable multi n). assert (TF : T -> rng_fuel fuel) by (intros [H _]; exact H).
  apply (runs_bind _ (fun ml => n - 1 <= ml <= mlimit /\ (multi = false -> 2 * ml <= n * (n - 1)))).
  { destruct multi; [cbn; split; [lia|discriminate]|]. specialize (Hnn eq_refl).
    eapply runs_bind; [apply (runs_ck _ (fun x => x = n - 1)); [unfold INT_MIN; lia|reflexivity]|]. intros ? ->.
    eapply runs_bind; [apply (runs_ck _ (fun x => x = n * (n - 1))); [unfold INT_MIN; nia|reflexivity]|]. intros ? ->. cbn [runs].
    rewrite Z.quot_div_nonneg by nia.
    pose proof (Z.div_mod (n * (n - 1)) 2 ltac:(lia)). pose proof (Z.mod_pos_bound (n * (n - 1)) 2 ltac:(lia)).
    assert (n - 1 <= n * (n - 1) / 2) by (apply Z.div_le_lower_bound; [lia|]; destruct (Z.eq_dec n 1) as [->|]; nia).
    generalize dependent (n * (n - 1)). intros. split; [lia|intros _; lia]. }
  intros ml [Hm1 Hm2].
  eapply runs_bind; [apply (runs_ck _ (fun x => x = n - 1)); [unfold INT_MIN; lia|reflexivity]|]. intros ? ->.
  eapply runs_bind; [eapply runs_weaken; [apply (next_range_ok fuel (n - 1) ml s); unfold INT_MIN; lia|exact TF|intros x Hx; exact Hx]|].
  intros [m s1] [Hm _]. set (g0 := set_multiply multi (set_side m (set_node n gen_default))).
  eapply runs_bind.
  { eapply runs_weaken; [apply (gen_graph_run_ok fuel g0 (set_seed sd)); cbn; lia| |intros x Hx; exact Hx].
    intros [Hf HD]. cbn. split; [exact Hf|]. split; [reflexivity|]. split; [reflexivity|exact HD]. }
  intros [g s2] (_ & GL & GN & GS & GM & _). specialize (GS eq_refl). cbn [g0 set_multiply set_side set_node g_multiply g_direction g_node gen_default] in GM, GN.
  assert (EW : edges_wanted g0 = m).
  { unfold edges_wanted, simple_max, g0; cbn. destruct multi; [reflexivity|]. specialize (Hm2 eq_refl).
    assert (m <= n * (n - 1) / 2) by (apply Z.div_le_lower_bound; lia). lia. }
  rewrite EW in GL. clear EW.
  (* nodes *)
  eapply runs_bind.
  { eapply runs_weaken; [|exact TF|intros x Hx; exact Hx].
    apply (runs_for (rng_fuel fuel) (seq 1 (Z.to_nat n)) _ (fun pre '(nodes, (q, _)) => exists na, length na = length pre /\ nodes = no_node :: map node_of na /\
       (forall x, In x na -> node_good nl fl x) /\ q = if info then map node_t na else [])).
    - exists []. cbn. split; [reflexivity|]. split; [reflexivity|]. split; [intros x []|destruct info; reflexivity].
    - intros pre i suf [nodes [q s3]] _ (na & L & -> & G & ->).
      eapply runs_bind; [apply rand_bounds_ok; exact Hnl|]. intros [[l u] s4] HB.
      eapply runs_bind; [apply rand_f_ok; assumption|]. intros [f [q' s5]] (t & Ht & -> & ->). cbn.
      exists (na ++ [(l, u, t)]). rewrite !app_length, L, !map_app. split; [reflexivity|]. split; [reflexivity|]. split.
      + intros x H. apply in_app_or in H. destruct H as [H|[<-|[]]]; [exact (G x H)|split; assumption].
      + destruct info; reflexivity. }
  intros [nodes [q s3]] (na & Ln & -> & Gn & ->). rewrite seq_length in Ln.
  (* edges *)
  eapply runs_bind.
  { eapply runs_weaken; [|exact TF|intros x Hx; exact Hx].
    apply (runs_for (rng_fuel fuel) (g_edge g) _ (fun pre '(edges, (q, _)) => exists ea, map ends ea = map (fun '(i, j) => (i + 1, j + 1)) pre /\ edges = map edge_of ea /\
       (forall x, In x ea -> edge_good n el fl x) /\ q = if info then map node_t na ++ map edge_t ea else [])).
    - exists []. cbn. split; [reflexivity|]. split; [reflexivity|]. split; [intros x []|]. rewrite app_nil_r. reflexivity.
    - intros pre [i j] suf [edges [q s4]] E (ea & L & -> & G & ->).
      assert (IN : In (i, j) (g_edge g)) by (rewrite E; apply in_or_app; right; left; reflexivity).
      destruct (GN i j IN) as [Hi Hj]. pose proof (GS i j IN) as Nij.
      eapply runs_bind; [apply rand_bounds_ok; exact Hel|]. intros [[l u] s5] HB.
      eapply runs_bind; [apply rand_f_ok; assumption|]. intros [f [q' s6]] (t & Ht & -> & ->).
      eapply runs_bind; [apply (runs_ck _ (fun x => x = i + 1)); [unfold INT_MIN; lia|reflexivity]|]. intros ? ->.
      eapply runs_bind; [apply (runs_ck _ (fun x => x = j + 1)); [unfold INT_MIN; lia|reflexivity]|]. intros ? ->. cbn.
      exists (ea ++ [(l, u, t, Z.to_nat (i + 1), Z.to_nat (j + 1))]). rewrite !map_app, L. cbn.
      split; [rewrite !Z2Nat.id by lia; reflexivity|]. split; [reflexivity|]. split.
      + intros x H. apply in_app_or in H. destruct H as [H|[<-|[]]]; [exact (G x H)|]. cbn.
        split; [exact HB|]. split; [exact Ht|]. rewrite !Z2Nat.id by lia. split; [lia|]. split; [lia|]. intro C. apply Z2Nat.inj in C; lia.
      + destruct info; [rewrite <- app_assoc|]; reflexivity. }
  intros [edges [q' s4]] (ea & Le & -> & Ge & ->).
  assert (Lea : length ea = length (g_edge g)) by (rewrite <- (map_length ends ea), Le, map_length; reflexivity).
  assert (NR : multi = false -> no_repetition false (map ends ea)).
  { intros Em p r a b Hp Hr S. rewrite Le, nth_error_map in Hp, Hr.
    destruct (nth_error (g_edge g) p) as [[i j]|] eqn:E1; [|discriminate Hp]. destruct (nth_error (g_edge g) r) as [[i' j']|] eqn:E2; [|discriminate Hr].
    cbn in Hp, Hr. injection Hp as <-. injection Hr as <-. apply (GM Em p r _ _ E1 E2).
    destruct S as [[= S1 S2]|[_ [= S1 S2]]]; [left; f_equal; lia|right; split; [reflexivity|cbn; f_equal; lia]]. }
  assert (SH : forall gi, tiny_shape n mlimit multi nl el fl false (mkGraph n m (no_node :: map node_of na) (map edge_of ea) ([], [])) [] /\
     (gi = (map node_info na, map edge_info ea) -> tiny_shape n mlimit multi nl el fl true (mkGraph n m (no_node :: map node_of na) (map edge_of ea) gi) [])).
  { intro gi. split; [|intros ->]; exists na, ea; cbn [gr_n gr_m gr_node gr_edge gr_info]; (split; [reflexivity|]; split; [lia|]; split; [lia|]; split; [lia|]; split; [intro Em; specialize (Hm2 Em); lia|];
      split; [reflexivity|]; split; [reflexivity|]; split; [exact Gn|]; split; [exact Ge|]; split; [exact NR|]; split; reflexivity). }
  destruct info; [|apply (SH ([], []))].
  replace (Z.to_nat n) with (length na) by lia. replace (Z.to_nat m) with (length ea) by lia.
  rewrite (print_loop na node_of node_info node_t _ 1 (map edge_t ea)).
  - cbn [bind]. rewrite <- (app_nil_r (map edge_t ea)). rewrite (print_loop ea edge_of edge_info edge_t _ 0 []).
    + cbn [bind runs]. apply SH. reflexivity.
    + intros i0 q0 i a Ha. unfold vget. cbn [Nat.add]. rewrite nth_error_map, Ha. destruct a as [[[[l u] t] i'] j']. reflexivity.
  - intros i0 q0 i a Ha. unfold vget. cbn [Nat.add nth_error]. rewrite nth_error_map, Ha. destruct a as [[l u] t]. reflexivity.
Qed.
End Tiny.
