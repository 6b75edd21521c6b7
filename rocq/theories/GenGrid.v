(** * GridGraph *)
From Coq Require Import Permutation FinFun.
From Verif Require Import Base Data BaseLemmas ProblemDefine CostScaling Generator GenMore Spec GenSpec GenMoreSpec GenRng GenGraphProof GenWeb GenShapes GenTrees GenParts.
Local Open Scope Z_scope.

Lemma columns_bounds N row : 1 <= N -> 1 <= row -> N <= row * columns N row <= N + row - 1 /\ 1 <= columns N row.
Proof.
  intros HN HR. unfold columns. pose proof (Z.div_mod (N + row - 1) row ltac:(lia)). pose proof (Z.mod_pos_bound (N + row - 1) row ltac:(lia)).
  split; [lia|]. apply Z.div_le_lower_bound; lia.
Qed.

Lemma columns_le N row : 1 <= N -> 1 <= row -> columns N row <= N.
Proof. intros HN HR. unfold columns. apply Z.lt_succ_r, Z.div_lt_upper_bound; nia. Qed.

(** the missing cells *)
Lemma missing N row : 1 <= N -> 1 <= row -> Z.rem (row - Z.rem N row) row = row * columns N row - N.
Proof.
  intros HN HR. destruct (columns_bounds N row HN HR) as [H1 H2].
  pose proof (Z.mod_pos_bound N row ltac:(lia)). rewrite (Z.rem_mod_nonneg N) by lia. rewrite Z.rem_mod_nonneg by lia.
  symmetry. apply (Z.mod_unique _ _ (N / row - columns N row + 1)); [lia|]. pose proof (Z.div_mod N row ltac:(lia)). nia.
Qed.

Lemma pairs_bounds N row : 1 <= N -> 1 <= row <= N -> - 4 * N <= grid_pairs N row <= 4 * N.
Proof. intros HN HR. destruct (columns_bounds N row ltac:(lia) ltac:(lia)) as [H1 H2]. pose proof (columns_le N row ltac:(lia) ltac:(lia)). unfold grid_pairs. nia. Qed.

Lemma count_side_ok T g row : 1 <= g_node g -> 16 * g_node g <= INT_MAX -> 1 <= row <= g_node g ->
  runs T (fun w => w = ways g * grid_pairs (g_node g) row) (count_side g (columns (g_node g) row) row).
Proof.
  intros HN HI HR. set (N := g_node g) in *. destruct (columns_bounds N row HN ltac:(lia)) as [H1 H2]. pose proof (columns_le N row HN ltac:(lia)) as H3.
  pose proof (pairs_bounds N row HN HR) as H4. unfold count_side. fold N. rewrite missing by lia. unfold grid_pairs in *. set (c := columns N row) in *. clearbody c N.
  eapply runs_bind; [apply (runs_ck _ (fun x => x = row - 1)); [unfold INT_MIN; lia|reflexivity]|]. intros y1 ->.
  eapply runs_bind; [apply (runs_ck _ (fun x => x = c * (row - 1))); [unfold INT_MIN; nia|reflexivity]|]. intros a ->.
  eapply runs_bind; [apply (runs_ck _ (fun x => x = c - 1)); [unfold INT_MIN; lia|reflexivity]|]. intros x1 ->.
  eapply runs_bind; [apply (runs_ck _ (fun x => x = row * (c - 1))); [unfold INT_MIN; nia|reflexivity]|]. intros b ->.
  eapply runs_bind; [apply (runs_ck _ (fun x => x = c * (row - 1) + row * (c - 1))); [unfold INT_MIN; nia|reflexivity]|]. intros d ->.
  eapply runs_bind; [apply (runs_ck _ (fun x => x = 2 * (row * c - N))); [unfold INT_MIN; nia|reflexivity]|]. intros e ->.
  eapply runs_bind; [apply (runs_ck _ (fun x => x = c * (row - 1) + row * (c - 1) - 2 * (row * c - N))); [unfold INT_MIN; lia|reflexivity]|]. intros f ->.
  unfold ways. destruct (g_direction g); [|cbn [runs]; lia]. apply runs_ck; [unfold INT_MIN; lia|lia].
Qed.

(** ** The choice of the shape *)
Lemma one_row N : 1 <= N -> grid_pairs N 1 = N - 1.
Proof. intro H. unfold grid_pairs, columns. replace (N + 1 - 1) with N by lia. rewrite Z.div_1_r. lia. Qed.

Lemma grid_shapes_ok T g : 2 <= g_node g -> 16 * g_node g <= INT_MAX ->
  let W r := ways g * ways g * grid_pairs (g_node g) r in
  runs T (fun '(best, best_i, possible) => (forall r, In r possible <-> 1 <= r <= g_node g /\ g_side g <= W r) /\
     1 <= best_i <= g_node g /\ best = W best_i /\ (forall r, 1 <= r <= g_node g -> W r <= best) /\ Z.of_nat (length possible) <= g_node g) (grid_shapes g).
Proof.
  intros HN HI W. set (N := g_node g) in *. assert (HW : 1 <= ways g <= 2) by (unfold ways; destruct (g_direction g); lia).
  assert (HB : forall r, 1 <= r <= N -> - 16 * N <= W r <= 16 * N).
  { intros r Hr. pose proof (pairs_bounds N r ltac:(lia) Hr). unfold W, ways. destruct (g_direction g); lia. }
  unfold grid_shapes. fold N.
  eapply runs_weaken; [|exact (fun x => x)|].
  - apply (runs_for _ _ _
      (fun pre '(best, best_i, possible) => (forall r, In r possible <-> 1 <= r <= Z.of_nat (length pre) /\ g_side g <= W r) /\
         (pre <> [] -> 1 <= best_i <= N /\ best = W best_i /\ forall r, 1 <= r <= Z.of_nat (length pre) -> W r <= best) /\ (pre = [] -> best = 0) /\ (length possible <= length pre)%nat)).
    + split; [intro r; cbn; split; [tauto|lia]|]. split; [congruence|]. split; [reflexivity|cbn; lia].
    + intros pre i suf [[best best_i] possible] Eq (I1 & I2 & I3 & I4).
      assert (EZ : i = Z.of_nat (length pre) + 1 /\ Z.of_nat (length pre) < N).
      { clear -Eq. apply (f_equal (fun x => (nth_error x (length pre), length x))) in Eq. injection Eq as Eq EL.
        rewrite nth_error_app2, Nat.sub_diag in Eq by lia. cbn [nth_error] in Eq.
        rewrite map_length, seq_length, app_length in EL. cbn [length] in EL.
        rewrite nth_error_map in Eq. rewrite (nth_error_nth' _ 0%nat) in Eq by (rewrite seq_length; lia). rewrite seq_nth in Eq by lia. cbn in Eq.
        injection Eq as Eq. split; lia. }
      destruct EZ as [Ei Li].
      eapply runs_bind; [apply (runs_ck _ (fun x => x = N + i)); [unfold INT_MIN; lia|reflexivity]|]. intros t ->.
      cbn zeta. rewrite Z.quot_div_nonneg by lia. fold (columns N i).
      eapply runs_bind; [apply (count_side_ok T g i); fold N; lia|]. intros w0 E0. fold N in E0.
      apply (runs_bind _ (fun w => w = W i)).
      { pose proof (HB i ltac:(lia)) as HBi. unfold W in *. unfold ways in *. clear HB I1 I2 HW W. destruct (g_direction g); [|cbn [runs]; lia].
        apply runs_ck; [unfold INT_MIN, INT_MAX in *; lia|lia]. }
      intros w ->. cbn [runs].
      assert (P : forall r, In r (if g_side g <=? W i then possible ++ [i] else possible) <-> 1 <= r <= Z.of_nat (length (pre ++ [i])) /\ g_side g <= W r).
      { intro r. rewrite app_length. cbn [length]. destruct (Z.leb_spec (g_side g) (W i)) as [C|C].
        - rewrite in_app_iff, I1. cbn [In]. split; [intros [H|[<-|[]]]; lia|]. intro H. destruct (Z.eq_dec r i) as [->|Nr]; [auto|left; lia].
        - rewrite I1. split; [lia|]. intro H. assert (r <> i) by (intros ->; lia). lia. }
      assert (P' : (length (if (g_side g <=? W i)%Z then possible ++ [i] else possible) <= length (pre ++ [i]))%nat)
        by (destruct ((g_side g <=? W i)%Z); rewrite !app_length; cbn [length]; lia).
      destruct (Z.ltb_spec best (W i)) as [C|C].
      * split; [exact P|]. split; [|split; [intro X; destruct pre; discriminate|exact P']]. intros _. split; [lia|]. split; [reflexivity|].
        intros r Hr. rewrite app_length in Hr. cbn [length] in Hr. destruct (Z.eq_dec r i) as [->|Nr]; [lia|].
        destruct pre as [|x pre]; [cbn in *; lia|]. destruct (I2 ltac:(discriminate)) as (_ & _ & J). specialize (J r ltac:(lia)). lia.
      * split; [exact P|]. split; [|split; [intro X; destruct pre; discriminate|exact P']]. intros _.
        destruct pre as [|x pre].
        -- exfalso. cbn in Ei. subst i. rewrite (I3 eq_refl) in C. unfold W in C. rewrite one_row in C by lia. nia.
        -- destruct (I2 ltac:(discriminate)) as (J1 & J2 & J3). split; [exact J1|]. split; [exact J2|].
           intros r Hr. rewrite app_length in Hr. cbn [length] in Hr, Ei |- *. destruct (Z.eq_dec r i) as [->|Nr]; [lia|]. apply J3. cbn [length]. lia.
  - intros [[best best_i] possible] (I1 & I2 & _ & I4). rewrite map_length, seq_length, Z2Nat.id in * by lia. split; [exact I1|].
    destruct I2 as (J1 & J2 & J3); [|split; [exact J1|]; split; [exact J2|]; split; [exact J3|lia]]. intro X. apply (f_equal (@length Z)) in X. rewrite map_length, seq_length in X. cbn in X. lia.
Qed.

(** ** Drawing an edge *)
Definition grid_edge (p : list Z) (column : Z) (a : Z * Z) : Prop :=
  exists x y, 0 <= x < Z.of_nat (length p) /\ 0 <= y < Z.of_nat (length p) /\
    fst a = nth (Z.to_nat x) p 0 /\ snd a = nth (Z.to_nat y) p 0 /\ (beside column x y \/ beside column y x).

Lemma grid_edge_same p c d a b : same_edge d a b -> grid_edge p c b -> grid_edge p c a.
Proof.
  intros [->|[_ ->]]; [auto|]. destruct b as [u v]. intros (x & y & H1 & H2 & H3 & H4 & H5). exists y, x. cbn in *. tauto.
Qed.

Lemma beside_neq c x y : 1 <= c -> beside c x y -> x <> y.
Proof. unfold beside. lia. Qed.

Lemma zget_nth (p : list Z) x : 0 <= x < Z.of_nat (length p) -> zget p x = Ok (nth (Z.to_nat x) p 0).
Proof. intro H. unfold zget. rewrite (proj2 (Z.ltb_ge _ 0)) by lia. apply vget_nth. lia. Qed.

Lemma grid_draw_ok fuel k p row column g s : all_nodes (g_node g) p -> 1 <= g_node g -> 16 * g_node g <= INT_MAX -> 1 <= row -> 1 <= column <= g_node g ->
  runs False (fun '(u, v, _) => 0 <= u < g_node g /\ 0 <= v < g_node g /\ grid_edge p column (u, v) /\ refused g u v = false) (grid_draw fuel k p row column g s).
Proof.
  intros A HN HI HR HC. pose proof (all_nodes_length (g_node g) p ltac:(lia) A) as L.
  revert s. induction k as [|k IH]; intro s; cbn [grid_draw]; [split; [reflexivity|tauto]|].
  eapply runs_bind; [eapply runs_weaken; [apply (next_int_ok fuel (g_node g) s); lia|tauto|intros x Hx; exact Hx]|]. intros [pos s1] [Hp _].
  eapply runs_bind; [eapply runs_weaken; [apply (next_int_ok fuel 4 s1); unfold INT_MAX; lia|tauto|intros x Hx; exact Hx]|]. intros [d s2] [Hd _].
  cbn zeta. rewrite Z.quot_div_nonneg, Z.rem_mod_nonneg by lia.
  set (dx := if d =? 0 then 1 else if d =? 1 then -1 else 0). set (dy := if d =? 2 then 1 else if d =? 3 then -1 else 0).
  assert (HD : (dx = 1 \/ dx = -1) /\ dy = 0 \/ dx = 0 /\ (dy = 1 \/ dy = -1)).
  { unfold dx, dy. destruct (Z.eqb_spec d 0) as [->|]; [cbn; lia|]. destruct (Z.eqb_spec d 1) as [->|]; [cbn; lia|].
    destruct (Z.eqb_spec d 2) as [->|]; [cbn; lia|]. destruct (Z.eqb_spec d 3) as [->|]; [cbn; lia|]. lia. }
  clearbody dx dy. pose proof (Z.div_mod pos column ltac:(lia)) as DM. pose proof (Z.mod_pos_bound pos column ltac:(lia)) as MB.
  assert (EN : (pos / column + dx) * column + (pos mod column + dy) = pos + dx * column + dy) by lia.
  rewrite EN. eapply runs_bind; [apply (runs_ck _ (fun x => x = pos + dx * column + dy)); [unfold INT_MIN, INT_MAX in *; nia|reflexivity]|]. intros nxt ->.
  destruct ((pos / column + dx <? 0) || (row <=? pos / column + dx) || (pos mod column + dy <? 0) || (column <=? pos mod column + dy) || (g_node g <=? pos + dx * column + dy)) eqn:B; [apply IH|].
  rewrite !orb_false_iff, !Z.ltb_ge, !Z.leb_gt in B. destruct B as ((((B1 & B2) & B3) & B4) & B5).
  set (nxt := pos + dx * column + dy) in *. assert (Hn : 0 <= nxt) by (rewrite <- EN; nia).
  assert (HB : beside column pos nxt \/ beside column nxt pos).
  { unfold beside, nxt in *. destruct HD as [[[->| ->] ->]|[-> [->| ->]]].
    - left. right. lia.
    - right. right. lia.
    - left. left. split; [lia|]. intro X. assert (Y : (pos + 0 * column + 1) mod column = pos mod column + 1).
      { symmetry. apply (Z.mod_unique _ _ (pos / column)); lia. } lia.
    - right. left. split; [lia|]. lia. }
  rewrite !zget_nth by lia. cbn [bind]. destruct (judge_multiply g (nth (Z.to_nat pos) p 0) (nth (Z.to_nat nxt) p 0)) eqn:J; [apply IH|].
  cbn [runs]. split; [apply A, nth_In; lia|]. split; [apply A, nth_In; lia|]. split.
  - exists pos, nxt. cbn [fst snd]. split; [lia|]. split; [lia|]. auto.
  - unfold refused. rewrite J, orb_false_r. unfold judge_self_loop. rewrite (proj2 (Z.eqb_neq _ _)), andb_false_r; [reflexivity|].
    intro X. assert (D : pos <> nxt) by (destruct HB as [H|H]; apply (beside_neq column) in H; lia).
    apply D, Z2Nat.inj; [lia|lia|]. apply (proj1 (NoDup_nth p 0) (proj1 A)); [lia|lia|exact X].
Qed.

Lemma range_pre (a n : nat) pre i suf : map Z.of_nat (seq a n) = pre ++ i :: suf -> i = Z.of_nat (a + length pre) /\ (length pre < n)%nat.
Proof.
  intro Eq. apply (f_equal (fun x => (nth_error x (length pre), length x))) in Eq. injection Eq as Eq EL.
  rewrite nth_error_app2, Nat.sub_diag in Eq by lia. cbn [nth_error] in Eq.
  rewrite map_length, seq_length, app_length in EL. cbn [length] in EL.
  rewrite nth_error_map in Eq. rewrite (nth_error_nth' _ 0%nat) in Eq by (rewrite seq_length; lia). rewrite seq_nth in Eq by lia. cbn in Eq.
  injection Eq as Eq. split; lia.
Qed.

(** ** GridGraph::GenGraph *)
Lemma grid_run_ok fuel g s : 2 <= g_node g -> 16 * g_node g <= INT_MAX -> 0 <= g_side g <= INT_MAX -> g_self_loop g = false ->
  runs False (fun '(g', _) => exists row, 1 <= row <= g_node g /\ grid_amount g row (Z.of_nat (length (g_edge g'))) /\ grid_result g row (g_edge g'))
    (grid_run fuel g s).
Proof.
  intros HN HI HS Es. unfold grid_run. cbn [with_edges g_node g_side g_multiply].
  set (g0 := with_edges g [] []). set (N := g_node g) in *. assert (HW : 1 <= ways g <= 2) by (unfold ways; destruct (g_direction g); lia).
  destruct (iota_ok N) as [p0 (E0 & A0 & L0 & _)]; [lia|]. rewrite E0. cbn [bind].
  apply (runs_bind _ (fun '(m, row, _) => 1 <= row <= N /\ (N <= m + 8 * N /\ m <= INT_MAX) /\ grid_amount g row (Z.max (N - 1) m))).
  { unfold grid_amount. destruct (g_multiply g) eqn:Em.
    - eapply runs_bind; [eapply runs_weaken; [apply (next_range_ok fuel 1 N s); unfold INT_MIN; lia|tauto|intros x Hx; exact Hx]|].
      intros [row s1] [Hr _]. cbn [runs]. fold N. lia.
    - eapply runs_bind; [apply (grid_shapes_ok False g0); change (g_node g0) with N; lia|]. cbn [g0 with_edges g_node g_side]. fold N.
      intros [[best best_i] possible] (P1 & P2 & P3 & P4 & P5). cbv beta zeta in P1, P2, P3, P4, P5. change (ways (with_edges g [] [])) with (ways g) in *. change (ways g0) with (ways g) in *.
      assert (HB : forall r, 1 <= r <= N -> -16 * N <= ways g * grid_pairs N r <= 16 * N /\ -16 * N <= ways g * ways g * grid_pairs N r <= 16 * N).
      { intros r Hr. pose proof (pairs_bounds N r ltac:(lia) Hr). unfold ways. destruct (g_direction g); lia. }
      assert (HM : forall r, 1 <= r <= N -> - 7 * N <= ways g * grid_pairs N r).
      { intros r Hr. destruct (columns_bounds N r ltac:(lia) ltac:(lia)) as [H1 H2]. pose proof (columns_le N r ltac:(lia) ltac:(lia)).
        unfold grid_pairs. nia. }
      destruct possible as [|r0 rest].
      + cbn [runs]. split; [exact P2|]. split.
        * destruct (HB best_i P2). specialize (P4 1 ltac:(lia)). rewrite one_row in P4 by lia. assert (0 <= ways g * ways g * (N - 1)) by (apply Z.mul_nonneg_nonneg; nia). lia.
        * right. split; [|rewrite P3; fold N; reflexivity]. intros r Hr. fold N in Hr |- *. split.
          -- destruct (Z.le_gt_cases (g_side g) (ways g * ways g * grid_pairs N r)); [|lia]. destruct (proj2 (P1 r)). split; assumption.
          -- specialize (P4 r Hr). rewrite P3 in P4. nia.
      + set (poss := r0 :: rest) in *. eapply runs_bind.
        { eapply runs_weaken; [apply (any_ok fuel poss s); [discriminate|]|tauto|intros x Hx; exact Hx]. lia. }
        intros [row s1] Hrow. apply P1 in Hrow. destruct Hrow as [Hr Hside].
        eapply runs_bind; [apply (runs_ck _ (fun x => x = N + row)); [unfold INT_MIN; lia|reflexivity]|]. intros t ->.
        rewrite Z.quot_div_nonneg by lia. fold (columns N row).
        eapply runs_bind; [apply (count_side_ok False g0 row); change (g_node g0) with N; lia|]. intros m Hm. cbv beta in Hm. change (g_node g0) with N in Hm. change (ways g0) with (ways g) in Hm.
        cbn [runs]. destruct (HB row Hr). specialize (HM row Hr). split; [exact Hr|]. split; [lia|]. left. fold N. rewrite Hm. auto. }
  intros [[m row] s1] (Hr & [Hm1 Hm2] & HA).
  eapply runs_bind; [apply (runs_ck _ (fun x => x = N + row)); [unfold INT_MIN; lia|reflexivity]|]. intros t ->.
  rewrite (proj2 (Z.eqb_neq row 0)) by lia. cbn [bind]. cbn zeta. rewrite Z.quot_div_nonneg by lia. fold (columns N row).
  destruct (columns_bounds N row ltac:(lia) ltac:(lia)) as [HC1 HC2]. pose proof (columns_le N row ltac:(lia) ltac:(lia)) as HC3.
  eapply runs_bind; [apply (runs_ck _ (fun x => x = m - (N - 1))); [unfold INT_MIN, INT_MAX in *; lia|reflexivity]|]. intros d ->.
  eapply runs_bind; [eapply runs_weaken; [apply (shuffle_ok fuel 0 p0 s1); lia|tauto|intros x Hx; exact Hx]|].
  intros [p s2] P0. pose proof (all_nodes_perm _ _ _ P0 A0) as A.
  assert (L : Z.of_nat (length p) = N) by (rewrite <- (Permutation_length P0); exact L0). clear P0 A0 L0 E0 p0.
  assert (Hin : forall x, 0 <= x < N -> In (nth (Z.to_nat x) p 0) p) by (intros x Hx; apply nth_In; lia).
  assert (Hrng : forall x, 0 <= x < N -> 0 <= nth (Z.to_nat x) p 0 < N) by (intros x Hx; apply A, Hin; exact Hx).
  set (col := columns N row) in *.
  set (Inv := fun (k : Z) (g1 : gen_graph) => gen_inv g1 /\ same_params g g1 /\ Z.of_nat (length (g_edge g1)) = Z.min N k - 1 /\
     (forall a, In a (g_edge g1) -> grid_edge p col a) /\ web (firstn (Z.to_nat (Z.min N k)) p) (g_edge g1)).
  (** one more cell *)
  assert (GROW : forall g1 s3 x y a b, Inv x g1 -> 0 <= y < x -> x < N -> beside col y x ->
            (a, b) = (nth (Z.to_nat x) p 0, nth (Z.to_nat y) p 0) \/ (a, b) = (nth (Z.to_nat y) p 0, nth (Z.to_nat x) p 0) ->
            runs False (fun '(g2, _) => Inv (x + 1) g2) (gen_add_edge fuel g1 a b s3)).
  { intros g1 s3 x y a b (I1 & SP & LE & HE & W) Hy Hx HB Eab. rewrite Z.min_r in LE, W by lia. assert (EN : g_node g1 = N) by apply SP.
    eapply runs_weaken; [apply (grow_edge fuel g1 (firstn (Z.to_nat x) p) (nth (Z.to_nat x) p 0) (nth (Z.to_nat y) p 0) a b s3 I1 W)|tauto|].
    - apply new_not_in; [apply A|lia].
    - rewrite <- (nth_firstn p (Z.to_nat x)) by lia. apply nth_In. rewrite firstn_length_le; lia.
    - rewrite EN. apply Hrng. lia.
    - rewrite EN. apply Hrng. lia.
    - exact Eab.
    - intros [g2 s4] (I2 & SP2 & W2 & e & SE & EE). split; [exact I2|]. split; [eapply params_trans; eassumption|].
      rewrite Z.min_r by lia. split; [rewrite EE, app_length; cbn; lia|]. split.
      + intros b0 Hb. rewrite EE in Hb. apply in_app_or in Hb. destruct Hb as [Hb|[<-|[]]]; [apply HE; exact Hb|].
        apply (grid_edge_same _ _ _ _ _ SE). destruct Eab as [[= -> ->]|[= -> ->]]; [exists x, y|exists y, x]; cbn; rewrite L; split; try lia; split; try lia; auto.
      + replace (Z.to_nat (x + 1)) with (S (Z.to_nat x)) by lia. rewrite (firstn_snoc p) by lia. exact W2. }
  eapply runs_bind.
  { apply (runs_for _ _ _ (fun pre '(g1, _) => Inv (Z.of_nat (length pre) * col + 1) g1)).
    - cbn [length]. split; [apply gen_inv_empty|]. split; [unfold same_params; cbn; tauto|]. replace (Z.min N (Z.of_nat 0 * col + 1)) with 1 by lia.
      split; [reflexivity|]. split; [intros a []|]. destruct p as [|x p]; [cbn in L; lia|]. cbn. apply web_one.
    - intros pre i suf [g1 s3] Eq I1. apply range_pre in Eq. destruct Eq as [Ei Li]. cbn [Nat.add] in Ei. rewrite <- Ei in I1. rewrite app_length. cbn [length].
      replace (Z.of_nat (length pre + 1)) with (i + 1) by lia. assert (Hi : 0 <= i < row) by lia. clear Ei Li.
      apply (runs_bind _ (fun '(g2, _) => Inv ((i + 1) * col) g2)).
      { eapply runs_weaken; [|exact (fun x => x)|].
        - apply (runs_for _ _ _ (fun pr '(g2, _) => Inv (i * col + 1 + Z.of_nat (length pr)) g2)).
          + cbn [length]. replace (i * col + 1 + Z.of_nat 0) with (i * col + 1) by lia. exact I1.
          + intros pr j sf [g2 s4] Eq I2. apply range_pre in Eq. destruct Eq as [Ej Lj]. rewrite app_length. cbn [length].
            eapply runs_bind; [apply (runs_ck _ (fun x => x = i * col + j)); [unfold INT_MIN; nia|reflexivity]|]. intros x Ex. cbv beta in Ex.
            replace (i * col + 1 + Z.of_nat (length pr)) with x in I2 by lia. replace (i * col + 1 + Z.of_nat (length pr + 1)) with (x + 1) by lia.
            destruct (Z.leb_spec N x) as [C|C].
            * cbn [runs]. unfold Inv in *. rewrite (Z.min_l N (x + 1)) by lia. rewrite (Z.min_l N x) in I2 by lia. exact I2.
            * assert (0 <= x - 1) by (assert (0 <= i * col) by nia; lia). rewrite !zget_nth by lia. cbn [bind].
              assert (HB : beside col (x - 1) x).
              { left. split; [lia|]. replace (x mod col) with j; [lia|]. apply (Z.mod_unique _ _ i); lia. }
              destruct (Z.rem i 2 =? 0).
              -- apply (GROW g2 s4 x (x - 1)); auto; try lia.
              -- apply (GROW g2 s4 x (x - 1)); auto; try lia.
        - intros [g2 s4] I2. rewrite map_length, seq_length, Z2Nat.id in I2 by lia. replace (i * col + 1 + (col - 1)) with ((i + 1) * col) in I2 by lia. exact I2. }
      intros [g2 s4] I2.
      eapply runs_bind; [apply (runs_ck _ (fun x => x = i * col)); [unfold INT_MIN; nia|reflexivity]|]. intros x ->.
      eapply runs_bind; [apply (runs_ck _ (fun x => x = (i + 1) * col)); [unfold INT_MIN; nia|reflexivity]|]. intros y ->.
      destruct (Z.ltb_spec ((i + 1) * col) N) as [C|C].
      + rewrite (proj2 (Z.ltb_lt (i * col) N)) by lia. cbn [andb]. assert (0 <= i * col) by nia. rewrite !zget_nth by lia. cbn [bind].
        apply (GROW g2 s4 ((i + 1) * col) (i * col)); auto; try lia. right. lia.
      + rewrite andb_false_r. cbn [runs]. unfold Inv in *. rewrite (Z.min_l N ((i + 1) * col + 1)) by lia. rewrite (Z.min_l N ((i + 1) * col)) in I2 by lia. exact I2. }
  intros [g1 s3] I1. rewrite map_length, seq_length, Z2Nat.id in I1 by lia. unfold Inv in I1. rewrite Z.min_l in I1 by lia.
  destruct I1 as (I1 & SP & LE & HE & W). rewrite <- L, Nat2Z.id, firstn_all in W.
  eapply runs_bind.
  { eapply runs_weaken; [apply (add_drawn_ok fuel (grid_draw fuel fuel p row col) g (grid_edge p col) (fun u v => grid_edge p col (u, v)) False 0)| |].
    - intros u v a Hq SE. apply (grid_edge_same _ _ _ _ _ SE). exact Hq.
    - intros g2 s4 I2 SP2 HE2. assert (EN : g_node g2 = N) by apply SP2. eapply runs_weaken; [apply (grid_draw_ok fuel fuel p row col g2 s4); rewrite ?EN; [exact A|lia|lia|lia|lia]|tauto|rewrite EN; fold N; intros x Hx; exact Hx].
    - assert (Z.max 0 (m - (N - 1)) <= INT_MAX) by lia. split; [lia|eassumption].
    - exact I1.
    - exact SP.
    - exact HE.
    - tauto.
    - intros x Hx. exact Hx. }
  intros [g2 s4] (I2 & SP2 & HE2 & L2 & IN2). destruct SP2 as (Q1 & Q2 & Q3 & Q4 & Q5 & Q6). destruct I2 as (J1 & J2 & J3). rewrite Q1 in J1.
  eapply runs_bind; [eapply runs_weaken; [apply (shuffle_ok fuel 0 (g_edge g2) s4); lia|tauto|intros x Hx; exact Hx]|]. intros [E s5] PE.
  assert (IN : forall e, In e E <-> In e (g_edge g2)) by (intro e; split; apply Permutation_in; [apply Permutation_sym|]; exact PE).
  cbn [runs with_edges g_edge]. exists row. split; [exact Hr|]. split.
  - rewrite <- (Permutation_length PE), L2. replace (Z.of_nat (length (g_edge g1)) + Z.max 0 (m - (N - 1))) with (Z.max (N - 1) m) by lia. exact HA.
  - split; [intros u v H; apply IN in H; exact (J1 u v H)|]. split; [|split; [|split]].
    + intros u v H. apply IN in H. apply J2; [rewrite Q5; exact Es|exact H].
    + intro Em. rewrite Q4, Q3 in J3. apply (no_rep_perm _ _ _ PE). apply J3. exact Em.
    + intros u v Hu Hv. apply (linked_mono (g_edge g1)); [intros e He; apply IN, IN2; exact He|]. apply (web_nodes N p _ (proj2 A) W); assumption.
    + exists p. split; [exact A|]. intros u v H. apply IN in H. destruct (HE2 _ H) as (x & y & X). exists x, y. exact X.
Qed.
