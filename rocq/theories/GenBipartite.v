(** * BipartiteGraph *)
From Coq Require Import Permutation FinFun.
From Verif Require Import Base Data BaseLemmas ProblemDefine CostScaling Generator GenMore Spec GenSpec GenMoreSpec GenRng GenGraphProof GenWeb GenShapes GenTrees GenParts.
Local Open Scope Z_scope.

(** ** The binary search for the size of the left side *)
Definition area (node x : Z) : Z := x * (node - x).

Lemma area_mono node x y : x <= y -> 2 * y <= node -> area node x <= area node y.
Proof. intros H1 H2. unfold area. nia. Qed.

Lemma left_search_ok node m top : 2 <= node <= INT_MAX -> top = node / 2 -> area node top <= INT_MAX ->
  forall fuel l r limit, 1 <= l -> r <= top -> l <= r + 1 -> 0 <= r ->
  (limit = None -> l <= r /\ m <= area node r) -> (forall x, limit = Some x -> 1 <= x <= top) ->
  runs (r - l + 1 <= Z.of_nat fuel) (fun o => exists x, o = Some x /\ 1 <= x <= top) (left_search fuel node m l r limit).
Proof.
  intros HN Etop HA. assert (HT : 2 * top <= node) by (subst top; apply Z.mul_div_le; lia).
  induction fuel as [|fuel IH]; intros l r limit Hl Hr Hlr Hr0 HL HS; cbn [left_search]; destruct (Z.leb_spec l r) as [C|C].
  - split; [reflexivity|lia].
  - cbn [runs]. destruct limit as [x|]; [exists x; split; [reflexivity|apply HS; reflexivity]|]. destruct (HL eq_refl). lia.
  - eapply runs_bind; [apply (runs_ck _ (fun x => x = l + r)); [unfold INT_MIN; lia|reflexivity]|]. intros sm ->.
    rewrite Z.quot_div_nonneg by lia. set (mid := (l + r) / 2).
    assert (HM : l <= mid <= r) by (unfold mid; split; [apply Z.div_le_lower_bound; lia|apply Z.div_le_upper_bound; lia]).
    clearbody mid. cbn zeta.
    eapply runs_bind; [apply (runs_ck _ (fun x => x = node - mid)); [unfold INT_MIN; lia|reflexivity]|]. intros d ->.
    pose proof (area_mono node mid top ltac:(lia) ltac:(lia)) as AM.
    eapply runs_bind; [apply (runs_ck _ (fun x => x = area node mid)); [unfold area in *; unfold INT_MIN; split; [nia|lia]|reflexivity]|]. intros a ->.
    destruct (Z.ltb_spec (area node mid) m) as [B|B].
    + eapply runs_weaken; [apply (IH (mid + 1) r limit)|intro; lia|intros o Ho; exact Ho]; try lia; [|exact HS].
      intro E. destruct (HL E) as [_ H]. split; [|exact H]. assert (mid <> r) by (intros ->; lia). lia.
    + eapply runs_weaken; [apply (IH l (mid - 1) (Some r))|intro; lia|intros o Ho; exact Ho]; try lia; [discriminate|].
      intros x [= <-]. lia.
  - cbn [runs]. destruct limit as [x|]; [exists x; split; [reflexivity|apply HS; reflexivity]|]. destruct (HL eq_refl). lia.
Qed.

(** ** Drawing an edge *)
Lemma bipartite_draw_ok fuel k part0 part1 g s : part0 <> [] -> part1 <> [] ->
  Z.of_nat (length part0) <= INT_MAX -> Z.of_nat (length part1) <= INT_MAX ->
  runs False (fun '(u, v, _) => In u part0 /\ In v part1 /\ refused g u v = false) (bipartite_draw fuel k part0 part1 g s).
Proof.
  intros N0 N1 L0 L1. revert s. induction k as [|k IH]; intro s; cbn [bipartite_draw]; [split; [reflexivity|tauto]|].
  eapply runs_bind; [eapply runs_weaken; [apply (any_ok fuel part0 s N0 L0)|tauto|intros x Hx; exact Hx]|]. intros [u s1] Hu.
  eapply runs_bind; [eapply runs_weaken; [apply (any_ok fuel part1 s1 N1 L1)|tauto|intros x Hx; exact Hx]|]. intros [v s2] Hv.
  destruct (judge_self_loop g u v || judge_multiply g u v) eqn:J; [apply IH|]. cbn. auto.
Qed.

(** ** BipartiteGraph::GenGraph *)
Definition between (A B : list Z) (a : Z * Z) : Prop := (In (fst a) A /\ In (snd a) B) \/ (In (fst a) B /\ In (snd a) A).

Lemma between_same A B d a b : same_edge d a b -> between A B b -> between A B a.
Proof. intros [->|[_ ->]]; [auto|]. unfold between. cbn. tauto. Qed.

Lemma half_eq n : 0 <= n -> n / 2 * ((n + 1) / 2) = n / 2 * (n - n / 2).
Proof.
  intro H. f_equal. pose proof (Z.div_mod n 2 ltac:(lia)). pose proof (Z.mod_pos_bound n 2 ltac:(lia)).
  apply Z.le_antisymm; [apply Z.lt_succ_r, Z.div_lt_upper_bound; lia|apply Z.div_le_lower_bound; lia].
Qed.

Lemma bipartite_run_ok fuel g left s : 2 <= g_node g <= INT_MAX - 1 -> 0 <= g_side g <= INT_MAX -> g_self_loop g = false ->
  left = -1 /\ (g_multiply g = false -> g_node g / 2 * ((g_node g + 1) / 2) <= INT_MAX) \/
  1 <= left < g_node g /\ (g_connect g = true -> 2 * left <= g_node g + 1) ->
  runs False (fun '(g', _) => Z.of_nat (length (g_edge g')) = bipartite_wanted g left /\ nodes_in (g_node g) (g_edge g') /\
     (g_multiply g = false -> no_repetition (g_direction g) (g_edge g')) /\ (g_connect g = true -> connected (g_node g) (g_edge g')) /\
     exists A, NoDup A /\ (forall x, In x A -> 0 <= x < g_node g) /\
       (if left =? -1 then 1 <= Z.of_nat (length A) <= g_node g / 2 else Z.of_nat (length A) = left) /\ two_sides A (g_edge g')) (bipartite_run fuel g left s).
Proof.
  intros HN HSd Es HLeft. unfold bipartite_run. cbn [with_edges g_node g_side g_multiply g_connect].
  set (g0 := with_edges g [] []). set (N := g_node g) in *.
  assert (HH : 1 <= N / 2 /\ 2 * (N / 2) <= N) by (split; [apply Z.div_le_lower_bound; lia|apply Z.mul_div_le; lia]).
  pose proof (half_eq N ltac:(lia)) as HE.
  set (most := if left =? -1 then N / 2 * ((N + 1) / 2) else left * (N - left)).
  assert (HMO : 0 <= most) by (unfold most; destruct (Z.eqb_spec left (-1)); [rewrite HE; nia|destruct HLeft as [[? _]|[? _]]; [lia|nia]]).
  set (mm := if g_multiply g then g_side g else Z.min (g_side g) most).
  assert (Hmm : 0 <= mm <= INT_MAX) by (unfold mm; destruct (g_multiply g); lia).
  apply (runs_bind _ (fun m => m = mm)).
  { unfold mm. destruct (g_multiply g) eqn:Em; [reflexivity|].
    eapply runs_bind; [apply (runs_ck _ (fun x => x = N + 1)); [unfold INT_MIN; lia|reflexivity]|]. intros n1 ->.
    rewrite !Z.quot_div_nonneg by lia. rewrite HE.
    eapply runs_bind; [apply (runs_ck _ (fun x => x = Z.min (g_side g) (N / 2 * (N - N / 2)))); [unfold INT_MIN; nia|reflexivity]|]. intros m ->.
    unfold most. rewrite HE. destruct (Z.eqb_spec left (-1)) as [->|Nl]; [reflexivity|]. destruct HLeft as [[? _]|[HL _]]; [lia|].
    eapply runs_bind; [apply (runs_ck _ (fun x => x = N - left)); [unfold INT_MIN; lia|reflexivity]|]. intros d ->.
    assert (left * (N - left) <= N / 2 * (N - N / 2)).
    { destruct (Z.le_gt_cases left (N / 2)); [apply (area_mono N left (N / 2)); lia|].
      pose proof (area_mono N (N - left) (N / 2)) as X. unfold area in X. pose proof (Z.div_mod N 2 ltac:(lia)). pose proof (Z.mod_pos_bound N 2 ltac:(lia)). nia. }
    apply runs_ck; [unfold INT_MIN; nia|]. lia. }
  intros m ->.
  apply (runs_bind _ (fun '(l, _) => (if left =? -1 then 1 <= l <= N / 2 else l = left))).
  { destruct (Z.eqb_spec left (-1)) as [->|Nl]; [|reflexivity]. destruct HLeft as [[_ HX]|[? _]]; [|lia].
    apply (runs_bind _ (fun o => exists x, o = Some x /\ 1 <= x <= N / 2)).
    { destruct (g_multiply g) eqn:Em; [exists 1; split; [reflexivity|lia]|]. rewrite Z.quot_div_nonneg by lia.
      eapply runs_weaken; [apply (left_search_ok N mm (N / 2))|tauto|intros o Ho; exact Ho]; try lia.
      - specialize (HX eq_refl). rewrite HE in HX. exact HX.
      - intros _. split; [lia|]. unfold mm, most. rewrite HE. unfold area. lia.
      - discriminate. }
    intros o [x [-> Hx]]. cbn [bind]. rewrite Z.quot_div_nonneg by lia.
    eapply runs_weaken; [apply (next_range_ok fuel x (N / 2) s); [unfold INT_MIN; lia|lia|lia]|tauto|]. intros [l s'] [Hl _]. lia. }
  intros [l s1] Hl.
  assert (HL : 1 <= l < N /\ (g_connect g = true -> 2 * l <= N + 1)).
  { destruct (Z.eqb_spec left (-1)) as [->|Nl]; [split; lia|]. destruct HLeft as [[? _]|H]; [lia|]. subst l. exact H. }
  eapply runs_bind; [apply (runs_ck _ (fun x => x = N - l)); [unfold INT_MIN; lia|reflexivity]|]. intros right ->.
  destruct (iota_ok N) as [p0 (E0 & A0 & L0 & _)]; [lia|]. rewrite E0. cbn [bind].
  eapply runs_bind; [eapply runs_weaken; [apply (shuffle_ok fuel 0 p0 s1); lia|tauto|intros x Hx; exact Hx]|].
  intros [p s2] P0. pose proof (all_nodes_perm _ _ _ P0 A0) as A.
  assert (L : Z.of_nat (length p) = N) by (rewrite <- (Permutation_length P0); exact L0). clear P0 A0 L0 E0 p0. cbn zeta.
  set (A0 := firstn (Z.to_nat l) p). set (B0 := skipn (Z.to_nat l) p).
  assert (LA : length A0 = Z.to_nat l) by (apply firstn_length_le; lia).
  assert (LB : length B0 = Z.to_nat (N - l)) by (unfold B0; rewrite skipn_length; lia).
  assert (AB : A0 ++ B0 = p) by apply firstn_skipn.
  assert (NDp : NoDup (A0 ++ B0)) by (rewrite AB; apply A).
  destruct (NoDup_app_inv _ _ NDp) as (NDA & NDB & DJ).
  assert (RA : forall x, In x A0 -> 0 <= x < N) by (intros x Hx; apply A; rewrite <- AB; apply in_or_app; auto).
  assert (RB : forall x, In x B0 -> 0 <= x < N) by (intros x Hx; apply A; rewrite <- AB; apply in_or_app; auto).
  clearbody A0 B0.
  apply (runs_bind _ (fun '(m', g1, _) => gen_inv g1 /\ same_params g g1 /\ 0 <= m' <= INT_MAX /\ Z.of_nat (length (g_edge g1)) + m' = bipartite_wanted g left /\
     (forall a, In a (g_edge g1) -> between A0 B0 a) /\ (g_connect g = true -> connected N (g_edge g1)))).
  { assert (EW : bipartite_wanted g left = if g_connect g then Z.max mm (N - 1) else mm) by reflexivity.
    destruct (g_connect g) eqn:Ec.
    - eapply runs_bind; [apply (runs_ck _ (fun x => x = N - 1)); [unfold INT_MIN; lia|reflexivity]|]. intros d ->.
      eapply runs_bind; [apply (runs_ck _ (fun x => x = mm - (N - 1))); [unfold INT_MIN, INT_MAX in *; lia|reflexivity]|]. intros d ->. cbn zeta.
      destruct HL as [HL1 HL2]. specialize (HL2 eq_refl).
      eapply runs_bind.
      + apply (runs_for _ _ _ (fun pre '(g1, _) => gen_inv g1 /\ same_params g g1 /\ length (g_edge g1) = (2 * length pre)%nat /\
           (forall a, In a (g_edge g1) -> between A0 B0 a) /\ web (firstn (S (length pre)) A0 ++ firstn (length pre) B0) (g_edge g1))).
        * split; [apply gen_inv_empty|]. split; [unfold same_params; cbn; tauto|]. split; [reflexivity|]. split; [intros a []|].
          destruct A0 as [|x A0]; [cbn in LA; lia|]. cbn. apply web_one.
        * intros pre i suf [g1 s3] Eq (I1 & SP & LE & HB & W). destruct (seq_pre _ _ _ _ _ Eq) as (Ei & Li & _). cbn in Ei.
          rewrite <- Ei in *. rewrite (vget_nth A0 i 0), (vget_nth B0 i 0), (vget_nth A0 (i + 1) 0) by lia. cbn [bind].
          assert (EN : g_node g1 = N) by apply SP. rewrite app_length. cbn [length]. replace (length pre + 1)%nat with (S i) by lia.
          assert (Ia : In (nth i A0 0) A0) by (apply nth_In; lia). assert (Ib : In (nth i B0 0) B0) by (apply nth_In; lia).
          assert (Ic : In (nth (i + 1) A0 0) A0) by (apply nth_In; lia).
          assert (Ia' : In (nth i A0 0) (firstn (S i) A0)) by (rewrite (firstn_snoc A0 i) by lia; apply in_or_app; right; left; reflexivity).
          eapply runs_bind.
          { eapply runs_weaken; [apply (grow_edge fuel g1 (firstn (S i) A0 ++ firstn i B0) (nth i B0 0) (nth i A0 0) (nth i A0 0) (nth i B0 0) s3)|tauto|intros x Hx; exact Hx].
            - exact I1.
            - exact W.
            - intro C. apply in_app_or in C. destruct C as [C|C]; [exact (DJ _ (in_firstn _ _ _ C) Ib)|]. revert C. apply new_not_in; [exact NDB|lia].
            - apply in_or_app. auto.
            - rewrite EN. apply RB. exact Ib.
            - rewrite EN. apply RA. exact Ia.
            - right. reflexivity. }
          intros [g2 s4] (I2 & SP2 & W2 & a2 & S2 & EE2). assert (EN2 : g_node g2 = N) by (destruct SP2; congruence).
          eapply runs_weaken; [apply (grow_edge fuel g2 ((firstn (S i) A0 ++ firstn i B0) ++ [nth i B0 0]) (nth (i + 1) A0 0) (nth i B0 0) (nth i B0 0) (nth (i + 1) A0 0) s4)|tauto|].
          -- exact I2.
          -- exact W2.
          -- intro C. apply in_app_or in C. destruct C as [C|[C|[]]].
             ++ apply in_app_or in C. destruct C as [C|C]; [|exact (DJ _ Ic (in_firstn _ _ _ C))].
                replace (S i) with (i + 1)%nat in C by lia. revert C. apply new_not_in; [exact NDA|lia].
             ++ apply (DJ _ Ic). rewrite <- C. exact Ib.
          -- apply in_or_app. right. left. reflexivity.
          -- rewrite EN2. apply RA. exact Ic.
          -- rewrite EN2. apply RB. exact Ib.
          -- right. reflexivity.
          -- intros [g3 s5] (I3 & SP3 & W3 & a3 & S3 & EE3). split; [exact I3|]. split; [eapply params_trans; [exact SP|eapply params_trans; eassumption]|].
             split; [rewrite EE3, EE2, !app_length; cbn; lia|]. split.
             ++ intros b Hb. rewrite EE3, EE2 in Hb. apply in_app_or in Hb. destruct Hb as [Hb|[<-|[]]];
                  [apply in_app_or in Hb; destruct Hb as [Hb|[<-|[]]]; [apply HB; exact Hb|]|].
                ** apply (between_same _ _ _ _ _ S2). left. auto.
                ** apply (between_same _ _ _ _ _ S3). right. auto.
             ++ eapply web_mono; [|exact W3]. intro x. replace (S (S i)) with (S (i + 1)) by lia.
                rewrite (firstn_snoc A0 (i + 1)), (firstn_snoc B0 i) by lia. replace (i + 1)%nat with (S i) by lia. rewrite !in_app_iff. tauto.
      + intros [g1 s3] (I1 & SP & LE & HB & W). rewrite seq_length in *.
        set (q := Z.to_nat (l - 1)) in *. replace (S q) with (length A0) in W by (unfold q; lia). rewrite firstn_all in W.
        eapply runs_bind.
        * apply (runs_for _ _ _ (fun pre '(g2, _) => gen_inv g2 /\ same_params g g2 /\ length (g_edge g2) = (2 * q + length pre)%nat /\
             (forall a, In a (g_edge g2) -> between A0 B0 a) /\ web (A0 ++ firstn (q + length pre) B0) (g_edge g2))).
          -- cbn [length]. rewrite !Nat.add_0_r. split; [exact I1|]. split; [exact SP|]. split; [exact LE|]. split; [exact HB|exact W].
          -- intros pre z suf [g2 s4] Eq (I2 & SP2 & LE2 & HB2 & W2).
             assert (EZ : z = l - 1 + Z.of_nat (length pre) /\ (length pre < Z.to_nat (N - l - (l - 1)))%nat).
             { clear -Eq. apply (f_equal (fun x => (nth_error x (length pre), length x))) in Eq. injection Eq as Eq EL.
               rewrite nth_error_app2, Nat.sub_diag in Eq by lia. cbn [nth_error] in Eq.
               rewrite map_length, seq_length, app_length in EL. cbn [length] in EL.
               rewrite nth_error_map in Eq. rewrite (nth_error_nth' _ 0%nat) in Eq by (rewrite seq_length; lia). rewrite seq_nth in Eq by lia. cbn in Eq.
               injection Eq as Eq. split; [|]; lia. }
             destruct EZ as [-> Li].
             eapply runs_bind; [eapply runs_weaken; [apply (any_ok fuel A0 s4); [intros ->; cbn in LA; lia|lia]|tauto|intros x Hx; exact Hx]|]. intros [v s5] Hv.
             unfold zget. rewrite (proj2 (Z.ltb_ge _ 0)) by lia.
             replace (Z.to_nat (l - 1 + Z.of_nat (length pre))) with (q + length pre)%nat by (unfold q; lia).
             rewrite (vget_nth B0 (q + length pre) 0) by (unfold q; lia). cbn [bind].
             assert (EN : g_node g2 = N) by apply SP2.
             assert (Ib : In (nth (q + length pre) B0 0) B0) by (apply nth_In; unfold q; lia).
             eapply runs_weaken; [apply (grow_edge fuel g2 (A0 ++ firstn (q + length pre) B0) (nth (q + length pre) B0 0) v)|tauto|].
             ++ exact I2.
             ++ exact W2.
             ++ intro C. apply in_app_or in C. destruct C as [C|C]; [exact (DJ _ C Ib)|]. revert C. apply new_not_in; [exact NDB|unfold q; lia].
             ++ apply in_or_app. auto.
             ++ rewrite EN. apply RB. exact Ib.
             ++ rewrite EN. apply RA. exact Hv.
             ++ left. reflexivity.
             ++ intros [g3 s6] (I3 & SP3 & W3 & a3 & S3 & EE3). split; [exact I3|]. split; [eapply params_trans; eassumption|].
                rewrite app_length. cbn [length]. split; [rewrite EE3, app_length; cbn; lia|]. split.
                ** intros b Hb. rewrite EE3 in Hb. apply in_app_or in Hb. destruct Hb as [Hb|[<-|[]]]; [apply HB2; exact Hb|].
                   apply (between_same _ _ _ _ _ S3). right. auto.
                ** replace (q + (length pre + 1))%nat with (S (q + length pre)) by lia. rewrite (firstn_snoc B0) by (unfold q; lia). rewrite app_assoc. exact W3.
        * intros [g2 s4] (I2 & SP2 & LE2 & HB2 & W2). cbn [runs]. rewrite map_length, seq_length in *.
          replace (q + Z.to_nat (N - l - (l - 1)))%nat with (length B0) in W2 by (unfold q; lia). rewrite firstn_all, AB in W2.
          split; [exact I2|]. split; [exact SP2|]. split; [lia|]. split; [rewrite EW, LE2; unfold q; lia|]. split; [exact HB2|].
          intros _. apply (web_nodes N p _ (proj2 A) W2).
    - cbn [runs]. split; [apply gen_inv_empty|]. split; [unfold same_params; cbn; tauto|]. split; [exact Hmm|].
      split; [rewrite EW; reflexivity|]. split; [intros a []|discriminate]. }
  intros [[m' g1] s3] (I1 & SP & Hm' & HLn & HB & HC).
  eapply runs_bind.
  { eapply runs_weaken; [apply (add_drawn_ok fuel (bipartite_draw fuel fuel A0 B0) g (between A0 B0) (fun u v => In u A0 /\ In v B0) False 0)| |].
    - intros u v a [Hu Hv] S. apply (between_same _ _ _ _ _ S). left. auto.
    - intros g2 s4 I2 SP2 HB2. eapply runs_weaken; [apply (bipartite_draw_ok fuel fuel A0 B0 g2 s4)| |].
      + intros ->; cbn in LA; lia.
      + intros ->; cbn in LB; lia.
      + lia.
      + lia.
      + tauto.
      + intros [[u v] s5] (Hu & Hv & RF). fold N. auto.
    - exact Hm'.
    - exact I1.
    - exact SP.
    - exact HB.
    - tauto.
    - intros x Hx. exact Hx. }
  intros [g2 s4] (I2 & SP2 & HB2 & L2 & IN2). destruct SP2 as (Q1 & Q2 & Q3 & Q4 & Q5 & Q6). destruct I2 as (J1 & J2 & J3). rewrite Q1 in J1.
  assert (BW : bipartite_wanted g left <= INT_MAX).
  { change (bipartite_wanted g left) with (if g_connect g then Z.max mm (N - 1) else mm). destruct (g_connect g); lia. }
  eapply runs_bind; [eapply runs_weaken; [apply (shuffle_ok fuel 0 (g_edge g2) s4); lia|tauto|intros x Hx; exact Hx]|]. intros [E s5] PE.
  assert (IN : forall e, In e E <-> In e (g_edge g2)) by (intro e; split; apply Permutation_in; [apply Permutation_sym|]; exact PE).
  cbn [runs with_edges g_edge]. split; [rewrite <- (Permutation_length PE); lia|].
  split; [intros u v H; apply IN in H; exact (J1 u v H)|]. split; [|split].
  - intro Em. rewrite Q4, Q3 in J3. apply (no_rep_perm _ _ _ PE). apply J3. exact Em.
  - intros Ec u v Hu Hv. apply (linked_mono (g_edge g1)); [intros e He; apply IN, IN2; exact He|]. apply HC; assumption.
  - exists A0. split; [exact NDA|]. split; [exact RA|]. split.
    + destruct (left =? -1); lia.
    + intros u v H. apply IN in H. destruct (HB2 _ H) as [[H1 H2]|[H1 H2]]; cbn in *; [left|right]; (split; [|]); auto; intro C; eapply DJ; eassumption.
Qed.
