(** * Cactus::GenGraph *)
From Coq Require Import Permutation FinFun.
From Verif Require Import Base Data BaseLemmas ProblemDefine CostScaling Generator GenMore Spec GenSpec GenMoreSpec GenRng GenGraphProof GenWeb GenShapes GenTrees.
Local Open Scope Z_scope.

(** the first [n] cycles; they use [B] *)
Definition cycles_ok (n : nat) (B : list Z) (C : list (list Z)) : Prop :=
  length C = n /\ Permutation (concat C) B /\ ((1 <= n)%nat -> (3 <= length (hd [] C))%nat) /\ (forall a, In a (tl C) -> (2 <= length a)%nat).

Lemma cactus_cycles_ok p m : 0 <= m -> 2 * m + 1 <= Z.of_nat (length p) ->
  exists C, cactus_cycles p m = Ok C /\ cycles_ok (Z.to_nat m) (if m =? 0 then [] else firstn (Z.to_nat (2 * m + 1)) p) C.
Proof.
  intros Hm HL. unfold cactus_cycles.
  set (B := fun n : nat => match n with O => [] | S _ => firstn (2 * n + 1) p end).
  assert (R : runs True (cycles_ok (Z.to_nat m) (B (Z.to_nat m))) (for_each (seq 1 (Z.to_nat m)) [] (fun cycle j =>
    first <- (if (j =? 1)%nat then a <- vget p 0 ;; Ok [a] else Ok []) ;;
    b <- vget p (2 * j)%nat ;; c <- vget p (2 * j - 1)%nat ;; Ok (cycle ++ [first ++ [b; c]])))).
  { eapply runs_weaken; [|intro H; exact H|].
    - apply (runs_for _ _ _ (fun pre C => cycles_ok (length pre) (B (length pre)) C)).
      + split; [reflexivity|]. split; [apply Permutation_refl|]. split; [cbn; lia|intros a []].
      + intros pre j suf C Eq (L & P & H & T). destruct (seq_pre _ _ _ _ _ Eq) as (Ej & Lj & _).
        set (n := length pre) in *. rewrite (vget_nth p 0 0), (vget_nth p (2 * j) 0), (vget_nth p (2 * j - 1) 0) by lia. cbn [bind].
        rewrite app_length. cbn [length]. replace (length pre + 1)%nat with (S n) by (unfold n; lia).
        assert (F3 : firstn (2 * S n + 1) p = firstn (2 * n + 1) p ++ [nth (2 * j - 1) p 0; nth (2 * j) p 0]).
        { replace (2 * S n + 1)%nat with (S (S (2 * n + 1))) by lia. rewrite (firstn_snoc p (S (2 * n + 1))) by lia. rewrite (firstn_snoc p (2 * n + 1)) by lia.
          rewrite <- app_assoc. cbn [app]. replace (2 * n + 1)%nat with (2 * j - 1)%nat by lia. replace (S (2 * j - 1)) with (2 * j)%nat by lia. reflexivity. }
        destruct (Nat.eqb_spec j 1) as [->|Nj].
        * assert (n = 0)%nat as N0 by lia. rewrite N0 in *. cbn [bind runs]. destruct C; [|discriminate L]. cbn [app].
          split; [reflexivity|]. split; [|split; [cbn; lia|intros a []]]. cbn [concat B]. rewrite app_nil_r, F3. cbn [Nat.mul Nat.add].
          rewrite (firstn_snoc p 0) by lia. cbn [firstn app]. apply perm_skip, perm_swap.
        * cbn [bind runs app]. assert (1 <= n)%nat by lia. assert (NC : C <> []) by (intros ->; cbn in L; lia).
          assert (Eh : hd [] (C ++ [[nth (2 * j) p 0; nth (2 * j - 1) p 0]]) = hd [] C) by (destruct C; [congruence|reflexivity]).
          assert (Et : tl (C ++ [[nth (2 * j) p 0; nth (2 * j - 1) p 0]]) = tl C ++ [[nth (2 * j) p 0; nth (2 * j - 1) p 0]]) by (destruct C; [congruence|reflexivity]).
          split; [rewrite app_length; cbn; lia|]. split; [|split].
          -- rewrite concat_snoc. cbn [B]. rewrite F3. apply Permutation_app; [|apply perm_swap]. destruct n as [|n']; [lia|]. exact P.
          -- intros _. rewrite Eh. apply H. lia.
          -- rewrite Et. intros a Ha. apply in_app_or in Ha. destruct Ha as [Ha|[<-|[]]]; [apply T; exact Ha|cbn; lia].
    - intros C HC. rewrite seq_length in HC. exact HC. }
  destruct (runs_ok _ _ _ R I) as [C [E H]]. exists C. split; [exact E|].
  replace (if m =? 0 then [] else firstn (Z.to_nat (2 * m + 1)) p) with (B (Z.to_nat m)); [exact H|].
  destruct (Z.eqb_spec m 0) as [->|Nm]; [reflexivity|]. unfold B. destruct (Z.to_nat m) eqn:Em; [lia|]. f_equal. lia.
Qed.

Lemma concat_upd (C : list (list Z)) w c x : nth_error C w = Some c -> Permutation (concat (upd C w (c ++ [x]))) (concat C ++ [x]).
Proof.
  revert w. induction C as [|a C IH]; intros [|w] H; try discriminate H; cbn in *.
  - injection H as ->. rewrite <- !app_assoc. apply Permutation_app_head. apply (Permutation_app_comm [x] (concat C)).
  - rewrite <- app_assoc. apply Permutation_app_head. apply IH. exact H.
Qed.

Lemma in_upd {A} (l : list A) i x y : In y (upd l i x) -> y = x \/ In y l.
Proof.
  revert i. induction l as [|a l IH]; intros [|i] H; cbn in *; auto.
  - destruct H as [->|H]; auto.
  - destruct H as [->|H]; auto. destruct (IH _ H); auto.
Qed.

Lemma cycles_grow n B C w c x : cycles_ok n B C -> nth_error C w = Some c -> cycles_ok n (B ++ [x]) (upd C w (c ++ [x])).
Proof.
  intros (L & P & H & T) E. split; [rewrite upd_length; exact L|]. split; [|split].
  - eapply Permutation_trans; [apply concat_upd; exact E|]. apply Permutation_app_tail. exact P.
  - intro Hn. specialize (H Hn). destruct C as [|a C], w as [|w]; try discriminate E; cbn in *; [|exact H]. injection E as ->. rewrite app_length. lia.
  - destruct C as [|a C], w as [|w]; try discriminate E; cbn in *; [exact T|]. intros b Hb. apply in_upd in Hb. destruct Hb as [->|Hb]; [|apply T; exact Hb].
    rewrite app_length. specialize (T c (nth_error_In _ _ E)). lia.
Qed.

Lemma big_all l : (forall a, In a l -> (2 <= length a)%nat) -> big l = length l.
Proof.
  intro H. unfold big. induction l as [|a l IH]; [reflexivity|]. cbn [filter]. rewrite (proj2 (Nat.leb_le _ _)) by (apply H; left; reflexivity).
  cbn [length]. f_equal. apply IH. intros b Hb. apply H. right. exact Hb.
Qed.

Lemma big_single (p : list Z) l : big (map (fun i => [nth i p 0]) l) = 0%nat.
Proof. unfold big. induction l; [reflexivity|exact IHl]. Qed.

Lemma skipn_as_map (p : list Z) k : skipn k p = map (fun i => nth i p 0) (seq k (length p - k)).
Proof.
  revert p. induction k as [|k IH]; intro p.
  - cbn. rewrite Nat.sub_0_r. symmetry. apply map_nth_seq.
  - destruct p as [|x p]; [reflexivity|]. cbn [skipn length]. rewrite IH, Nat.sub_succ, <- seq_shift, map_map. reflexivity.
Qed.

(** what the run gives, for [m] cycles *)
Definition cactus_made (N m : Z) (E : list (Z * Z)) : Prop :=
  exists p C F, all_nodes N p /\ blocks_ok C /\ joined C F /\ drawn_as false E F /\
    (1 <= m -> Permutation (concat C) p /\ (3 <= length (hd [] C))%nat /\ Z.of_nat (big (tl C)) = m - 1) /\
    (m = 0 -> Permutation (concat C) (tl p) /\ (length (hd [] C) < 3)%nat /\ big (tl C) = 0%nat).

Definition cactus_side (g : gen_graph) : Z :=
  let n1 := g_node g - 1 in Z.min (n1 + n1 / 2) (Z.max n1 (g_side g)).

Lemma cactus_run_ok fuel g s : 2 <= g_node g -> g_node g - 1 + (g_node g - 1) / 2 <= INT_MAX ->
  runs (rng_fuel fuel) (fun '(g', _) => g_node g' = g_node g /\ g_side g' = cactus_side g /\ cactus_made (g_node g) (cactus_side g - (g_node g - 1)) (g_edge g'))
    (cactus_run fuel g s).
Proof.
  intros HN HX. unfold cactus_run. set (N := g_node g) in *.
  assert (DB : 0 <= (N - 1) / 2 <= N - 1) by (split; [apply Z.div_pos; lia|apply Z.div_le_upper_bound; lia]).
  eapply runs_bind; [apply (runs_ck _ (fun x => x = N - 1)); [unfold INT_MIN; lia|reflexivity]|]. intros n1 ->.
  rewrite Z.quot_div_nonneg by lia.
  eapply runs_bind; [apply (runs_ck _ (fun x => x = N - 1 + (N - 1) / 2)); [unfold INT_MIN; lia|reflexivity]|]. intros mx ->.
  cbn zeta. set (side := if _ <? (if g_side g <? N - 1 then N - 1 else g_side g) then _ else _).
  assert (ES : side = cactus_side g).
  { unfold side, cactus_side. fold N. cbn zeta. destruct (Z.ltb_spec (g_side g) (N - 1));
      match goal with |- context [?a <? ?b] => destruct (Z.ltb_spec a b) end; lia. }
  assert (SR : N - 1 <= side <= N - 1 + (N - 1) / 2) by (rewrite ES; unfold cactus_side; fold N; lia).
  clearbody side. rewrite <- ES. set (m := side - (N - 1)) in *.
  assert (HM : 0 <= m /\ 2 * m + 1 <= N).
  { pose proof (Z.mul_div_le (N - 1) 2 ltac:(lia)). unfold m. lia. }
  assert (HI : N <= INT_MAX) by (assert (0 <= (N - 1) / 2) by (apply Z.div_pos; lia); unfold INT_MAX in *; destruct (Z.eq_dec N 2); [lia|]; assert (1 <= (N - 1) / 2) by (apply Z.div_le_lower_bound; lia); lia).
  clear SR ES DB.
  destruct (iota_ok N) as [p0 (E0 & A0 & L0 & _)]; [lia|]. rewrite E0. cbn [bind].
  eapply runs_bind; [apply shuffle_ok; lia|]. intros [p s1] P0. pose proof (all_nodes_perm _ _ _ P0 A0) as A.
  assert (L : Z.of_nat (length p) = N) by (rewrite <- (Permutation_length P0); exact L0).
  destruct (cactus_cycles_ok p m) as [C0 (EC & OK0)]; [lia|lia|]. rewrite EC. cbn [bind].
  assert (LC0 : length C0 = Z.to_nat m) by apply OK0.
  eapply runs_bind; [apply (next_range_ok fuel 0 (N - (2 * m + 1)) s1); unfold INT_MIN; lia|]. intros [add0 s2] [HA _].
  set (add := if (length C0 =? 0)%nat then 0 else add0).
  assert (HA' : 0 <= add /\ 2 * m + 1 + add <= N /\ (m = 0 -> add = 0)) by (unfold add; destruct (Nat.eqb_spec (length C0) 0); lia).
  clearbody add. clear HA add0.
  set (B0 := if m =? 0 then [] else firstn (Z.to_nat (2 * m + 1)) p) in *.
  eapply runs_bind.
  { apply (runs_for _ _ _ (fun pre '(C, _) => cycles_ok (Z.to_nat m) (B0 ++ map (fun i => nth i p 0) pre) C)).
    - cbn [map]. rewrite app_nil_r. exact OK0.
    - intros pre i suf [C s3] Eq OK. destruct (seq_pre _ _ _ _ _ Eq) as (Ei & Li & _).
      assert (m <> 0) by (intro C'; lia).
      eapply runs_bind; [apply next_int_ok; lia|]. intros [w s4] [Hw _].
      assert (LC : length C = Z.to_nat m) by apply OK.
      destruct (nth_error C (Z.to_nat w)) as [c|] eqn:Ec; [|apply nth_error_None in Ec; lia].
      rewrite (vget_ok _ _ _ Ec), (vget_nth p i 0) by lia. cbn [bind]. rewrite vset_ok by lia. cbn [bind runs].
      rewrite map_app. cbn [map]. rewrite app_assoc. apply cycles_grow; assumption. }
  intros [C1 s3] OK1. destruct OK1 as (LC1 & P1 & H1 & T1).
  set (st := Z.to_nat (2 * m + add + 1)) in *.
  set (C2 := C1 ++ map (fun i => [nth i p 0]) (seq st (Z.to_nat N - st))).
  assert (R2 : for_each (seq st (Z.to_nat N - st)) C1 (fun cycle i => x <- vget p i ;; Ok (cycle ++ [[x]])) = Ok C2).
  { assert (R : runs True (fun C => C = C2) (for_each (seq st (Z.to_nat N - st)) C1 (fun cycle i => x <- vget p i ;; Ok (cycle ++ [[x]])))).
    { apply (runs_for _ _ _ (fun pre C => C = C1 ++ map (fun i => [nth i p 0]) pre)).
      - cbn. rewrite app_nil_r. reflexivity.
      - intros pre i suf C Eq ->. destruct (seq_pre _ _ _ _ _ Eq) as (Ei & Li & _). rewrite (vget_nth p i 0) by lia. cbn [bind runs].
        rewrite map_app, app_assoc. reflexivity. }
    destruct (runs_ok _ _ _ R I) as [C [-> ->]]. reflexivity. }
  cbv beta iota in R2 |- *. rewrite R2. cbn [bind].
  assert (CC : concat C2 = concat C1 ++ skipn st p).
  { unfold C2. rewrite concat_app. f_equal. rewrite skipn_as_map. replace (length p) with (Z.to_nat N) by lia.
    clear. induction (seq st (Z.to_nat N - st)) as [|i l IH]; [reflexivity|]. cbn. f_equal. exact IH. }
  assert (NE2 : forall a, In a C2 -> a <> []).
  { intros a Ha. unfold C2 in Ha. apply in_app_or in Ha. destruct Ha as [Ha|Ha].
    - destruct C1 as [|c C1]; [destruct Ha|]. destruct Ha as [<-|Ha].
      + specialize (H1 ltac:(cbn in LC1; lia)). cbn in H1. intros ->. cbn in H1. lia.
      + specialize (T1 a Ha). intros ->. cbn in T1. lia.
    - apply in_map_iff in Ha. destruct Ha as [i [<- _]]. discriminate. }
  assert (Q2 : blocks_ok C2 /\ C2 <> [] /\ (1 <= m -> Permutation (concat C2) p /\ (3 <= length (hd [] C2))%nat /\ Z.of_nat (big (tl C2)) = m - 1) /\
    (m = 0 -> Permutation (concat C2) (tl p) /\ (length (hd [] C2) < 3)%nat /\ big (tl C2) = 0%nat)).
  { destruct (Z.eq_dec m 0) as [M0|NM].
    - assert (C1 = []) as EC1 by (destruct C1; [reflexivity|cbn in LC1; lia]).
      assert (st = 1)%nat as Est by (unfold st; lia).
      assert (PC : concat C2 = tl p) by (rewrite CC, EC1, Est; destruct p; reflexivity).
      assert (HC2 : C2 = map (fun i => [nth i p 0]) (seq 1 (Z.to_nat N - 1))) by (unfold C2; rewrite EC1, Est; reflexivity).
      split; [|split; [|split; [lia|]]].
      + split; [|exact NE2]. rewrite PC. destruct p as [|x p]; [constructor|]. destruct A as [A _]. inversion A; assumption.
      + rewrite HC2. destruct (Z.to_nat N - 1)%nat eqn:EN; [lia|]. discriminate.
      + intros _. rewrite PC. split; [apply Permutation_refl|]. rewrite HC2. destruct (Z.to_nat N - 1)%nat eqn:EN; [lia|].
        cbn [seq map hd tl]. split; [cbn; lia|apply big_single].
    - assert (NC : C1 <> []) by (intros ->; cbn in LC1; lia).
      assert (Eh : hd [] C2 = hd [] C1) by (unfold C2; destruct C1; [congruence|reflexivity]).
      assert (Et : tl C2 = tl C1 ++ map (fun i => [nth i p 0]) (seq st (Z.to_nat N - st))) by (unfold C2; destruct C1; [congruence|reflexivity]).
      assert (PC : Permutation (concat C2) p).
      { rewrite CC. rewrite <- (firstn_skipn st p) at 2. apply Permutation_app_tail. eapply Permutation_trans; [exact P1|].
        replace (firstn st p) with (B0 ++ map (fun i => nth i p 0) (seq (Z.to_nat (2 * m + 1)) (Z.to_nat add))); [apply Permutation_refl|].
        unfold B0. rewrite (proj2 (Z.eqb_neq m 0)) by exact NM.
        assert (G : forall k n, (k + n <= length p)%nat -> firstn k p ++ map (fun i => nth i p 0) (seq k n) = firstn (k + n) p).
        { clear. intros k n. induction n as [|n IH]; intro H; [cbn; rewrite app_nil_r; f_equal; lia|].
          rewrite seq_S, map_app, app_assoc, IH by lia. cbn [map]. replace (k + S n)%nat with (S (k + n)) by lia. rewrite (firstn_snoc p) by lia. reflexivity. }
        rewrite G by lia. f_equal. unfold st. lia. }
      split; [|split; [|split; [|lia]]].
      + split; [|exact NE2]. apply (Permutation_NoDup (Permutation_sym PC)). apply A.
      + unfold C2. destruct C1; [congruence|discriminate].
      + intros _. split; [exact PC|]. rewrite Eh, Et. split; [apply H1; lia|]. unfold big. rewrite filter_app, app_length.
        change (length (filter (fun a => (2 <=? length a)%nat) (tl C1))) with (big (tl C1)).
        change (length (filter (fun a => (2 <=? length a)%nat) (map (fun i => [nth i p 0]) (seq st (Z.to_nat N - st))))) with (big (map (fun i => [nth i p 0]) (seq st (Z.to_nat N - st)))).
        rewrite big_single, (big_all _ T1). destruct C1; [congruence|]. cbn [tl length] in *. lia. }
  destruct Q2 as (BK & NC & QA & QB). rewrite (proj2 (Nat.eqb_neq (length C2) 0)) by (destruct C2; [congruence|discriminate]). cbn [bind].
  assert (LCC : (length (concat C2) <= length p)%nat).
  { destruct (Z.eq_dec m 0) as [M0|NM]; [destruct (QB M0) as [X _]|destruct (QA ltac:(lia)) as [X _]]; rewrite (Permutation_length X); destruct p; cbn; lia. }
  assert (LB : (length C2 <= length (concat C2))%nat).
  { clear -NE2. induction C2 as [|a C IH]; [cbn; lia|]. cbn. rewrite app_length.
    assert (1 <= length a)%nat by (specialize (NE2 a (or_introl eq_refl)); destruct a; [congruence|cbn; lia]).
    specialize (IH ltac:(intros b Hb; apply NE2; right; exact Hb)). lia. }
  eapply runs_bind; [apply (shuffle_front fuel 1 C2); lia|]. intros [C3 s4] [P3 F3].
  specialize (F3 0%nat ltac:(lia)).
  assert (X3 : exists c T2 T3, C2 = c :: T2 /\ C3 = c :: T3 /\ Permutation T2 T3).
  { destruct C2 as [|c T2]; [congruence|]. destruct C3 as [|c3 T3]; [discriminate F3|]. cbn in F3. injection F3 as ->.
    exists c, T2, T3. split; [reflexivity|]. split; [reflexivity|]. exact (Permutation_cons_inv P3). }
  destruct X3 as (c & T2 & T3 & E2 & E3 & PT).
  assert (PCC : Permutation (concat C3) (concat C2)).
  { rewrite E2, E3. cbn. apply Permutation_app_head. clear -PT. induction PT; cbn.
    - constructor.
    - apply Permutation_app_head. exact IHPT.
    - rewrite !app_assoc. apply Permutation_app_tail. apply Permutation_app_comm.
    - eapply Permutation_trans; eassumption. }
  assert (BK3 : blocks_ok C3).
  { split; [apply (Permutation_NoDup (Permutation_sym PCC)); apply BK|]. intros a Ha. apply NE2. exact (Permutation_in _ (Permutation_sym P3) Ha). }
  eapply runs_bind; [apply (cactus_join_ok fuel C3); [exact BK3|rewrite E3; discriminate|rewrite (Permutation_length PCC); lia|rewrite <- (Permutation_length P3); lia]|].
  intros [E s5] (F & J & FE).
  assert (QA3 : 1 <= m -> Permutation (concat C3) p /\ (3 <= length (hd [] C3))%nat /\ Z.of_nat (big (tl C3)) = m - 1).
  { intro H. destruct (QA H) as (X1 & X2 & X3). split; [eapply Permutation_trans; eassumption|]. rewrite E2 in X2, X3. rewrite E3. cbn [hd tl] in *.
    split; [exact X2|]. rewrite <- (big_perm _ _ PT). exact X3. }
  assert (QB3 : m = 0 -> Permutation (concat C3) (tl p) /\ (length (hd [] C3) < 3)%nat /\ big (tl C3) = 0%nat).
  { intro H. destruct (QB H) as (X1 & X2 & X3). split; [eapply Permutation_trans; eassumption|]. rewrite E2 in X2, X3. rewrite E3. cbn [hd tl] in *.
    split; [exact X2|]. rewrite <- (big_perm _ _ PT). exact X3. }
  assert (LE : Z.of_nat (length E) <= INT_MAX).
  { rewrite (drawn_length _ _ _ (drawn_forall _ _ _ FE)). pose proof (joined_length _ _ J (proj2 BK3)) as JL.
    rewrite (Permutation_length PCC) in JL. destruct (Z.eq_dec m 0) as [M0|NM].
    - destruct (QB3 M0) as (_ & Y & Z'). rewrite Z' in JL. destruct (Nat.leb_spec 3 (length (hd [] C3))); lia.
    - destruct (QA3 ltac:(lia)) as (_ & Y & Z'). destruct (Nat.leb_spec 3 (length (hd [] C3))); [|lia].
      assert (2 * ((N - 1) / 2) <= N - 1) by (pose proof (Z.mul_div_le (N - 1) 2 ltac:(lia)); lia).
      assert (2 * ((N - 1) / 2) >= N - 2) by (pose proof (Z.div_mod (N - 1) 2 ltac:(lia)); pose proof (Z.mod_pos_bound (N - 1) 2 ltac:(lia)); lia). lia. }
  eapply runs_bind; [apply shuffle_ok; exact LE|]. intros [E' s6] P'. cbn [runs with_edges set_side g_node g_side g_edge].
  split; [reflexivity|]. split; [reflexivity|]. exists p, C3, F. split; [exact A|]. split; [exact BK3|]. split; [exact J|].
  split; [apply (drawn_perm _ E); [exact P'|apply drawn_forall; exact FE]|]. split; [exact QA3|exact QB3].
Qed.

Theorem cactus_graph fuel g s : 3 <= g_node g <= g_side g -> g_node g - 1 + (g_node g - 1) / 2 <= INT_MAX -> rng_fuel fuel ->
  exists g' s', cactus_run fuel g s = Ok (g', s') /\
    Z.of_nat (length (g_edge g')) = Z.min (g_side g) (g_node g - 1 + (g_node g - 1) / 2) /\ simple_connected (g_node g) (g_edge g') /\
    exists l F, all_nodes (g_node g) l /\ cactus l F /\ drawn_as false (g_edge g') F.
Proof.
  intros HN HX Hf. destruct (runs_ok _ _ _ (cactus_run_ok fuel g s ltac:(lia) HX) Hf) as [[g' s'] (E & _ & _ & p & C & F & A & BK & J & D & HA & _)].
  assert (1 <= (g_node g - 1) / 2) by (apply Z.div_le_lower_bound; lia).
  unfold cactus_side in HA. destruct HA as (PC & H3 & HB); [lia|].
  pose proof (all_nodes_perm _ _ _ (Permutation_sym PC) A) as AC.
  exists g', s'. split; [exact E|]. split; [|split].
  - rewrite (drawn_length _ _ _ D). pose proof (joined_length _ _ J (proj2 BK)) as JL. rewrite (proj2 (Nat.leb_le _ _) H3) in JL.
    pose proof (all_nodes_length (g_node g) _ ltac:(lia) AC). lia.
  - apply (web_nodes _ (concat C)); [apply AC|]. eapply web_drawn; [exact D|]. apply joined_web; assumption.
  - exists (concat C), F. split; [exact AC|]. split; [|exact D]. apply joined_cactus; assumption.
Qed.

(** with at most n - 1 edges asked for, one node gets no edge *)
Theorem cactus_tree fuel g s : 2 <= g_node g -> g_side g < g_node g -> g_node g - 1 + (g_node g - 1) / 2 <= INT_MAX -> rng_fuel fuel ->
  exists g' s', cactus_run fuel g s = Ok (g', s') /\ Z.of_nat (length (g_edge g')) = g_node g - 2 /\
    exists x, 0 <= x < g_node g /\ forall u v, In (u, v) (g_edge g') -> u <> x /\ v <> x.
Proof.
  intros HN HS HX Hf. destruct (runs_ok _ _ _ (cactus_run_ok fuel g s HN HX) Hf) as [[g' s'] (E & _ & _ & p & C & F & A & BK & J & D & _ & HB)].
  assert (0 <= (g_node g - 1) / 2) by (apply Z.div_pos; lia).
  unfold cactus_side in HB. destruct HB as (PC & H3 & HB); [lia|].
  pose proof (all_nodes_length (g_node g) _ ltac:(lia) A) as L.
  exists g', s'. split; [exact E|]. split.
  - rewrite (drawn_length _ _ _ D). pose proof (joined_length _ _ J (proj2 BK)) as JL. rewrite (proj2 (Nat.leb_gt _ _) H3), HB, (Permutation_length PC) in JL.
    destruct p; cbn in *; lia.
  - destruct p as [|x p]; [cbn in L; lia|]. exists x. split; [apply A; left; reflexivity|].
    assert (W : web (concat C) (g_edge g')) by (eapply web_drawn; [exact D|apply joined_web; assumption]).
    assert (NX : ~ In x (concat C)).
    { intro X. apply (Permutation_in _ PC) in X. cbn in X. destruct A as [A _]. inversion A; contradiction. }
    intros u v Huv. destruct (proj1 W u v Huv) as (X1 & X2 & _). split; congruence.
Qed.
