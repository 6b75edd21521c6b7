(** * RootTree and Cactus *)
From Coq Require Import Permutation FinFun.
From Verif Require Import Base Data BaseLemmas ProblemDefine CostScaling Generator GenMore Spec GenSpec GenMoreSpec GenRng GenGraphProof GenWeb GenShapes.
Local Open Scope Z_scope.

(** ** RootTree *)
Lemma nth_error_nth0 (a : list Z) k x : nth_error a k = Some x -> nth k a 0 = x.
Proof. apply nth_error_nth. Qed.

Lemma upd_nth_other (l : list Z) i k x : i <> k -> nth k (upd l i x) 0 = nth k l 0.
Proof.
  intro H. destruct (nth_error l k) as [y|] eqn:E.
  - rewrite (nth_error_nth0 l k y E). apply nth_error_nth. rewrite nth_error_upd_neq by exact H. exact E.
  - rewrite (nth_overflow l) by (apply nth_error_None; exact E). apply nth_overflow. rewrite upd_length. apply nth_error_None. exact E.
Qed.

Lemma tl_as_map (p : list Z) : tl p = map (fun i => nth i p 0) (seq 1 (length p - 1)).
Proof.
  destruct p as [|x p]; [reflexivity|]. cbn [tl length]. rewrite Nat.sub_succ, Nat.sub_0_r, <- seq_shift, map_map. cbn [nth]. symmetry. apply map_nth_seq.
Qed.

Theorem root_tree_ok fuel t s : 1 <= rt_node t <= INT_MAX -> 0 <= rt_root t < rt_node t ->
  runs (rng_fuel fuel) (fun '(edge, father, _) => Z.of_nat (length edge) = rt_node t - 1 /\ simple_connected (rt_node t) edge /\
     rooted_tree (rt_node t) (rt_root t) (rt_rootfather t) father edge) (root_tree_run fuel t s).
Proof.
  intros HN HR. unfold root_tree_run. set (N := rt_node t) in *. set (root := rt_root t) in *.
  destruct (iota_ok N) as [p0 (E0 & A0 & L0 & V0)]; [lia|]. rewrite E0. cbn [bind].
  rewrite (proj2 (Z.ltb_ge root 0)) by lia.
  destruct (vswap_ok p0 0 (Z.to_nat root)) as [p1 (E1 & P1 & _)]; [lia|lia|]. rewrite E1. cbn [bind].
  assert (F1 : nth_error p1 0 = Some root).
  { assert (X : exists x, nth_error p0 (Z.to_nat root) = Some x /\ x = root).
    { exists (nth (Z.to_nat root) p0 0). split; [apply nth_error_nth'; lia|]. rewrite V0 by lia. lia. }
    destruct X as [x [X ->]]. unfold vswap in E1. rewrite (vget_nth p0 0 0), (vget_ok _ _ _ X) in E1 by lia. cbn [bind] in E1.
    rewrite vset_ok in E1 by lia. cbn [bind] in E1. rewrite vset_ok in E1 by (rewrite upd_length; lia). injection E1 as <-.
    destruct (Nat.eq_dec (Z.to_nat root) 0) as [Z0|NZ].
    - rewrite Z0, nth_error_upd_eq by (rewrite upd_length; lia). rewrite V0 by lia. f_equal. lia.
    - rewrite nth_error_upd_neq by exact NZ. rewrite nth_error_upd_eq by lia. reflexivity. }
  pose proof (all_nodes_perm _ _ _ P1 A0) as A1. pose proof (Permutation_length P1) as L1.
  eapply runs_bind; [apply (shuffle_front fuel 1 p1); lia|]. intros [p s1] [P FR].
  pose proof (all_nodes_perm _ _ _ P A1) as A. assert (L : Z.of_nat (length p) = N) by (rewrite <- (Permutation_length P); lia).
  assert (R0 : nth 0 p 0 = root) by (apply nth_error_nth0; rewrite FR by lia; exact F1).
  clear FR F1 E1 P1 P A1 L1 p1. rename p0 into pp. set (pt := fun k => nth k p 0).
  assert (PR : forall k, (k < Z.to_nat N)%nat -> 0 <= pt k < N) by (intros k Hk; apply A; apply nth_In; lia).
  assert (PI : forall k k', (k < Z.to_nat N)%nat -> (k' < Z.to_nat N)%nat -> pt k = pt k' -> k = k').
  { intros k k' Hk Hk' E. apply (proj1 (NoDup_nth p 0) (proj1 A)); [lia|lia|exact E]. }
  set (I := fun (n : nat) (edge : list (Z * Z)) (father : list Z) => length father = Z.to_nat N /\
     (forall i, (1 <= i <= n)%nat -> exists f, (f < i)%nat /\ nth (Z.to_nat (pt i)) father 0 = pt f) /\
     Forall2 (same_edge false) edge (map (fun i => (pt i, nth (Z.to_nat (pt i)) father 0)) (seq 1 n)) /\
     web (firstn (S n) p) edge).
  eapply runs_bind.
  - apply (runs_for _ _ _ (fun pre '(edge, father, _) => I (length pre) edge father)).
    + split; [rewrite repeat_length; lia|]. split; [cbn; intros; lia|]. split; [constructor|].
      destruct p as [|x p]; [cbn in L; lia|]. cbn. apply web_one.
    + intros pre i suf [[edge father] s2] Eq (IL & IF & IE & IW). destruct (seq_pre _ _ _ _ _ Eq) as (Ei & Li & _).
      eapply runs_bind; [apply wnext_ok; lia|]. intros [f s3] [Hf _].
      rewrite (vget_nth p i 0), (vget_nth p (Z.to_nat f) 0) by lia. cbn [bind]. fold (pt i). fold (pt (Z.to_nat f)).
      pose proof (PR i ltac:(lia)) as Ri.
      rewrite vset_ok by lia. cbn [bind].
      eapply runs_bind; [apply next_int_ok; unfold INT_MAX; lia|]. intros [b s4] _. cbn [runs].
      set (f' := Z.to_nat f). assert (Hf' : (f' < i)%nat) by lia. clearbody f'. clear Hf.
      set (a := if b =? 0 then (pt f', pt i) else (pt i, pt f')).
      assert (Ha : same_edge false a (pt i, pt f')) by (unfold a; destruct (b =? 0); [right; auto|left; reflexivity]).
      clearbody a. rewrite app_length. cbn [length]. replace (length pre + 1)%nat with i by lia.
      assert (KEEP : forall j, (1 <= j < i)%nat -> nth (Z.to_nat (pt j)) (upd father (Z.to_nat (pt i)) (pt f')) 0 = nth (Z.to_nat (pt j)) father 0).
      { intros j Hj. apply upd_nth_other. intro C. pose proof (PR j ltac:(lia)). assert (i = j) by (apply PI; lia). lia. }
      split; [rewrite upd_length; exact IL|]. split; [|split].
      * intros j Hj. destruct (Nat.eq_dec j i) as [->|Nj].
        -- exists f'. split; [exact Hf'|]. apply nth_upd_eq. lia.
        -- destruct (IF j ltac:(lia)) as [g [G1 G2]]. exists g. split; [exact G1|]. rewrite KEEP by lia. exact G2.
      * replace (seq 1 i) with (seq 1 (length pre) ++ [i]) by (subst i; cbn [Nat.add]; rewrite (seq_S (length pre) 1); reflexivity). rewrite map_app. cbn [map].
        apply Forall2_snoc; [|rewrite nth_upd_eq by lia; exact Ha].
        rewrite (map_ext_in _ (fun i0 => (pt i0, nth (Z.to_nat (pt i0)) father 0))); [exact IE|].
        intros j Hj. apply in_seq in Hj. rewrite KEEP by lia. reflexivity.
      * rewrite (firstn_snoc p i) by lia. replace (S (length pre)) with i in IW by lia.
        apply (web_grow _ _ (pt i) (pt f')); [exact IW|apply new_not_in; [apply A|lia]| |exact Ha].
        unfold pt. rewrite <- (nth_firstn p i) by lia. apply nth_In. rewrite firstn_length_le; lia.
  - intros [[edge father] s2] (IL & IF & IE & IW). rewrite seq_length in *.
    replace (S (Z.to_nat N - 1)) with (length p) in IW by lia. rewrite firstn_all in IW.
    rewrite vset_ok by lia. cbn [bind]. set (father' := upd father (Z.to_nat root) (rt_rootfather t)).
    assert (KEEP : forall j, (1 <= j < Z.to_nat N)%nat -> nth (Z.to_nat (pt j)) father' 0 = nth (Z.to_nat (pt j)) father 0).
    { intros j Hj. apply upd_nth_other. intro C. pose proof (PR j ltac:(lia)). assert (0 = j)%nat; [|lia]. apply PI; [lia|lia|]. unfold pt at 1. lia. }
    pose proof (drawn_length _ _ _ (drawn_forall _ _ _ IE)) as LE. rewrite map_length, seq_length in LE.
    eapply runs_bind; [apply shuffle_ok; lia|]. intros [edge' s3] P'. cbn [runs].
    assert (IX : forall v, 0 <= v < N -> exists k, (k < Z.to_nat N)%nat /\ v = pt k).
    { intros v Hv. apply A in Hv. destruct (In_nth p v 0 Hv) as [k [Hk <-]]. exists k. split; [lia|reflexivity]. }
    split; [rewrite <- (Permutation_length P'); lia|].
    split; [apply (web_nodes N p); [apply A|]; exact (web_perm _ _ _ P' IW)|].
    split; [unfold father'; rewrite upd_length; lia|]. split; [apply nth_upd_eq; lia|]. split; [|split].
    + intros v Hv Nv. destruct (IX v Hv) as [k [Hk ->]]. destruct (Nat.eq_dec k 0) as [->|Nk]; [exfalso; apply Nv; exact R0|].
      rewrite KEEP by lia. destruct (IF k ltac:(lia)) as [f [Hf ->]]. apply PR. lia.
    + assert (B : forall k, (k < Z.to_nat N)%nat -> below father' root (pt k)).
      { intro k. induction k as [k IH] using lt_wf_ind. intro Hk. destruct (Nat.eq_dec k 0) as [->|Nk].
        - unfold pt. rewrite R0. constructor.
        - pose proof (PR k Hk). apply below_child; [|lia|].
          + intro C. assert (k = 0)%nat; [|lia]. apply PI; [lia|lia|]. unfold pt at 2. lia.
          + rewrite KEEP by lia. destruct (IF k ltac:(lia)) as [f [Hf ->]]. apply IH; lia. }
      intros v Hv. destruct (IX v Hv) as [k [Hk ->]]. apply B. exact Hk.
    + exists (tl p). split.
      * destruct p as [|x p]; [cbn in L; lia|]. cbn in R0. subst x. exact A.
      * apply (drawn_perm _ edge); [exact P'|]. apply drawn_forall. rewrite tl_as_map, map_map. fold pt.
        replace (length p - 1)%nat with (Z.to_nat N - 1)%nat by lia.
        rewrite (map_ext_in _ (fun i0 => (pt i0, nth (Z.to_nat (pt i0)) father 0))); [exact IE|].
        intros j Hj. apply in_seq in Hj. fold (pt j). rewrite KEEP by lia. reflexivity.
Qed.

(** ** Cactus: joining the blocks *)
Inductive joined : list (list Z) -> list (Z * Z) -> Prop :=
| joined_one a : joined [a] (closed false a)
| joined_more C F a x : joined C F -> In x (concat C) -> joined (C ++ [a]) (F ++ closed false (a ++ [x])).

Definition blocks_ok (C : list (list Z)) : Prop := NoDup (concat C) /\ forall a, In a C -> a <> [].

Lemma NoDup_app_inv {A} (l l' : list A) : NoDup (l ++ l') -> NoDup l /\ NoDup l' /\ forall x, In x l -> ~ In x l'.
Proof.
  induction l as [|x l IH]; cbn; intro H; [split; [constructor|]; split; [exact H|intros ? []]|].
  inversion H; subst. destruct (IH H3) as (A1 & A2 & A3). split; [|split; [exact A2|]].
  - constructor; [|exact A1]. intro C. apply H2. apply in_or_app. auto.
  - intros y [<-|Hy]; [|apply A3; exact Hy]. intro C. apply H2. apply in_or_app. auto.
Qed.

Lemma concat_snoc {A} (C : list (list A)) a : concat (C ++ [a]) = concat C ++ a.
Proof. rewrite concat_app. cbn. rewrite app_nil_r. reflexivity. Qed.

Lemma any_ok {A} fuel (l : list A) s : l <> [] -> Z.of_nat (length l) <= INT_MAX ->
  runs (rng_fuel fuel) (fun '(x, _) => In x l) (any fuel l s).
Proof.
  intros NN L. unfold any. destruct l as [|y l]; [congruence|]. cbn [length Nat.eqb]. cbn [length] in L.
  eapply runs_bind; [apply next_int_ok; lia|]. intros [i s'] [Hi _].
  rewrite (vget_nth (y :: l) (Z.to_nat i) y) by (cbn; lia). cbn [bind runs]. apply nth_In. cbn. lia.
Qed.

Lemma blocks_sub {A} (C : list (list A)) a : In a C -> (length a <= length (concat C))%nat.
Proof.
  induction C as [|b C IH]; intros []; cbn; rewrite app_length; [subst; lia|]. specialize (IH H). lia.
Qed.

Lemma firstn_snoc_gen {A} (a : list A) n x : nth_error a n = Some x -> firstn (S n) a = firstn n a ++ [x].
Proof.
  revert n. induction a as [|y a IH]; intros [|n] H; try discriminate H; cbn in *; [congruence|]. f_equal. apply IH. exact H.
Qed.

Lemma cactus_join_ok fuel C s : blocks_ok C -> C <> [] -> Z.of_nat (length (concat C)) <= INT_MAX ->
  Z.of_nat (length C) <= INT_MAX ->
  runs (rng_fuel fuel) (fun '(E, _) => exists F, joined C F /\ Forall2 (same_edge false) E F) (cactus_join fuel C s).
Proof.
  intros [ND NE] NN LC LB. unfold cactus_join.
  eapply runs_weaken; [|intro H; exact H|].
  - apply (runs_for _ _ _ (fun pre '(E, _) => match length pre with
       | O => E = [] | S _ => exists F, joined (firstn (length pre) C) F /\ Forall2 (same_edge false) E F end)).
    + reflexivity.
    + intros pre i suf [E s1] Eq HI. destruct (seq_pre _ _ _ _ _ Eq) as (Ei & Li & _). cbn in Ei. subst i.
      set (i := length pre) in *. destruct (nth_error C i) as [a|] eqn:Ea; [|apply nth_error_None in Ea; lia].
      rewrite (vget_ok _ _ _ Ea). cbn [bind]. rewrite app_length. cbn [length]. replace (length pre + 1)%nat with (S i) by (unfold i; lia).
      pose proof (firstn_snoc_gen _ _ _ Ea) as FS.
      assert (ND' : NoDup (concat (firstn (S i) C))).
      { rewrite <- (firstn_skipn (S i) C), concat_app in ND. apply NoDup_app_inv in ND. apply ND. }
      rewrite FS, concat_snoc in ND'. destruct (NoDup_app_inv _ _ ND') as (NDl & NDa & DJ).
      destruct (Nat.eqb_spec i 0) as [Z0|NZ].
      * cbn [bind]. eapply runs_bind; [apply cycle_from_ok; [exact NDa|apply NE; eapply nth_error_In; exact Ea|reflexivity|reflexivity]|].
        intros [g' s2] (E' & e' & -> & F). cbn [runs with_edges g_edge]. rewrite Z0 in HI. rewrite HI. cbn [app].
        exists (closed false a). split; [|exact F]. rewrite FS, Z0. cbn. constructor.
      * eapply runs_bind.
        { eapply runs_bind; [apply next_int_ok; lia|]. intros [w s2] [Hw _].
          destruct (nth_error C (Z.to_nat w)) as [c|] eqn:Ec; [|apply nth_error_None in Ec; lia].
          rewrite (vget_ok _ _ _ Ec). cbn [bind].
          assert (HC : In c C) by (eapply nth_error_In; exact Ec).
          eapply runs_bind; [apply any_ok; [apply NE; exact HC|pose proof (blocks_sub _ _ HC); lia]|].
          intros [x s3] Hx. apply (runs_ret _ (fun '(l, _) => exists x, l = a ++ [x] /\ In x (concat (firstn i C)))).
          exists x. split; [reflexivity|]. apply in_concat. exists c. split; [|exact Hx].
          apply (nth_error_In _ (Z.to_nat w)). rewrite <- Ec.
          assert (G : forall k i, (k < i)%nat -> nth_error (firstn i C) k = nth_error C k).
          { clear. induction C as [|b C IH]; intros [|k] [|i] H; try lia; cbn; try reflexivity. apply IH. lia. }
          apply G. lia. }
        intros [b s2] (x & -> & Hx).
        eapply runs_bind; [apply cycle_from_ok; [| |reflexivity|reflexivity]|].
        -- apply (Permutation_NoDup (l := x :: a)); [apply Permutation_cons_append|]. constructor; [|exact NDa]. apply DJ. exact Hx.
        -- destruct a; discriminate.
        -- intros [g' s3] (E' & e' & -> & F). cbn [runs with_edges g_edge].
           destruct i as [|i']; [lia|]. destruct HI as (F0 & J & FE). exists (F0 ++ closed false (a ++ [x])).
           split; [|apply Forall2_app; assumption]. rewrite FS. constructor; assumption.
  - intros [E s'] H. rewrite seq_length in H. rewrite firstn_all in H. destruct C; [congruence|exact H].
Qed.

Lemma closed_web a : NoDup a -> a <> [] -> web a (closed false a).
Proof.
  intros ND NN. unfold closed. destruct (Nat.leb_spec (length a) 2); [apply path_web; assumption|apply ring_web; [exact ND|lia]].
Qed.

Lemma joined_web C F : joined C F -> blocks_ok C -> web (concat C) F.
Proof.
  intro J. induction J as [a|C F a x J IH Hx]; intros [ND NE].
  - cbn in *. rewrite app_nil_r in *. apply closed_web; [exact ND|apply NE; auto].
  - rewrite concat_snoc in *. destruct (NoDup_app_inv _ _ ND) as (NDl & NDa & DJ).
    assert (ND' : NoDup (a ++ [x])).
    { apply (Permutation_NoDup (l := x :: a)); [apply Permutation_cons_append|]. constructor; [|exact NDa]. apply DJ. exact Hx. }
    apply (web_mono (concat C ++ (a ++ [x]))).
    + intro y. rewrite !in_app_iff. cbn. split; [|tauto]. intros [H|[H|[H|[]]]]; subst; auto.
    + apply (web_glue _ _ _ _ x).
      * apply IH. split; [exact NDl|]. intros b Hb. apply NE. apply in_or_app. auto.
      * apply closed_web; [exact ND'|]. destruct a; discriminate.
      * exact Hx.
      * apply in_or_app. right. left. reflexivity.
      * intros y Hy Hy'. apply in_app_or in Hy'. destruct Hy' as [Hy'|[<-|[]]]; [|reflexivity]. exfalso. exact (DJ y Hy Hy').
Qed.

Definition big (l : list (list Z)) : nat := length (filter (fun a => (2 <=? length a)%nat) l).

Lemma big_perm l l' : Permutation l l' -> big l = big l'.
Proof.
  intro P. unfold big. induction P as [|x l l' P IH|x y l|l l' l'' P1 IH1 P2 IH2]; cbn [filter].
  - reflexivity.
  - destruct (2 <=? length x)%nat; cbn [length]; congruence.
  - destruct (2 <=? length x)%nat, (2 <=? length y)%nat; reflexivity.
  - congruence.
Qed.

Lemma joined_length C F : joined C F -> (forall a, In a C -> a <> []) ->
  S (length F) = (length (concat C) + (if 3 <=? length (hd [] C) then 1 else 0) + big (tl C))%nat.
Proof.
  intro J. induction J as [a|C F a x J IH Hx]; intro NE.
  - cbn [concat hd tl]. rewrite app_nil_r. specialize (NE a (or_introl eq_refl)). unfold big, closed. cbn [filter length].
    destruct a as [|y a]; [congruence|]. destruct (Nat.leb_spec (length (y :: a)) 2), (Nat.leb_spec 3 (length (y :: a))); try lia.
    + rewrite path_length. cbn. lia.
    + rewrite ring_length by discriminate. cbn. lia.
  - specialize (IH ltac:(intros b Hb; apply NE; apply in_or_app; auto)).
    assert (NC : C <> []) by (intros ->; destruct Hx). rewrite app_length, concat_snoc, app_length.
    assert (Eh : hd [] (C ++ [a]) = hd [] C) by (destruct C; [congruence|reflexivity]).
    assert (Et : tl (C ++ [a]) = tl C ++ [a]) by (destruct C; [congruence|reflexivity]).
    rewrite Eh, Et. unfold big in *. rewrite filter_app, app_length. cbn [filter].
    assert (La : (1 <= length a)%nat) by (specialize (NE a ltac:(apply in_or_app; right; left; reflexivity)); destruct a; [congruence|cbn; lia]).
    unfold closed. destruct (Nat.leb_spec (length (a ++ [x])) 2) as [H|H]; rewrite app_length in H; cbn [length] in H;
      destruct (Nat.leb_spec 2 (length a)); try lia; cbn [length].
    + rewrite path_length, app_length. cbn [length]. lia.
    + rewrite ring_length by (destruct a; discriminate). rewrite app_length. cbn [length]. lia.
Qed.

Lemma joined_cactus C F : joined C F -> blocks_ok C -> (3 <= length (hd [] C))%nat -> cactus (concat C) F.
Proof.
  intro J. induction J as [a|C F a x J IH Hx]; intros [ND NE] L.
  - cbn in *. rewrite app_nil_r in *. rewrite closed_ring by exact L. constructor; assumption.
  - rewrite concat_snoc in *. destruct (NoDup_app_inv _ _ ND) as (NDl & NDa & DJ).
    assert (NC : C <> []) by (intros ->; destruct Hx).
    assert (Eh : hd [] (C ++ [a]) = hd [] C) by (destruct C; [congruence|reflexivity]). rewrite Eh in L.
    assert (NA : a <> []) by (apply NE; apply in_or_app; right; left; reflexivity).
    replace (closed false (a ++ [x])) with (block_edges (a ++ [x])).
    + apply cactus_glue; [apply IH; [split; [exact NDl|]|exact L]|exact Hx|exact NDa|exact NA|].
      * intros b Hb. apply NE. apply in_or_app. auto.
      * intros y Hy C'. exact (DJ y C' Hy).
    + unfold block_edges, closed. rewrite app_length. cbn [length]. assert (1 <= length a)%nat by (destruct a; [congruence|cbn; lia]).
      destruct (Nat.eqb_spec (length a + 1) 2), (Nat.leb_spec (length a + 1) 2); try lia; reflexivity.
Qed.
