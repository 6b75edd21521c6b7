(** * The draws of the trees drawn with [std::pow] *)
From Coq Require Import Permutation FinFun Floats.SpecFloat.
From Verif Require Import Base Data BaseLemmas ProblemDefine CostScaling Generator GenMore GenFar Spec GenSpec GenMoreSpec FloatSpec GenFarSpec FloatExact FloatRound GenRng GenGraphProof GenWeb GenShapes GenTrees GenFarFloat.
Local Open Scope Z_scope.

Lemma pow_zero powf : pow_good powf ->
  powf (unit_of 0) (SFdiv f64_prec f64_emax (f64_of_Z 1) (f64_of_Z root_degree)) = S754_zero false.
Proof. intros [H _]. apply H. exact unit_of_0. Qed.

Lemma pow_other powf z : pow_good powf -> 0 < z < 2 ^ 53 ->
  exists P, f64_is 53 (powf (unit_of z) (SFdiv f64_prec f64_emax (f64_of_Z 1) (f64_of_Z root_degree))) P /\ 2 ^ 52 <= P <= 2 ^ 53 /\ 2700 * (2 ^ 53 - P) < 2 ^ 53.
Proof.
  intros [_ H] Hz. destruct (H (unit_of z) z Hz (unit_of_is z Hz)) as (P & H1 & H2 & H3). exists P. split; [exact H1|]. split; [exact H2|].
  apply (root_near_1 z P); [lia|lia| |exact H3]. destruct H2 as [H2 _]. apply Z.le_trans with (2 ^ 52); [|exact H2]. discriminate.
Qed.

Lemma far_up powf n s : pow_good powf -> 0 < n <= INT_MAX ->
  exists z t, 0 <= z < 2 ^ 53 /\ (z = 0 -> rng_step s = 0) /\ fst (unit_bits s) = z /\ wnext_far powf n 100000 s = Ok (t, rng_step (rng_step s)) /\ 0 <= t < n /\
    (n <= 2700 -> t = if z =? 0 then 0 else n - 1).
Proof.
  intros G Hn. destruct (unit_bits_eq s) as (z & Eu & Hz & H0). exists z. unfold wnext_far. rewrite (proj2 (Z.leb_gt n 0)), Eu by lia.
  change (0 <? 100000) with true. change (100000 + 1) with root_degree. cbv iota beta zeta.
  destruct (Z.eqb_spec z 0) as [->|Nz].
  - rewrite (pow_zero powf G). destruct (mul_int n (S754_zero false) 0 Hn) as (t & Et & Ht & T0 & _); [reflexivity|lia|]. rewrite Et. cbn [bind].
    exists (Z.min (Z.max t 0) (n - 1)). rewrite (T0 eq_refl) in *. repeat split; try assumption; lia.
  - destruct (pow_other powf z G ltac:(lia)) as (P & HP & RP & NP). destruct (mul_int n _ P Hn HP) as (t & Et & Ht & _ & T1 & _); [lia|]. rewrite Et. cbn [bind].
    exists (Z.min (Z.max t 0) (n - 1)). split; [exact Hz|]. split; [exact H0|]. split; [reflexivity|]. split; [reflexivity|]. split; [lia|]. intro Hs. assert (n - 1 <= t) by (apply T1; nia). lia.
Qed.

Lemma far_down powf n s : pow_good powf -> 0 < n <= INT_MAX ->
  exists z t, 0 <= z < 2 ^ 53 /\ (z = 0 -> rng_step s = 0) /\ fst (unit_bits s) = z /\ wnext_far powf n (-100000) s = Ok (t, rng_step (rng_step s)) /\ 0 <= t < n /\
    (n <= 2700 -> t = if z =? 0 then n - 1 else 0).
Proof.
  intros G Hn. destruct (unit_bits_eq s) as (z & Eu & Hz & H0). exists z. unfold wnext_far. rewrite (proj2 (Z.leb_gt n 0)), Eu by lia.
  change (0 <? -100000) with false. change (- -100000 + 1) with root_degree. cbv iota beta zeta.
  destruct (Z.eqb_spec z 0) as [->|Nz].
  - rewrite (pow_zero powf G). change (SFsub f64_prec f64_emax (f64_of_Z 1) (S754_zero false)) with (f64_of_Z 1).
    destruct (mul_int n (f64_of_Z 1) (2 ^ 53) Hn) as (t & Et & Ht & _ & T1 & _); [vm_compute; auto|lia|]. rewrite Et. cbn [bind].
    exists (Z.min (Z.max t 0) (n - 1)). split; [exact Hz|]. split; [exact H0|]. split; [reflexivity|]. split; [reflexivity|]. split; [lia|]. intro Hs. assert (n - 1 <= t) by (apply T1; lia). lia.
  - destruct (pow_other powf z G ltac:(lia)) as (P & HP & RP & NP). destruct (mul_int n _ (2 ^ 53 - P) Hn (one_minus _ _ HP RP)) as (t & Et & Ht & _ & _ & T2); [lia|]. rewrite Et. cbn [bind].
    exists (Z.min (Z.max t 0) (n - 1)). split; [exact Hz|]. split; [exact H0|]. split; [reflexivity|]. split; [reflexivity|]. split; [lia|]. intro Hs. assert (t = 0) by (apply T2; nia). lia.
Qed.

Lemma all_far powf fuel n type s : 25 <= Z.abs type -> wnext_all powf fuel n type s = wnext_far powf n type s.
Proof. intro H. unfold wnext_all. rewrite (proj2 (Z.ltb_ge _ _)) by exact H. reflexivity. Qed.

(** ** A function that meets [pow_good] *)
Definition crude_pow (x y : spec_float) : spec_float := if SFeqb x (f64_of_Z 0) then S754_zero false else f64_of_Z 1.

Lemma crude_bound d z A : 1 <= d -> 0 < z <= A -> z * A ^ (d - 1) <= (A + 2 ^ 13) ^ d.
Proof.
  intros Hd Hz. apply Z.le_trans with (A ^ d); [|apply Z.pow_le_mono_l; lia].
  replace (A ^ d) with (A * A ^ (d - 1)) by (rewrite <- Z.pow_succ_r by lia; f_equal; lia).
  apply Z.mul_le_mono_nonneg_r; [apply Z.pow_nonneg; lia|lia].
Qed.

Lemma crude_good : pow_good crude_pow.
Proof.
  split.
  - intros x H. unfold crude_pow. rewrite H. reflexivity.
  - intros x z Hz Hx. exists (2 ^ 53). split; [|split; [split; discriminate|]].
    + unfold crude_pow. destruct (SFeqb x (f64_of_Z 0)) eqn:E; [|vm_compute; auto].
      exfalso. destruct (is53_fin _ _ Hx) as [F V]. destruct x as [s|s| |s m e]; try contradiction F; [|destruct s; discriminate E].
      cbn [fv] in V. assert (0 < 2 ^ 1021) by (apply Z.pow_pos_nonneg; lia). nia.
    + rewrite Z.pow_mul_r by (unfold root_degree; lia). apply crude_bound; [unfold root_degree; lia|lia].
Qed.

(** ** Steps from the state 0 *)
Fixpoint away (k : nat) (s : rng) : bool :=
  match k with O => true | S k => let s := rng_step s in if s =? 0 then false else away k s end.

Lemma away_steps k : forall s j, away k s = true -> (1 <= j <= k)%nat -> steps j s <> 0.
Proof.
  induction k as [|k IH]; intros s j H Hj; [lia|]. cbn [away] in H. destruct (Z.eqb_spec (rng_step s) 0) as [|N]; [discriminate|].
  destruct j as [|j]; [lia|]. cbn [steps]. destruct j as [|j]; [exact N|]. apply IH; [exact H|lia].
Qed.

Lemma not_back j : (1 <= j)%nat -> Z.of_nat j <= 8200 -> steps j 0 <> 0.
Proof. intros H1 H2. apply (away_steps (Z.to_nat 8200)); [vm_compute; reflexivity|lia]. Qed.

(** ** What the loops draw *)
Lemma coin fuel s : exists b, next_int fuel 2 s = Ok (b, rng_step s).
Proof. eexists. reflexivity. Qed.

(** the tree with the nodes [p] in which the node at place k + 1 hangs on the
    one at place [nth k F] *)
Definition hung (p : list Z) (F : list nat) : list (Z * Z) :=
  map (fun k => (nth (S k) p 0, nth (nth k F O) p 0)) (seq 0 (length F)).
Definition downward (F : list nat) : Prop := forall k, (k < length F)%nat -> (nth k F O <= k)%nat.

Lemma hung_snoc p F f : hung p (F ++ [f]) = hung p F ++ [(nth (S (length F)) p 0, nth f p 0)].
Proof.
  unfold hung. rewrite app_length. cbn [length]. rewrite Nat.add_1_r, seq_S, map_app. cbn [map Nat.add]. f_equal.
  - apply map_ext_in. intros k Hk. apply in_seq in Hk. rewrite app_nth1 by lia. reflexivity.
  - rewrite app_nth2, Nat.sub_diag by lia. reflexivity.
Qed.

Lemma downward_snoc F f : downward F -> (f <= length F)%nat -> downward (F ++ [f]).
Proof.
  intros H Hf k Hk. rewrite app_length in Hk. cbn [length] in Hk. destruct (Nat.eq_dec k (length F)) as [->|N].
  - rewrite app_nth2, Nat.sub_diag by lia. exact Hf.
  - rewrite app_nth1 by lia. apply H. lia.
Qed.

Section Loops.
Variables (powf : spec_float -> spec_float -> spec_float) (fuel : nat) (N shift : Z) (J : list nat -> rng -> Prop).
Hypothesis HN : 1 <= N <= INT_MAX.
Hypothesis J0 : forall s, J [] s.
Hypothesis JS : forall F s, J F s -> Z.of_nat (S (length F)) < N ->
  runs (rng_fuel fuel) (fun '(f, s1) => 0 <= f < Z.of_nat (S (length F)) /\ J (F ++ [Z.to_nat f]) (rng_step s1))
    (wnext_all powf fuel (Z.of_nat (S (length F))) shift s).

Lemma unroot_hung s : runs (rng_fuel fuel) (fun '(E, _) => exists p F s2, all_nodes N p /\ nth 0 p 0 = 0 /\ Z.of_nat (length F) = N - 1 /\ downward F /\ J F s2 /\ drawn_as false E (hung p F))
  (unroot_run powf fuel N shift s).
Proof.
  unfold unroot_run. rewrite (proj2 (Z.leb_gt N 0)) by lia. cbn [bind]. set (p0 := map Z.of_nat (seq 0 (Z.to_nat N))).
  assert (L0 : length p0 = Z.to_nat N) by (unfold p0; rewrite map_length, seq_length; reflexivity).
  assert (A0 : all_nodes N p0).
  { split; [unfold p0; apply Injective_map_NoDup; [intros x y; lia|apply seq_NoDup]|]. intro x. unfold p0. rewrite in_map_iff. split.
    - intros [k [<- Hk]]. apply in_seq in Hk. lia.
    - intro H. exists (Z.to_nat x). split; [lia|]. apply in_seq. lia. }
  eapply runs_bind; [apply (shuffle_front fuel 1 p0); lia|]. intros [p s1] [P FR].
  pose proof (all_nodes_perm _ _ _ P A0) as A. assert (L : length p = Z.to_nat N) by (rewrite <- (Permutation_length P); lia).
  assert (Hz : nth 0 p 0 = 0).
  { apply nth_error_nth0. rewrite FR by lia. unfold p0. destruct (Z.to_nat N) as [|n] eqn:En; [lia|reflexivity]. }
  eapply runs_bind.
  - apply (runs_for _ _ _ (fun pre '(E, s2) => exists F, length F = length pre /\ downward F /\ J F s2 /\ Forall2 (same_edge false) E (hung p F))).
    + exists []. split; [reflexivity|]. split; [intros k Hk; cbn in Hk; lia|]. split; [apply J0|constructor].
    + intros pre i suf [E s2] Eq (F & LF & DF & HJ & HE). destruct (seq_pre _ _ _ _ _ Eq) as (Ei & Li & _).
      assert (Ei' : i = S (length F)) by lia. rewrite Ei'. eapply runs_bind; [apply JS; [exact HJ|lia]|]. intros [f s3] [Hf HJ'].
      destruct (coin fuel s3) as [b Eb]. rewrite Eb. cbn [bind]. rewrite (vget_nth p _ 0), (vget_nth p (Z.to_nat f) 0) by lia. cbn [bind runs].
      exists (F ++ [Z.to_nat f]). split; [rewrite !app_length; cbn [length]; lia|]. split; [apply downward_snoc; [exact DF|lia]|]. split; [exact HJ'|].
      rewrite hung_snoc. apply Forall2_snoc; [exact HE|]. destruct (b =? 0); [right; auto|left; reflexivity].
  - intros [E s2] (F & LF & DF & HJ & HE). rewrite seq_length in LF.
    pose proof (drawn_length _ _ _ (drawn_forall _ _ _ HE)) as LE. unfold hung in LE. rewrite map_length, seq_length in LE.
    eapply runs_weaken; [apply shuffle_ok; lia|auto|]. intros [E' s3] P'. exists p, F, s2. split; [exact A|]. split; [exact Hz|]. split; [lia|]. split; [exact DF|]. split; [exact HJ|].
    apply (drawn_perm _ E); [exact P'|]. apply drawn_forall. exact HE.
Qed.

Lemma root_hung t s : rt_node t = N -> rt_shift t = shift -> 0 <= rt_root t < N ->
  runs (rng_fuel fuel) (fun '(E, father, _) => exists p F s2, all_nodes N p /\ nth 0 p 0 = rt_root t /\ Z.of_nat (length F) = N - 1 /\ downward F /\ J F s2 /\ drawn_as false E (hung p F) /\
     Z.of_nat (length father) = N /\ nth (Z.to_nat (rt_root t)) father 0 = rt_rootfather t /\
     forall k, (k < length F)%nat -> nth (Z.to_nat (nth (S k) p 0)) father 0 = nth (nth k F O) p 0)
  (root_run powf fuel t s).
Proof.
  intros HtN HtS HR. unfold root_run. rewrite HtN, HtS. set (root := rt_root t) in *.
  destruct (iota_ok N) as [p0 (E0 & A0 & L0 & V0)]; [lia|]. rewrite E0. cbn [bind].
  rewrite (proj2 (Z.ltb_ge root 0)) by lia.
  destruct (vswap_ok p0 0 (Z.to_nat root)) as [p1 (E1 & P1 & _)]; [lia|lia|]. rewrite E1. cbn [bind].
  assert (F1 : nth_error p1 0 = Some root).
  { assert (X : exists x, nth_error p0 (Z.to_nat root) = Some x /\ x = root).
    { exists (nth (Z.to_nat root) p0 0). split; [apply nth_error_nth'; lia|]. rewrite V0 by lia. lia. }
    destruct X as [x [X ->]]. unfold vswap in E1. rewrite (vget_nth p0 0 0), (vget_ok _ _ _ X) in E1 by lia. cbn [bind] in E1.
    rewrite vset_ok in E1 by lia. cbn [bind] in E1. rewrite vset_ok in E1 by (rewrite upd_length; lia). injection E1 as <-.
    destruct (Nat.eq_dec (Z.to_nat root) 0) as [Z0|NZ].
    - rewrite Z0, nth_error_upd_eq by (rewrite upd_length; lia). rewrite V0 by lia. f_equal. lia.
    - rewrite nth_error_upd_neq by exact NZ. rewrite nth_error_upd_eq by lia. reflexivity. }
  pose proof (all_nodes_perm _ _ _ P1 A0) as A1. pose proof (Permutation_length P1) as L1.
  eapply runs_bind; [apply (shuffle_front fuel 1 p1); lia|]. intros [p s1] [P FR].
  pose proof (all_nodes_perm _ _ _ P A1) as A. assert (L : length p = Z.to_nat N) by (rewrite <- (Permutation_length P); lia).
  assert (R0 : nth 0 p 0 = root) by (apply nth_error_nth0; rewrite FR by lia; exact F1).
  clear FR F1 E1 P1 P A1 L1 p1. rename p0 into pp.
  assert (PR : forall k, (k < Z.to_nat N)%nat -> 0 <= nth k p 0 < N) by (intros k Hk; apply A; apply nth_In; lia).
  assert (PI : forall k k', (k < Z.to_nat N)%nat -> (k' < Z.to_nat N)%nat -> nth k p 0 = nth k' p 0 -> k = k').
  { intros k k' Hk Hk' E. apply (proj1 (NoDup_nth p 0) (proj1 A)); [lia|lia|exact E]. }
  eapply runs_bind.
  - apply (runs_for _ _ _ (fun pre '(E, father, s2) => exists F, length F = length pre /\ downward F /\ J F s2 /\ Forall2 (same_edge false) E (hung p F) /\
      length father = Z.to_nat N /\ forall k, (k < length F)%nat -> nth (Z.to_nat (nth (S k) p 0)) father 0 = nth (nth k F O) p 0)).
    + exists []. split; [reflexivity|]. split; [intros k Hk; cbn in Hk; lia|]. split; [apply J0|]. split; [constructor|]. split; [rewrite repeat_length; lia|intros k Hk; cbn in Hk; lia].
    + intros pre i suf [[E father] s2] Eq (F & LF & DF & HJ & HE & LD & HF). destruct (seq_pre _ _ _ _ _ Eq) as (Ei & Li & _).
      assert (Ei' : i = S (length F)) by lia. rewrite Ei'. eapply runs_bind; [apply JS; [exact HJ|lia]|]. intros [f s3] [Hf HJ'].
      rewrite (vget_nth p _ 0), (vget_nth p (Z.to_nat f) 0) by lia. cbn [bind]. pose proof (PR (S (length F)) ltac:(lia)) as Ri.
      rewrite vset_ok by lia. cbn [bind]. destruct (coin fuel s3) as [b Eb]. rewrite Eb. cbn [bind runs].
      exists (F ++ [Z.to_nat f]). split; [rewrite !app_length; cbn [length]; lia|]. split; [apply downward_snoc; [exact DF|lia]|]. split; [exact HJ'|].
      split; [rewrite hung_snoc; apply Forall2_snoc; [exact HE|]; destruct (b =? 0); [right; auto|left; reflexivity]|].
      split; [rewrite upd_length; exact LD|]. intros k Hk. rewrite app_length in Hk. cbn [length] in Hk. destruct (Nat.eq_dec k (length F)) as [->|Nk].
      * rewrite nth_upd_eq by lia. rewrite app_nth2, Nat.sub_diag by lia. reflexivity.
      * rewrite app_nth1 by lia. rewrite upd_nth_other; [apply HF; lia|]. intro C. pose proof (PR (S k) ltac:(lia)).
        assert (S (length F) = S k) by (apply PI; lia). lia.
  - intros [[E father] s2] (F & LF & DF & HJ & HE & LD & HF). rewrite seq_length in LF. rewrite vset_ok by lia. cbn [bind].
    pose proof (drawn_length _ _ _ (drawn_forall _ _ _ HE)) as LE. unfold hung in LE. rewrite map_length, seq_length in LE.
    eapply runs_bind; [apply shuffle_ok; lia|]. intros [E' s3] P'. cbn [runs]. exists p, F, s2. split; [exact A|]. split; [exact R0|]. split; [lia|]. split; [exact DF|]. split; [exact HJ|].
    split; [apply (drawn_perm _ E); [exact P'|]; apply drawn_forall; exact HE|].
    split; [rewrite upd_length; lia|]. split; [apply nth_upd_eq; lia|]. intros k Hk. rewrite upd_nth_other; [apply HF; exact Hk|].
    intro C. pose proof (PR (S k) ltac:(lia)). assert (O = S k) by (apply PI; lia). lia.
Qed.
End Loops.

(** ** What such a tree is *)
Lemma hung_web p : NoDup p -> forall F, (length F < length p)%nat -> downward F -> web (firstn (S (length F)) p) (hung p F).
Proof.
  intros ND F. induction F as [|f F IH] using rev_ind; intros L D.
  - destruct p as [|x p]; [cbn in L; lia|]. cbn. apply web_one.
  - rewrite app_length in *. cbn [length] in *. replace (length F + 1)%nat with (S (length F)) in * by lia.
    assert (D' : downward F) by (intros k Hk; specialize (D k ltac:(rewrite app_length; cbn; lia)); rewrite app_nth1 in D by lia; exact D).
    assert (Hf : (f <= length F)%nat) by (specialize (D (length F) ltac:(rewrite app_length; cbn; lia)); rewrite app_nth2, Nat.sub_diag in D by lia; exact D).
    rewrite hung_snoc, (firstn_snoc p (S (length F))) by lia.
    apply (web_grow _ _ (nth (S (length F)) p 0) (nth f p 0)); [apply IH; [lia|exact D']|apply new_not_in; [exact ND|lia]| |left; reflexivity].
    rewrite <- (nth_firstn p (S (length F))) by lia. apply nth_In. rewrite firstn_length_le; lia.
Qed.

Lemma hung_length p F : length (hung p F) = length F.
Proof. unfold hung. rewrite map_length, seq_length. reflexivity. Qed.

Lemma hung_tree N p F E : 1 <= N -> all_nodes N p -> Z.of_nat (length F) = N - 1 -> downward F -> drawn_as false E (hung p F) ->
  Z.of_nat (length E) = N - 1 /\ simple_connected N E.
Proof.
  intros HN A L D DR. pose proof (all_nodes_length N p ltac:(lia) A) as LP. split; [rewrite (drawn_length _ _ _ DR), hung_length; exact L|].
  apply (web_nodes N p); [apply A|]. eapply web_drawn; [exact DR|]. pose proof (hung_web p (proj1 A) F ltac:(lia) D) as W.
  rewrite firstn_all2 in W by lia. exact W.
Qed.

Lemma hung_rooted N p F E root rootfather father : 1 <= N -> 0 <= root < N -> all_nodes N p -> nth 0 p 0 = root -> Z.of_nat (length F) = N - 1 -> downward F -> drawn_as false E (hung p F) ->
  Z.of_nat (length father) = N -> nth (Z.to_nat root) father 0 = rootfather ->
  (forall k, (k < length F)%nat -> nth (Z.to_nat (nth (S k) p 0)) father 0 = nth (nth k F O) p 0) ->
  rooted_tree N root rootfather father E.
Proof.
  intros HN HR A R0 L D DR LF RF HF. pose proof (all_nodes_length N p ltac:(lia) A) as LP.
  assert (PR : forall k, (k < Z.to_nat N)%nat -> 0 <= nth k p 0 < N) by (intros k Hk; apply A; apply nth_In; lia).
  assert (IX : forall v, 0 <= v < N -> exists k, (k < Z.to_nat N)%nat /\ v = nth k p 0).
  { intros v Hv. apply A in Hv. destruct (In_nth p v 0 Hv) as [k [Hk <-]]. exists k. split; [lia|reflexivity]. }
  split; [exact LF|]. split; [exact RF|]. split; [|split].
  - intros v Hv Nv. destruct (IX v Hv) as [[|k] [Hk ->]]; [congruence|]. rewrite HF by lia. apply PR. specialize (D k ltac:(lia)). lia.
  - assert (B : forall k, (k < Z.to_nat N)%nat -> below father root (nth k p 0)).
    { intro k. induction k as [k IH] using lt_wf_ind. intro Hk. destruct k as [|k]; [rewrite R0; constructor|].
      pose proof (PR _ Hk). apply below_child; [|lia|].
      - intro C. rewrite <- R0 in C. apply (proj1 (NoDup_nth p 0) (proj1 A)) in C; lia.
      - rewrite HF by lia. specialize (D k ltac:(lia)). apply IH; lia. }
    intros v Hv. destruct (IX v Hv) as [k [Hk ->]]. apply B. exact Hk.
  - exists (tl p). split; [destruct p as [|x p]; [cbn in LP; lia|]; cbn in R0; subst x; exact A|].
    destruct DR as [E0 [P0 F0]]. exists E0. split; [exact P0|]. rewrite tl_as_map, map_map. unfold hung in F0.
    replace (length p - 1)%nat with (length F) by lia. rewrite <- seq_shift, map_map.
    erewrite map_ext_in; [exact F0|]. intros k Hk. apply in_seq in Hk. cbv beta. rewrite HF by lia. reflexivity.
Qed.
