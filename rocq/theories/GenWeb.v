(** * Tools for the other generators of gen.h *)
From Coq Require Import Permutation FinFun.
From Verif Require Import Base Data BaseLemmas ProblemDefine CostScaling Generator GenMore Spec GenSpec GenMoreSpec GenRng GenGraphProof.
Local Open Scope Z_scope.

(** ** shuffle leaves the front alone *)
Lemma shuffle_front {A} fuel first (l : list A) s : Z.of_nat (length l) <= INT_MAX ->
  runs (rng_fuel fuel) (fun '(l', _) => Permutation l l' /\ forall k, (k < first)%nat -> nth_error l' k = nth_error l k) (shuffle fuel first l s).
Proof.
  intro HL. unfold shuffle.
  apply (runs_for _ _ _ (fun _ '(l', _) => Permutation l l' /\ forall k, (k < first)%nat -> nth_error l' k = nth_error l k)); [split; [apply Permutation_refl|auto]|].
  intros pre k suf [l' s'] E [P F]. pose proof (Permutation_length P) as EL.
  assert (Hk : (1 <= k < 1 + (length l - first - 1))%nat).
  { apply in_seq. rewrite E. apply in_or_app. right. left. reflexivity. }
  eapply runs_bind; [apply (runs_ck _ (fun x => x = Z.of_nat k + 1)); [unfold INT_MIN; lia|reflexivity]|]. intros w ->.
  eapply runs_bind; [apply next_int_ok; lia|]. intros [x s''] [Hx _].
  destruct (vswap_ok l' (first + k) (first + Z.to_nat x)) as [l'' (E' & P' & F')]; [lia|lia|].
  rewrite E'. cbn. split; [eapply Permutation_trans; eassumption|].
  intros j Hj. rewrite F' by lia. apply F. exact Hj.
Qed.

(** ** Lists of all nodes *)
Lemma all_nodes_perm N p p' : Permutation p p' -> all_nodes N p -> all_nodes N p'.
Proof.
  intros P [ND H]. split; [exact (Permutation_NoDup P ND)|]. intro x. rewrite <- H.
  split; apply Permutation_in; [apply Permutation_sym|]; exact P.
Qed.

Lemma iota_ok N : 0 <= N -> exists p, iota N = Ok p /\ all_nodes N p /\ Z.of_nat (length p) = N /\ (forall k, (k < length p)%nat -> nth k p 0 = Z.of_nat k).
Proof.
  intro HN. unfold iota. rewrite (proj2 (Z.ltb_ge N 0)) by lia. eexists. split; [reflexivity|]. split; [|split].
  - split; [apply FinFun.Injective_map_NoDup; [intros x y; lia|apply seq_NoDup]|]. intro x. rewrite in_map_iff. split.
    + intros [k [<- Hk]]. apply in_seq in Hk. lia.
    + intro H. exists (Z.to_nat x). split; [lia|]. apply in_seq. lia.
  - rewrite map_length, seq_length. lia.
  - intros k Hk. rewrite map_length, seq_length in Hk. rewrite (nth_indep _ _ (Z.of_nat 0)) by (rewrite map_length, seq_length; lia).
    rewrite map_nth, seq_nth by lia. reflexivity.
Qed.

Lemma all_nodes_length N p : 0 <= N -> all_nodes N p -> Z.of_nat (length p) = N.
Proof.
  intros HN [ND H]. destruct (iota_ok N HN) as [q (_ & [ND' H'] & L & _)]. rewrite <- L. f_equal.
  apply Nat.le_antisymm; apply NoDup_incl_length; auto; intros x Hx; [apply H', H|apply H, H']; exact Hx.
Qed.

(** ** Adding one edge *)
Lemma add_plain fuel g u v s :
  runs (rng_fuel fuel) (fun '(g', _) => exists a, same_edge (g_direction g) a (u, v) /\
     g' = with_edges g (g_edge g ++ [a]) (if g_multiply g then g_e g else (u, v) :: (if g_direction g then g_e g else (v, u) :: g_e g)))
    (gen_add_edge fuel g u v s).
Proof.
  unfold gen_add_edge. destruct (g_direction g) eqn:Ed.
  - cbn. exists (u, v). split; [left; reflexivity|reflexivity].
  - eapply runs_bind.
    + eapply runs_bind; [apply (next_int_ok fuel 2 s); unfold INT_MAX; lia|]. intros [b s'] _.
      apply (runs_ret _ (fun '(l, _) => exists a, l = g_edge g ++ [a] /\ same_edge false a (u, v))).
      destruct (b =? 0); eexists; (split; [reflexivity|]); [right; auto|left; reflexivity].
    + intros [l s'] [a [-> Ha]]. cbn [runs]. exists a. split; [exact Ha|reflexivity].
Qed.

(** ** Drawn as *)
Lemma Forall2_snoc {A B} (R : A -> B -> Prop) l l' a b : Forall2 R l l' -> R a b -> Forall2 R (l ++ [a]) (l' ++ [b]).
Proof. intros H1 H2. apply Forall2_app; [exact H1|constructor; [exact H2|constructor]]. Qed.

Lemma Forall2_nth_l {A B} (R : A -> B -> Prop) l l' : Forall2 R l l' -> forall k a, nth_error l k = Some a -> exists b, nth_error l' k = Some b /\ R a b.
Proof.
  intro H. induction H as [|x y l l' H _ IH]; intros [|k] a E; try discriminate E; cbn in *.
  - injection E as <-. eauto.
  - exact (IH k a E).
Qed.

Lemma Forall2_in_l {A B} (R : A -> B -> Prop) l l' : Forall2 R l l' -> forall a, In a l -> exists b, In b l' /\ R a b.
Proof.
  intros H a Ha. apply In_nth_error in Ha. destruct Ha as [k Ha]. destruct (Forall2_nth_l _ _ _ H k a Ha) as [b [Hb R']].
  exists b. split; [exact (nth_error_In _ _ Hb)|exact R'].
Qed.

Lemma Forall2_in_r {A B} (R : A -> B -> Prop) l l' : Forall2 R l l' -> forall b, In b l' -> exists a, In a l /\ R a b.
Proof.
  intro H. induction H as [|x y l l' H _ IH]; intros b Hb; [destruct Hb|]. destruct Hb as [<-|Hb]; [exists x; cbn; auto|].
  destruct (IH b Hb) as [a [Ha R']]. exists a. cbn. auto.
Qed.

Lemma drawn_refl d E : drawn_as d E E.
Proof. exists E. split; [apply Permutation_refl|]. induction E; constructor; [apply same_refl|assumption]. Qed.

Lemma drawn_forall d E F : Forall2 (same_edge d) E F -> drawn_as d E F.
Proof. intro H. exists E. split; [apply Permutation_refl|exact H]. Qed.

Lemma drawn_perm d E E' F : Permutation E E' -> drawn_as d E F -> drawn_as d E' F.
Proof. intros P (E0 & P0 & H). exists E0. split; [|exact H]. eapply Permutation_trans; [apply Permutation_sym; exact P|exact P0]. Qed.

Lemma drawn_length d E F : drawn_as d E F -> length E = length F.
Proof. intros (E0 & P & H). rewrite (Permutation_length P). clear P. induction H; cbn; congruence. Qed.

Lemma same_undirected d a b : same_edge d a b -> same_edge false a b.
Proof. intros [H|[_ H]]; [left; exact H|right; auto]. Qed.

Lemma drawn_in d E F : drawn_as d E F -> forall a, In a E -> exists b, In b F /\ same_edge d a b.
Proof. intros (E0 & P & H) a Ha. apply (Forall2_in_l _ _ _ H). exact (Permutation_in _ P Ha). Qed.

Lemma drawn_in_r d E F : drawn_as d E F -> forall b, In b F -> exists a, In a E /\ same_edge d a b.
Proof.
  intros (E0 & P & H) b Hb. destruct (Forall2_in_r _ _ _ H b Hb) as [a [Ha S]]. exists a. split; [|exact S].
  exact (Permutation_in _ (Permutation_sym P) Ha).
Qed.

(** ** Connected parts *)
Definition web (l : list Z) (E : list (Z * Z)) : Prop :=
  (forall u v, In (u, v) E -> In u l /\ In v l /\ u <> v) /\ no_repetition false E /\ (forall u v, In u l -> In v l -> linked E u v).

Lemma linked_same E F : (forall a, In a F -> exists b, In b E /\ same_edge false b a) -> forall u v, linked F u v -> linked E u v.
Proof.
  intros H u v L. induction L as [|u v w L IH X]; [apply linked_refl|]. eapply linked_edge; [exact IH|].
  destruct X as [X|X]; destruct (H _ X) as [b [Hb [->|[_ ->]]]]; cbn in Hb; auto.
Qed.

Lemma web_drawn d l E F : drawn_as d E F -> web l F -> web l E.
Proof.
  intros D (W1 & W2 & W3). split; [|split].
  - intros u v H. destruct (drawn_in _ _ _ D _ H) as [[x y] [Hb S]]. destruct (W1 x y Hb) as (A & B & C).
    destruct S as [[= -> ->]|[_ [= -> ->]]]; auto.
  - destruct D as (E0 & P & H). apply (no_rep_perm _ _ _ (Permutation_sym P)). intros p q a b Hp Hq S.
    destruct (Forall2_nth_l _ _ _ H p a Hp) as [a' [Ha Sa]]. destruct (Forall2_nth_l _ _ _ H q b Hq) as [b' [Hb Sb]].
    apply (W2 p q a' b' Ha Hb). eapply same_trans; [apply same_sym; eapply same_undirected; exact Sa|].
    eapply same_trans; [exact S|]. eapply same_undirected. exact Sb.
  - intros u v Hu Hv. apply (linked_same E F); [|apply W3; assumption].
    intros a Ha. destruct (drawn_in_r _ _ _ D a Ha) as [b [Hb S]]. exists b. split; [exact Hb|]. eapply same_undirected. exact S.
Qed.

Lemma web_one x : web [x] [].
Proof.
  split; [intros u v []|]. split; [apply no_rep_nil|]. intros u v [<-|[]] [<-|[]]. apply linked_refl.
Qed.

Lemma web_mono l l' E : (forall x, In x l <-> In x l') -> web l E -> web l' E.
Proof.
  intros H (W1 & W2 & W3). split; [|split; [exact W2|]].
  - intros u v X. destruct (W1 u v X) as (A & B & C). rewrite <- !H. auto.
  - intros u v Hu Hv. apply W3; apply H; assumption.
Qed.

Lemma web_perm l E E' : Permutation E E' -> web l E -> web l E'.
Proof. intros P. apply (web_drawn false). apply (drawn_perm _ E); [exact P|apply drawn_refl]. Qed.

(** a new node is attached *)
Lemma web_grow l E u v a : web l E -> ~ In u l -> In v l -> same_edge false a (u, v) -> web (l ++ [u]) (E ++ [a]).
Proof.
  intros (W1 & W2 & W3) Hu Hv S. split; [|split].
  - intros x y H. apply in_app_or in H. destruct H as [H|[->|[]]].
    + destruct (W1 x y H) as (A & B & C). split; [apply in_or_app; auto|]. split; [apply in_or_app; auto|exact C].
    + assert (u <> v) by congruence. destruct S as [[= -> ->]|[_ [= -> ->]]]; (split; [|split; [|congruence]]); apply in_or_app; cbn; auto.
  - apply no_rep_snoc; [exact W2|]. intros [x y] Hb S'. destruct (W1 x y Hb) as (A & B & _).
    assert (X : same_edge false (u, v) (x, y)) by (eapply same_trans; [apply same_sym; exact S|exact S']).
    destruct X as [[= -> ->]|[_ [= -> ->]]]; contradiction.
  - assert (C : forall x, In x (l ++ [u]) -> linked (E ++ [a]) v x).
    { intros x Hx. apply in_app_or in Hx. destruct Hx as [Hx|[<-|[]]].
      - apply (linked_mono E); [intros; apply in_or_app; auto|]. apply W3; assumption.
      - eapply linked_edge; [apply linked_refl|]. destruct S as [->|[_ ->]]; [right|left]; apply in_or_app; right; left; reflexivity. }
    intros x y Hx Hy. eapply linked_trans; [apply linked_sym; apply C; exact Hx|apply C; exact Hy].
Qed.

(** a new edge between old nodes *)
Lemma web_close l E u v a : web l E -> In u l -> In v l -> u <> v -> (forall b, In b E -> ~ same_edge false (u, v) b) ->
  same_edge false a (u, v) -> web l (E ++ [a]).
Proof.
  intros (W1 & W2 & W3) Hu Hv N F S. split; [|split].
  - intros x y H. apply in_app_or in H. destruct H as [H|[->|[]]]; [exact (W1 x y H)|].
    destruct S as [[= -> ->]|[_ [= -> ->]]]; auto.
  - apply no_rep_snoc; [exact W2|]. intros b Hb S'. apply (F b Hb). eapply same_trans; [apply same_sym; exact S|exact S'].
  - intros x y Hx Hy. apply (linked_mono E); [intros; apply in_or_app; auto|]. apply W3; assumption.
Qed.

Lemma web_nodes N l E : (forall x, In x l <-> 0 <= x < N) -> web l E -> simple_connected N E.
Proof.
  intros H (W1 & W2 & W3). split; [|split; [|split]].
  - intros u v X. destruct (W1 u v X) as (A & B & _). rewrite <- !H. auto.
  - intros u v X. apply (W1 u v X).
  - exact W2.
  - intros u v Hu Hv. apply W3; apply H; assumption.
Qed.

(** two webs that share one node *)
Lemma web_glue l E l' E' x : web l E -> web l' E' -> In x l -> In x l' -> (forall y, In y l -> In y l' -> y = x) ->
  web (l ++ l') (E ++ E').
Proof.
  intros (W1 & W2 & W3) (V1 & V2 & V3) Hx Hx' D. split; [|split].
  - intros u v H. apply in_app_or in H. destruct H as [H|H].
    + destruct (W1 u v H) as (A & B & C). rewrite !in_app_iff. auto.
    + destruct (V1 u v H) as (A & B & C). rewrite !in_app_iff. auto.
  - intros p q a b Hp Hq S.
    assert (X : forall u v u' v', In (u, v) E -> In (u', v') E' -> same_edge false (u, v) (u', v') -> False).
    { intros u v u' v' H H' T. destruct (W1 u v H) as (A & B & C). destruct (V1 u' v' H') as (A' & B' & C').
      destruct T as [[= -> ->]|[_ [= -> ->]]]; apply C.
      - rewrite (D _ A A'). symmetry. exact (D _ B B').
      - rewrite (D _ A B'). symmetry. exact (D _ B A'). }
    destruct (Nat.lt_ge_cases p (length E)) as [P|P], (Nat.lt_ge_cases q (length E)) as [Q|Q].
    + rewrite nth_error_app1 in Hp, Hq by assumption. exact (W2 p q a b Hp Hq S).
    + rewrite nth_error_app1 in Hp by assumption. rewrite nth_error_app2 in Hq by assumption. exfalso.
      destruct a as [u v], b as [u' v']. exact (X _ _ _ _ (nth_error_In _ _ Hp) (nth_error_In _ _ Hq) S).
    + rewrite nth_error_app2 in Hp by assumption. rewrite nth_error_app1 in Hq by assumption. exfalso.
      destruct a as [u v], b as [u' v']. exact (X _ _ _ _ (nth_error_In _ _ Hq) (nth_error_In _ _ Hp) (same_sym _ _ _ S)).
    + rewrite nth_error_app2 in Hp, Hq by assumption. pose proof (V2 _ _ a b Hp Hq S). lia.
  - assert (C : forall y, In y (l ++ l') -> linked (E ++ E') x y).
    { intros y Hy. apply in_app_or in Hy. destruct Hy as [Hy|Hy].
      - apply (linked_mono E); [intros; apply in_or_app; auto|]. apply W3; assumption.
      - apply (linked_mono E'); [intros; apply in_or_app; auto|]. apply V3; assumption. }
    intros u v Hu Hv. eapply linked_trans; [apply linked_sym; apply C; exact Hu|apply C; exact Hv].
Qed.

(** ** Paths and cycles *)
Lemma seq_pre s n pre i suf : seq s n = pre ++ i :: suf -> i = (s + length pre)%nat /\ (length pre < n)%nat /\ pre = seq s (length pre).
Proof.
  revert s n. induction pre as [|x pre IH]; intros s n E; destruct n as [|n]; try discriminate E; cbn in *.
  - injection E as E _. split; [lia|]. split; [lia|reflexivity].
  - injection E as Ex E. destruct (IH _ _ E) as (A & B & C). split; [lia|]. split; [lia|]. f_equal; [congruence|]. exact C.
Qed.

Definition pair_at (a : list Z) (i : nat) : Z * Z := (nth i a 0, nth (i - 1) a 0).

Lemma path_web_n a : NoDup a -> forall n, (n < length a)%nat -> web (firstn (S n) a) (map (pair_at a) (seq 1 n)).
Proof.
  intros ND n. induction n as [|n IH]; intro H.
  - destruct a as [|x a]; [cbn in H; lia|]. cbn. apply web_one.
  - rewrite seq_S, map_app. cbn [map Nat.add].
    assert (E : firstn (S (S n)) a = firstn (S n) a ++ [nth (S n) a 0]).
    { pose proof (firstn_skipn (S n) a) as FS. destruct (skipn (S n) a) as [|y t] eqn:K.
      - apply (f_equal (@length _)) in K. rewrite skipn_length in K. cbn in K. lia.
      - assert (Y : nth (S n) a 0 = y).
        { rewrite <- FS, app_nth2; rewrite firstn_length_le by lia; [|lia]. rewrite Nat.sub_diag. reflexivity. }
        rewrite Y. rewrite <- FS at 1. rewrite firstn_app, firstn_firstn, firstn_length_le by lia.
        replace (Nat.min (S (S n)) (S n)) with (S n) by lia. replace (S (S n) - S n)%nat with 1%nat by lia. reflexivity. }
    rewrite E. apply (web_grow _ _ (nth (S n) a 0) (nth n a 0)).
    + apply IH. lia.
    + intro C. apply (In_nth _ _ 0) in C. destruct C as [k [Hk E']]. rewrite firstn_length_le in Hk by lia.
      assert (X : nth k (firstn (S n) a) 0 = nth k a 0).
      { rewrite <- (firstn_skipn (S n) a) at 2. rewrite app_nth1; [reflexivity|rewrite firstn_length_le; lia]. }
      rewrite X in E'. apply (proj1 (NoDup_nth a 0) ND) in E'; lia.
    + assert (X : nth n (firstn (S n) a) 0 = nth n a 0).
      { rewrite <- (firstn_skipn (S n) a) at 2. rewrite app_nth1; [reflexivity|rewrite firstn_length_le; lia]. }
      rewrite <- X. apply nth_In. rewrite firstn_length_le; lia.
    + left. unfold pair_at. f_equal. f_equal. lia.
Qed.

Lemma path_web a : NoDup a -> a <> [] -> web a (path_edges a).
Proof.
  intros ND N. destruct a as [|x a]; [congruence|]. pose proof (path_web_n _ ND (length a) ltac:(cbn; lia)) as W.
  rewrite firstn_all2 in W by (cbn; lia). unfold path_edges. cbn [length]. rewrite Nat.sub_succ, Nat.sub_0_r. exact W.
Qed.

Lemma path_length a : length (path_edges a) = (length a - 1)%nat.
Proof. unfold path_edges. rewrite map_length, seq_length. reflexivity. Qed.

Lemma ring_length a : a <> [] -> length (ring_edges a) = length a.
Proof. intro N. unfold ring_edges. rewrite app_length, path_length. destruct a; [congruence|cbn; lia]. Qed.

Lemma path_in a e : In e (path_edges a) <-> exists i, (1 <= i < length a)%nat /\ e = pair_at a i.
Proof.
  unfold path_edges. rewrite in_map_iff. split.
  - intros [i [<- H]]. apply in_seq in H. exists i. split; [lia|reflexivity].
  - intros [i [H ->]]. exists i. split; [reflexivity|]. apply in_seq. lia.
Qed.

Lemma ring_web a : NoDup a -> (3 <= length a)%nat -> web a (ring_edges a).
Proof.
  intros ND L. unfold ring_edges. apply (web_close _ _ (nth 0 a 0) (nth (length a - 1) a 0)).
  - apply path_web; [exact ND|]. destruct a; [cbn in L; lia|discriminate].
  - apply nth_In. lia.
  - apply nth_In. lia.
  - intro C. apply (proj1 (NoDup_nth a 0) ND) in C; lia.
  - intros b Hb S. apply path_in in Hb. destruct Hb as [i [Hi ->]]. unfold pair_at in S.
    destruct S as [[= A B]|[_ [= A B]]]; apply (proj1 (NoDup_nth a 0) ND) in A; apply (proj1 (NoDup_nth a 0) ND) in B; lia.
  - left. reflexivity.
Qed.

(** what [CycleGraph::GenGraph(a)] gives *)
Definition closed (d : bool) (a : list Z) : list (Z * Z) :=
  if (length a <=? (if d then 1 else 2))%nat then path_edges a else ring_edges a.

Lemma cycle_from_ok fuel g a s : NoDup a -> a <> [] -> g_multiply g = false -> g_self_loop g = false ->
  runs (rng_fuel fuel) (fun '(g', _) => exists E e, g' = with_edges g E e /\ Forall2 (same_edge (g_direction g)) E (closed (g_direction g) a))
    (cycle_from fuel g a s).
Proof.
  intros ND NN Em Es. unfold cycle_from.
  assert (LA : (1 <= length a)%nat) by (destruct a; [congruence|cbn; lia]).
  set (I := fun (k : nat) (g' : gen_graph) => exists E e, g' = with_edges g E e /\
     Forall2 (same_edge (g_direction g)) E (map (pair_at a) (seq 1 k)) /\
     forall x, In x e <-> exists i, (1 <= i <= k)%nat /\ (x = pair_at a i \/ (g_direction g = false /\ x = (nth (i - 1) a 0, nth i a 0)))).
  eapply runs_bind.
  - apply (runs_for _ _ _ (fun pre '(g', _) => I (length pre) g')).
    + exists [], []. split; [reflexivity|]. split; [constructor|]. intro x. split; [intros []|intros (i & H & _); cbn in H; lia].
    + intros pre i suf [g' s'] Eq (E & e & -> & F & He). destruct (seq_pre _ _ _ _ _ Eq) as (Ei & Li & _).
      rewrite (vget_nth a i 0), (vget_nth a (i - 1) 0) by lia. cbn [bind].
      eapply runs_weaken; [apply add_plain|auto|]. intros [g'' s''] (b & SE & ->).
      cbn [with_edges g_direction g_multiply g_e g_edge] in *. rewrite Em.
      rewrite app_length. cbn [length]. replace (length pre + 1)%nat with (S (length pre)) by lia.
      eexists _, _. split; [reflexivity|]. split.
      * rewrite seq_S, map_app. cbn [map]. replace (1 + length pre)%nat with i by lia. apply Forall2_snoc; [exact F|exact SE].
      * intro x. replace i with (S (length pre)) in * by lia. clear -He. split.
        -- intros [<-|H]; [exists (S (length pre)); split; [lia|left; reflexivity]|].
           destruct (g_direction g) eqn:Ed.
           ++ apply He in H. destruct H as (j & Hj & H). exists j. split; [lia|exact H].
           ++ destruct H as [<-|H]; [exists (S (length pre)); split; [lia|right; auto]|].
              apply He in H. destruct H as (j & Hj & H). exists j. split; [lia|exact H].
        -- intros (j & Hj & H). destruct (Nat.eq_dec j (S (length pre))) as [->|Nj].
           ++ destruct H as [->|[-> ->]]; [left; reflexivity|right; left; reflexivity].
           ++ right. assert (X : In x e) by (apply He; exists j; split; [lia|exact H]). destruct (g_direction g); [exact X|right; exact X].
  - intros [g' s'] (E & e & -> & F & He). rewrite seq_length in *.
    rewrite (vget_nth a 0 0), (vget_nth a (length a - 1) 0) by lia. cbn [bind].
    assert (PE : map (pair_at a) (seq 1 (length a - 1)) = path_edges a) by reflexivity. rewrite PE in F. clear PE.
    unfold judge_self_loop, judge_multiply. cbn [with_edges g_direction g_multiply g_e g_edge g_self_loop]. rewrite Em, Es. cbn [negb andb].
    destruct (Nat.eq_dec (length a) 1) as [L1|L1].
    { rewrite L1. cbn [Nat.sub]. rewrite Z.eqb_refl. cbn [negb andb runs]. exists E, e. split; [reflexivity|]. unfold closed.
      rewrite L1. replace (1 <=? (if g_direction g then 1 else 2))%nat with true by (destruct (g_direction g); reflexivity). exact F. }
    assert (NE : nth 0 a 0 <> nth (length a - 1) a 0) by (intro C; apply (proj1 (NoDup_nth a 0) ND) in C; lia).
    rewrite (proj2 (Z.eqb_neq _ _) NE). cbn [negb andb].
    destruct (Nat.eq_dec (length a) 2) as [L2|L2].
    { destruct (g_direction g) eqn:Ed.
      - assert (X : e_has e (nth 0 a 0) (nth (length a - 1) a 0) = false).
        { destruct (e_has e _ _) eqn:X; [|reflexivity]. exfalso. apply e_has_in in X. apply He in X. destruct X as (i & Hi & [C|[C _]]); [|discriminate C].
          injection C as A _. apply (proj1 (NoDup_nth a 0) ND) in A; lia. }
        rewrite X. cbn [negb andb]. eapply runs_weaken; [apply add_plain|auto|]. intros [g'' s''] (b & SE & ->).
        cbn [with_edges g_direction g_multiply g_e g_edge] in *. rewrite Ed in *. eexists _, _. split; [reflexivity|].
        unfold closed. rewrite L2. cbn [Nat.leb]. unfold ring_edges. apply Forall2_snoc; [exact F|]. exact SE.
      - assert (X : e_has e (nth 0 a 0) (nth (length a - 1) a 0) = true).
        { apply e_has_in. apply He. exists 1%nat. split; [lia|]. right. split; [reflexivity|]. rewrite L2. reflexivity. }
        rewrite X. cbn [negb andb runs]. exists E, e. split; [reflexivity|]. unfold closed. rewrite L2. exact F. }
    assert (J : (if e_has e (nth 0 a 0) (nth (length a - 1) a 0) then true else negb (g_direction g) && e_has e (nth (length a - 1) a 0) (nth 0 a 0)) = false).
    { assert (X1 : e_has e (nth 0 a 0) (nth (length a - 1) a 0) = false).
      { destruct (e_has e _ _) eqn:X; [|reflexivity]. exfalso. apply e_has_in in X. apply He in X. destruct X as (i & Hi & [C|[_ C]]);
          injection C as A B; apply (proj1 (NoDup_nth a 0) ND) in A; apply (proj1 (NoDup_nth a 0) ND) in B; lia. }
      assert (X2 : e_has e (nth (length a - 1) a 0) (nth 0 a 0) = false).
      { destruct (e_has e (nth (length a - 1) a 0) _) eqn:X; [|reflexivity]. exfalso. apply e_has_in in X. apply He in X. destruct X as (i & Hi & [C|[_ C]]);
          injection C as A B; apply (proj1 (NoDup_nth a 0) ND) in A; apply (proj1 (NoDup_nth a 0) ND) in B; lia. }
      rewrite X1, X2, andb_false_r. reflexivity. }
    rewrite J. cbn [negb]. eapply runs_weaken; [apply add_plain|auto|]. intros [g'' s''] (b & SE & ->).
    cbn [with_edges g_direction g_multiply g_e g_edge] in *. eexists _, _. split; [reflexivity|].
    unfold closed. rewrite (proj2 (Nat.leb_gt _ _)) by (destruct (g_direction g); lia).
    unfold ring_edges. apply Forall2_snoc; [exact F|exact SE].
Qed.
