(** * Sizes of the nodes of a link-cut tree, counted along the father pointers

    [s v] is the number of nodes below [v], itself included, when every node is
    put below the node its pointer [fa] names, whether that is its father in an
    auxiliary tree or the father of a whole auxiliary tree.  One node [x0] may
    have a weight [b0] other than 1.  The potential is the sum of the binary
    logarithms (rounded down) of the sizes. *)
From Verif Require Import Base BaseLemmas Data LCT LCTTree LCTHeap Sums.
Local Open Scope Z_scope.

Definition kids (N : nat) (F : nat -> option nat) (s : nat -> Z) (v : nat) : Z :=
  zsum (seq 0 N) (fun y => if ptr_eqb (F y) (Some v) then s y else 0).

Definition weight (x0 : nat) (b0 : Z) (v : nat) : Z := if Nat.eqb v x0 then b0 else 1.

Record sized (N : nat) (F : nat -> option nat) (s : nat -> Z) (x0 : nat) (b0 : Z) : Prop := {
  sz_eq : forall v, (v < N)%nat -> s v = weight x0 b0 v + kids N F s v;
  sz_nn : forall v, (v < N)%nat -> 0 <= s v;
  sz_b : b0 <= 1;
  sz_in : forall v w, (v < N)%nat -> F v = Some w -> (w < N)%nat
}.

Definition pot (N : nat) (s : nat -> Z) : Z := zsum (seq 0 N) (fun y => Z.log2 (s y)).

(** the size of a node that may be missing *)
Definition osz (s : nat -> Z) (c : option nat) : Z := match c with None => 0 | Some y => s y end.

Lemma opt_cases (c : option nat) : c = None \/ exists y, c = Some y.
Proof. destruct c; eauto. Qed.

Lemma ptr_eqb_some p v : ptr_eqb p (Some v) = true -> p = Some v.
Proof. apply ptr_eqb_spec. Qed.

Lemma ptr_eqb_no p v : p <> Some v -> ptr_eqb p (Some v) = false.
Proof. intros H. destruct (ptr_eqb p (Some v)) eqn:E; auto. apply ptr_eqb_some in E. congruence. Qed.

Lemma ptr_eqb_yes v : ptr_eqb (Some v) (Some v) = true.
Proof. apply ptr_eqb_spec. reflexivity. Qed.

Lemma pot_nonneg N s : 0 <= pot N s.
Proof. apply zsum_nonneg. intros. apply Z.log2_nonneg. Qed.

Lemma zsum_ge_two (L : list nat) g a b : NoDup L -> In a L -> In b L -> a <> b ->
  (forall i, In i L -> 0 <= g i) -> g a + g b <= zsum L g.
Proof.
  intros ND. induction ND as [|c L Hc ND IH]; intros Ha Hb Hab HG; [destruct Ha|]. simpl.
  assert (HG' : forall i, In i L -> 0 <= g i) by (intros; apply HG; simpl; auto).
  assert (G1 : forall d, In d L -> g d <= zsum L g).
  { intros d Hd. rewrite (zsum_point L d (fun i => if Nat.eqb i d then 0 else g i) g ND Hd).
    - rewrite Nat.eqb_refl. assert (0 <= zsum L (fun i => if Nat.eqb i d then 0 else g i)); [|lia].
      apply zsum_nonneg. intros i Hi. destruct (Nat.eqb i d); [lia|auto].
    - intros i _ Hn. destruct (Nat.eqb_spec i d); congruence. }
  destruct Ha as [->|Ha], Hb as [->|Hb]; try congruence.
  - specialize (G1 b Hb). lia.
  - specialize (G1 a Ha). lia.
  - specialize (IH Ha Hb Hab HG'). assert (0 <= g c) by (apply HG; simpl; auto). lia.
Qed.

Lemma zsum_ge_one (L : list nat) g a : NoDup L -> In a L -> (forall i, In i L -> 0 <= g i) -> g a <= zsum L g.
Proof.
  intros ND Hd HG. rewrite (zsum_point L a (fun i => if Nat.eqb i a then 0 else g i) g ND Hd).
  - rewrite Nat.eqb_refl. assert (0 <= zsum L (fun i => if Nat.eqb i a then 0 else g i)); [|lia].
    apply zsum_nonneg. intros i Hi. destruct (Nat.eqb i a); [lia|auto].
  - intros i _ Hn. destruct (Nat.eqb_spec i a); congruence.
Qed.

Lemma in_seq0 N i : In i (seq 0 N) <-> (i < N)%nat.
Proof. rewrite in_seq. lia. Qed.

Section Sized.
Variables (N : nat) (F : nat -> option nat) (s : nat -> Z) (x0 : nat) (b0 : Z).
Hypothesis HS : sized N F s x0 b0.

Lemma kids_nonneg v : 0 <= kids N F s v.
Proof.
  apply zsum_nonneg. intros i Hi. apply in_seq0 in Hi. destruct (ptr_eqb (F i) (Some v)); [|lia].
  apply (sz_nn _ _ _ _ _ HS); auto.
Qed.

Lemma sized_pos v : (v < N)%nat -> v <> x0 -> 1 <= s v.
Proof.
  intros Hv Hn. rewrite (sz_eq _ _ _ _ _ HS v Hv). unfold weight. destruct (Nat.eqb_spec v x0); [congruence|].
  assert (H := kids_nonneg v). lia.
Qed.

Lemma kids_one y v : (y < N)%nat -> F y = Some v -> s y <= kids N F s v.
Proof.
  intros Hy E. unfold kids.
  assert (H := zsum_ge_one (seq 0 N) (fun y => if ptr_eqb (F y) (Some v) then s y else 0) y (seq_NoDup _ _) (proj2 (in_seq0 _ _) Hy)).
  cbv beta in H. rewrite E, ptr_eqb_yes in H. apply H. intros i Hi. apply in_seq0 in Hi.
  destruct (ptr_eqb (F i) (Some v)); [|lia]. apply (sz_nn _ _ _ _ _ HS); auto.
Qed.

Lemma kids_two y z v : (y < N)%nat -> (z < N)%nat -> y <> z -> F y = Some v -> F z = Some v -> s y + s z <= kids N F s v.
Proof.
  intros Hy Hz Hn E1 E2. unfold kids.
  assert (H := zsum_ge_two (seq 0 N) (fun y => if ptr_eqb (F y) (Some v) then s y else 0) y z (seq_NoDup _ _)
                 (proj2 (in_seq0 _ _) Hy) (proj2 (in_seq0 _ _) Hz) Hn).
  cbv beta in H. rewrite E1, E2, ptr_eqb_yes in H. apply H. intros i Hi. apply in_seq0 in Hi.
  destruct (ptr_eqb (F i) (Some v)); [|lia]. apply (sz_nn _ _ _ _ _ HS); auto.
Qed.

(** what the children of a node are worth *)
Lemma kids_opt (c d : option nat) v :
  (forall y, c = Some y -> (y < N)%nat /\ F y = Some v) ->
  (forall y, d = Some y -> (y < N)%nat /\ F y = Some v) ->
  (c = d -> c = None) -> osz s c + osz s d <= kids N F s v.
Proof.
  intros Hc Hd Hn. destruct c as [y|], d as [z|]; cbn [osz].
  - destruct (Hc y eq_refl), (Hd z eq_refl). apply kids_two; auto. intros ->. specialize (Hn eq_refl). discriminate.
  - destruct (Hc y eq_refl) as [A B]. assert (H1 := kids_one y v A B). lia.
  - destruct (Hd z eq_refl) as [A B]. assert (H1 := kids_one z v A B). lia.
  - assert (H1 := kids_nonneg v). lia.
Qed.

Lemma sized_kid y v : (y < N)%nat -> (v < N)%nat -> v <> x0 -> F y = Some v -> 1 + s y <= s v.
Proof.
  intros Hy Hv Hn E. rewrite (sz_eq _ _ _ _ _ HS v Hv). unfold weight. destruct (Nat.eqb_spec v x0); [congruence|].
  assert (H := kids_one y v Hy E). lia.
Qed.

(** the trees together have at most N nodes *)
Lemma roots_sum : zsum (seq 0 N) (fun y => if ptr_eqb (F y) None then s y else 0) <= Z.of_nat N.
Proof.
  assert (E1 : zsum (seq 0 N) s = zsum (seq 0 N) (fun v => weight x0 b0 v + kids N F s v)).
  { apply zsum_ext. intros v Hv. apply in_seq0 in Hv. apply (sz_eq _ _ _ _ _ HS); auto. }
  rewrite zsum_add in E1. unfold kids in E1. rewrite zsum_swap in E1.
  assert (E2 : zsum (seq 0 N) (fun y => zsum (seq 0 N) (fun v => if ptr_eqb (F y) (Some v) then s y else 0))
             = zsum (seq 0 N) (fun y => s y - (if ptr_eqb (F y) None then s y else 0))).
  { apply zsum_ext. intros y Hy. apply in_seq0 in Hy. destruct (F y) as [w|] eqn:Ey; cbn [ptr_eqb].
    - assert (Hw := sz_in _ _ _ _ _ HS y w Hy Ey).
      rewrite (zsum_indicator (seq 0 N) w (fun _ => s y) (seq_NoDup _ _)).
      destruct (in_dec Nat.eq_dec w (seq 0 N)) as [_|Hn]; [lia|]. exfalso. apply Hn, in_seq0; auto.
    - rewrite zsum_zero; [lia|]. reflexivity. }
  rewrite E2, zsum_sub in E1.
  assert (E3 : zsum (seq 0 N) (weight x0 b0) <= Z.of_nat N).
  { assert (H : zsum (seq 0 N) (weight x0 b0) <= zsum (seq 0 N) (fun _ => 1)).
    { apply zsum_le. intros k _. unfold weight. assert (Hb := sz_b _ _ _ _ _ HS). destruct (Nat.eqb k x0); lia. }
    assert (G : forall a n, zsum (seq a n) (fun _ => 1) = Z.of_nat n).
    { intros a n; revert a; induction n as [|n IH]; intros a; [reflexivity|]. cbn [seq zsum]. rewrite IH. lia. }
    rewrite G in H. exact H. }
  lia.
Qed.

Lemma root_le y : (y < N)%nat -> F y = None -> s y <= Z.of_nat N.
Proof.
  intros Hy E. etransitivity; [|exact roots_sum].
  assert (H := zsum_ge_one (seq 0 N) (fun y => if ptr_eqb (F y) None then s y else 0) y (seq_NoDup _ _) (proj2 (in_seq0 _ _) Hy)).
  cbv beta in H. rewrite E in H. cbn [ptr_eqb] in H. apply H. intros i Hi. apply in_seq0 in Hi.
  destruct (ptr_eqb (F i) None); [|lia]. apply (sz_nn _ _ _ _ _ HS); auto.
Qed.

(** the sums only look at the nodes *)
Lemma sized_ext F' s' : (forall v, (v < N)%nat -> F' v = F v) -> (forall v, (v < N)%nat -> s' v = s v) -> sized N F' s' x0 b0.
Proof.
  intros EF Es. constructor.
  - intros v Hv. rewrite Es by auto. rewrite (sz_eq _ _ _ _ _ HS v Hv). f_equal. apply zsum_ext.
    intros y Hy. apply in_seq0 in Hy. rewrite EF, Es by auto. reflexivity.
  - intros v Hv. rewrite Es by auto. apply (sz_nn _ _ _ _ _ HS); auto.
  - exact (sz_b _ _ _ _ _ HS).
  - intros v w Hv E. rewrite EF in E by auto. eapply sz_in; eauto.
Qed.

(** ** A rotation *)
Definition rsz (x f : nat) (c : option nat) : nat -> Z :=
  fup (fup s f (s f - s x + osz s c)) x (s f).

Variables (x f : nat) (c : option nat) (F' : nat -> option nat).
Hypothesis Hx : (x < N)%nat.
Hypothesis Hf : (f < N)%nat.
Hypothesis Hxf : x <> f.
Hypothesis HFx : F x = Some f.
Hypothesis HFf : F f <> Some x /\ F f <> Some f.
Hypothesis Hc : forall y, c = Some y -> (y < N)%nat /\ F y = Some x /\ y <> x /\ y <> f.
Hypothesis Hf0 : f <> x0.
Hypothesis HF' : forall i, (i < N)%nat ->
  F' i = if Nat.eqb i x then F f else if Nat.eqb i f then Some x else if ptr_eqb c (Some i) then Some f else F i.

Lemma rot_kid : 1 + s x <= s f.
Proof. apply sized_kid; auto. Qed.

Lemma osz_c : 0 <= osz s c.
Proof. destruct c as [y|]; cbn [osz]; [|lia]. destruct (Hc y eq_refl). apply (sz_nn _ _ _ _ _ HS); auto. Qed.

Let s' := rsz x f c.

Lemma rsz_x : s' x = s f.
Proof. unfold s', rsz. apply fup_eq. Qed.
Lemma rsz_f : s' f = s f - s x + osz s c.
Proof. unfold s', rsz. rewrite fup_neq by auto. apply fup_eq. Qed.
Lemma rsz_other i : i <> x -> i <> f -> s' i = s i.
Proof. intros H1 H2. unfold s', rsz. rewrite !fup_neq by auto. reflexivity. Qed.

(** a sum that changes at three places *)
Lemma three (g g' : nat -> Z) :
  (forall i, (i < N)%nat -> i <> x -> i <> f -> c <> Some i -> g' i = g i) ->
  zsum (seq 0 N) g' = zsum (seq 0 N) g + (g' x - g x) + (g' f - g f) + osz (fun i => g' i - g i) c.
Proof.
  intros HE.
  set (g1 := fup g x (g' x)). set (g2 := fup g1 f (g' f)).
  assert (E1 : zsum (seq 0 N) g1 = zsum (seq 0 N) g + (g1 x - g x)).
  { apply zsum_point; [apply seq_NoDup|apply in_seq0; auto|]. intros k _ Hk. apply fup_neq; auto. }
  assert (E2 : zsum (seq 0 N) g2 = zsum (seq 0 N) g1 + (g2 f - g1 f)).
  { apply zsum_point; [apply seq_NoDup|apply in_seq0; auto|]. intros k _ Hk. apply fup_neq; auto. }
  assert (X1 : g1 x = g' x) by apply fup_eq. assert (X2 : g2 f = g' f) by apply fup_eq.
  assert (X3 : g1 f = g f) by (apply fup_neq; auto).
  assert (G2 : forall k, k <> x -> k <> f -> g2 k = g k).
  { intros k H1 H2. unfold g2, g1. rewrite !fup_neq by auto. reflexivity. }
  assert (G3 : g2 x = g' x) by (unfold g2, g1; rewrite fup_neq by auto; apply fup_eq).
  destruct c as [y|]; cbn [osz].
  - destruct (Hc y eq_refl) as (Hy & _ & Hyx & Hyf).
    assert (E3 : zsum (seq 0 N) g' = zsum (seq 0 N) g2 + (g' y - g2 y)).
    { apply zsum_point; [apply seq_NoDup|apply in_seq0; auto|]. intros k Hk Hn. apply in_seq0 in Hk.
      destruct (Nat.eq_dec k x) as [->|Hnx]; [congruence|]. destruct (Nat.eq_dec k f) as [->|Hnf]; [congruence|].
      rewrite G2 by auto. apply HE; auto. congruence. }
    rewrite (G2 y Hyx Hyf) in E3. lia.
  - assert (E3 : zsum (seq 0 N) g' = zsum (seq 0 N) g2).
    { apply zsum_ext. intros k Hk. apply in_seq0 in Hk.
      destruct (Nat.eq_dec k x) as [->|Hnx]; [congruence|]. destruct (Nat.eq_dec k f) as [->|Hnf]; [congruence|].
      rewrite G2 by auto. apply HE; auto. discriminate. }
    lia.
Qed.

Lemma F'_x : F' x = F f.
Proof. rewrite HF', Nat.eqb_refl by auto. reflexivity. Qed.
Lemma F'_f : F' f = Some x.
Proof. rewrite HF' by auto. destruct (Nat.eqb_spec f x); [congruence|]. rewrite Nat.eqb_refl. reflexivity. Qed.
Lemma F'_c y : c = Some y -> F' y = Some f.
Proof.
  intros E. destruct (Hc y E) as (Hy & _ & H1 & H2). rewrite HF' by auto.
  destruct (Nat.eqb_spec y x); [congruence|]. destruct (Nat.eqb_spec y f); [congruence|].
  rewrite E, ptr_eqb_yes. reflexivity.
Qed.
Lemma F'_other i : (i < N)%nat -> i <> x -> i <> f -> c <> Some i -> F' i = F i.
Proof.
  intros Hi H1 H2 H3. rewrite HF' by auto.
  destruct (Nat.eqb_spec i x); [congruence|]. destruct (Nat.eqb_spec i f); [congruence|].
  rewrite ptr_eqb_no by auto. reflexivity.
Qed.

Lemma sized_rot : sized N F' s' x0 b0.
Proof.
  assert (Kf := rot_kid). assert (Kc := osz_c).
  constructor.
  - intros v Hv.
    assert (EK : kids N F' s' v = kids N F s v
        + ((if ptr_eqb (F f) (Some v) then s f else 0) - (if Nat.eqb f v then s x else 0))
        + ((if Nat.eqb x v then s f - s x + osz s c else 0) - (if ptr_eqb (F f) (Some v) then s f else 0))
        + ((if Nat.eqb f v then osz s c else 0) - (if Nat.eqb x v then osz s c else 0))).
    { unfold kids at 1. rewrite (three (fun y => if ptr_eqb (F y) (Some v) then s y else 0)
                          (fun y => if ptr_eqb (F' y) (Some v) then s' y else 0)).
      - cbv beta. rewrite F'_x, F'_f, rsz_x, rsz_f, HFx. cbn [ptr_eqb]. unfold kids. f_equal.
        destruct (opt_cases c) as [Ec|[y Ec]]; rewrite Ec; cbn [osz]; [destruct (Nat.eqb f v), (Nat.eqb x v); lia|].
        destruct (Hc y Ec) as (Hy & E & H1 & H2). rewrite (F'_c y Ec), E.
        rewrite (rsz_other y) by auto. reflexivity.
      - intros i Hi H1 H2 H3. rewrite F'_other, rsz_other by auto. reflexivity. }
    rewrite EK. assert (Ev := sz_eq _ _ _ _ _ HS v Hv). destruct HFf as [Hff1 Hff2].
    destruct (Nat.eq_dec v x) as [->|Hvx].
    + rewrite Nat.eqb_refl. destruct (Nat.eqb_spec f x); [congruence|]. rewrite (ptr_eqb_no _ _ Hff1). rewrite rsz_x. lia.
    + destruct (Nat.eqb_spec x v); [congruence|]. destruct (Nat.eq_dec v f) as [->|Hvf].
      * rewrite Nat.eqb_refl. rewrite (ptr_eqb_no _ _ Hff2). rewrite rsz_f. lia.
      * destruct (Nat.eqb_spec f v); [congruence|]. rewrite rsz_other by auto. lia.
  - intros v Hv. destruct (Nat.eq_dec v x) as [->|Hvx]; [rewrite rsz_x; apply (sz_nn _ _ _ _ _ HS); auto|].
    destruct (Nat.eq_dec v f) as [->|Hvf]; [rewrite rsz_f; lia|]. rewrite rsz_other by auto. apply (sz_nn _ _ _ _ _ HS); auto.
  - exact (sz_b _ _ _ _ _ HS).
  - intros v w Hv E. destruct (Nat.eq_dec v x) as [->|Hvx]; [rewrite F'_x in E; exact (sz_in _ _ _ _ _ HS f w Hf E)|].
    destruct (Nat.eq_dec v f) as [->|Hvf]; [rewrite F'_f in E; inversion E; subst; auto|].
    rewrite HF' in E by auto. destruct (Nat.eqb_spec v x); [congruence|]. destruct (Nat.eqb_spec v f); [congruence|].
    destruct (ptr_eqb c (Some v)); [inversion E; subst; auto|]. exact (sz_in _ _ _ _ _ HS v w Hv E).
Qed.

Lemma pot_rot : pot N s' = pot N s - Z.log2 (s x) + Z.log2 (s f - s x + osz s c).
Proof.
  unfold pot. rewrite (three (fun y => Z.log2 (s y)) (fun y => Z.log2 (s' y))).
  - cbv beta. rewrite rsz_x, rsz_f. destruct (opt_cases c) as [Ec|[y Ec]]; rewrite Ec; cbn [osz]; [lia|].
    destruct (Hc y Ec) as (Hy & E & H1 & H2). rewrite rsz_other by auto. lia.
  - intros i Hi H1 H2 H3. rewrite rsz_other by auto. reflexivity.
Qed.
End Sized.

(** ** Arithmetic of ranks *)
Lemma log2_two a b c L : Z.log2 a = L -> Z.log2 b = L -> 1 <= L -> a + b <= c -> L < Z.log2 c.
Proof.
  intros Ea Eb HL HC.
  assert (Pa : 0 < a) by (destruct (Z.lt_ge_cases 0 a); auto; rewrite Z.log2_nonpos in Ea by lia; lia).
  assert (Pb : 0 < b) by (destruct (Z.lt_ge_cases 0 b); auto; rewrite Z.log2_nonpos in Eb by lia; lia).
  assert (H1 := Z.log2_spec a Pa). assert (H2 := Z.log2_spec b Pb). rewrite Ea in H1. rewrite Eb in H2.
  assert (H3 : 2 ^ Z.succ L <= c) by (rewrite Z.pow_succ_r by lia; lia).
  assert (H4 := Z.log2_le_pow2 c (Z.succ L)). destruct H4 as [H4 _]; [lia|]. specialize (H4 H3). lia.
Qed.

(** one double step of splaying; X, Y, Z are the sizes of the node, its father
    and its grandfather before the step *)
Lemma double_step X Y Z0 P Q : 0 <= X -> X <= Y -> Y <= Z0 -> 2 <= Z0 -> P <= Z0 -> Q <= Z0 ->
  X + P <= Z0 \/ P + Q <= Z0 ->
  1 + Z.log2 P + Z.log2 Q <= Z.log2 Y - 2 * Z.log2 X + 3 * Z.log2 Z0.
Proof.
  intros HX HXY HYZ HZ HP HQ HC.
  assert (L1 := Z.log2_le_mono _ _ HXY). assert (L2 := Z.log2_le_mono _ _ HYZ).
  assert (L3 := Z.log2_le_mono _ _ HP). assert (L4 := Z.log2_le_mono _ _ HQ).
  destruct (Z.eq_dec (Z.log2 X) (Z.log2 Z0)) as [E|E]; [|lia].
  assert (L5 : 1 <= Z.log2 Z0) by (apply (Z.log2_le_mono 2); auto).
  destruct HC as [HC|HC].
  - destruct (Z.eq_dec (Z.log2 P) (Z.log2 Z0)) as [E2|E2]; [|lia].
    assert (H := log2_two X P Z0 _ E E2 L5 HC). lia.
  - destruct (Z.eq_dec (Z.log2 P) (Z.log2 Z0)) as [E2|E2]; [|lia].
    destruct (Z.eq_dec (Z.log2 Q) (Z.log2 Z0)) as [E3|E3]; [|lia].
    assert (H := log2_two P Q Z0 _ E2 E3 L5 HC). lia.
Qed.

(** ** The father pointers of a heap *)
Definition fa_of (h : heap Z) (i : nat) : option nat :=
  match nth_error h i with Some n => n_fa n | None => None end.

Lemma fa_of_nth h i n : nth_error h i = Some n -> fa_of h i = n_fa n.
Proof. intros E. unfold fa_of. rewrite E. reflexivity. Qed.

Lemma modi_inv (h : heap Z) x g h' : modi h x g = Ok h' -> exists n, nth_error h x = Some n /\ h' = upd h x (g n).
Proof.
  unfold modi, ld, vget, vset. destruct (nth_error h x) as [n|] eqn:E; [|discriminate]. cbn [bind].
  destruct (Nat.ltb x (length h)) eqn:EL; [|discriminate]. intros H; inversion H; subst. eauto.
Qed.

Lemma modi_keep (h : heap Z) x g h' : (forall n, n_fa (g n) = n_fa n) -> modi h x g = Ok h' ->
  length h' = length h /\ forall i, fa_of h' i = fa_of h i.
Proof.
  intros HG H. apply modi_inv in H. destruct H as (n & E & ->). split; [apply upd_length|]. intros i. unfold fa_of.
  destruct (Nat.eq_dec x i) as [->|Hn].
  - rewrite nth_error_upd_eq by (eapply nth_error_lt; eauto). rewrite E. apply HG.
  - rewrite nth_error_upd_neq by auto. reflexivity.
Qed.

Lemma modi_fa (h : heap Z) x p h' : modi h x (set_fa_ p) = Ok h' ->
  length h' = length h /\ forall i, fa_of h' i = if Nat.eqb i x then p else fa_of h i.
Proof.
  intros H. apply modi_inv in H. destruct H as (n & E & ->). split; [apply upd_length|]. intros i. unfold fa_of.
  destruct (Nat.eqb_spec i x) as [->|Hn].
  - rewrite nth_error_upd_eq by (eapply nth_error_lt; eauto). reflexivity.
  - rewrite nth_error_upd_neq by auto. reflexivity.
Qed.

Lemma setc_fa (h : heap Z) x c d h' : setc h x c d = Ok h' ->
  length h' = length h /\ forall i, fa_of h' i = if ptr_eqb c (Some i) then Some x else fa_of h i.
Proof.
  unfold setc. intros H. apply bind_inv in H. destruct H as (h1 & E1 & H).
  assert (HG : forall n : node Z, n_fa (set_ch_ d c n) = n_fa n) by (intros n; destruct d; reflexivity).
  destruct (modi_keep _ _ _ _ HG E1) as [L1 F1].
  destruct c as [y|].
  - destruct (modi_fa _ _ _ _ H) as [L2 F2]. split; [congruence|]. intros i. rewrite F2, F1. cbn [ptr_eqb].
    rewrite Nat.eqb_sym. reflexivity.
  - inversion H; subst. split; auto.
Qed.

Section Keep.
Variable one : Z.
#[local] Hint Extern 0 (DataOps Z) => exact (exact_ops one) : typeclass_instances.

Lemma push_up_fa (h : heap Z) x h' : push_up h x = Ok h' -> length h' = length h /\ forall i, fa_of h' i = fa_of h i.
Proof.
  unfold push_up. intros H. apply bind_inv in H. destruct H as (n & _ & H).
  apply bind_inv in H. destruct H as (m1 & _ & H). apply bind_inv in H. destruct H as (m2 & _ & H).
  eapply modi_keep; [|exact H]. reflexivity.
Qed.

Lemma update_add_fa (h : heap Z) x w h' : update_add h x w = Ok h' -> length h' = length h /\ forall i, fa_of h' i = fa_of h i.
Proof. intros H. eapply modi_keep; [|exact H]. reflexivity. Qed.

Lemma push_down_fa (h : heap Z) x h' : push_down h x = Ok h' -> length h' = length h /\ forall i, fa_of h' i = fa_of h i.
Proof.
  unfold push_down. intros H. apply bind_inv in H. destruct H as (n & _ & H).
  destruct (negb _); [|inversion H; subst; auto].
  apply bind_inv in H. destruct H as (h1 & E1 & H). apply bind_inv in H. destruct H as (h2 & E2 & H).
  assert (K1 : length h1 = length h /\ forall i, fa_of h1 i = fa_of h i).
  { destruct (n_c0 n); [eapply update_add_fa; eauto|inversion E1; subst; auto]. }
  assert (K2 : length h2 = length h1 /\ forall i, fa_of h2 i = fa_of h1 i).
  { destruct (n_c1 n); [eapply update_add_fa; eauto|inversion E2; subst; auto]. }
  assert (K3 : length h' = length h2 /\ forall i, fa_of h' i = fa_of h2 i) by (eapply modi_keep; [|exact H]; reflexivity).
  destruct K1, K2, K3. split; [congruence|]. intros i. congruence.
Qed.

Lemma pdfr_fa fuel : forall (h : heap Z) x h', push_down_from_root fuel h x = Ok h' -> length h' = length h /\ forall i, fa_of h' i = fa_of h i.
Proof.
  induction fuel as [|fuel IH]; intros h x h' H; [discriminate|]. cbn [push_down_from_root] in H.
  apply bind_inv in H. destruct H as (r & _ & H). apply bind_inv in H. destruct H as (h1 & E1 & H).
  destruct (push_down_fa _ _ _ H) as [L2 F2].
  assert (K : length h1 = length h /\ forall i, fa_of h1 i = fa_of h i).
  { destruct r; [inversion E1; subst; auto|]. apply bind_inv in E1. destruct E1 as (n & _ & E1).
    destruct (n_fa n); [|discriminate]. eapply IH; eauto. }
  destruct K. split; [congruence|]. intros i. congruence.
Qed.

Lemma get_min_loop_fa fuel : forall (h : heap Z) p ret h' out, get_min_loop fuel h p ret = Ok (h', out) ->
  length h' = length h /\ forall i, fa_of h' i = fa_of h i.
Proof.
  induction fuel as [|fuel IH]; intros h p ret h' out H; [discriminate|]. cbn [get_min_loop] in H.
  apply bind_inv in H. destruct H as (h1 & E1 & H). destruct (push_down_fa _ _ _ E1) as [L1 F1].
  apply bind_inv in H. destruct H as (n & _ & H). apply bind_inv in H. destruct H as (rt & _ & H).
  destruct (n_c0 n); [|inversion H; subst; auto].
  destruct (IH _ _ _ _ _ H) as [L2 F2]. split; [congruence|]. intros i. congruence.
Qed.

(** the three pointers a rotation sets *)
Lemma rot_fa (h : heap Z) x h' : rot h x = Ok h' ->
  exists nx f d, nth_error h x = Some nx /\ n_fa nx = Some f /\ dir h x = Ok d /\ length h' = length h /\
    forall i, fa_of h' i = if Nat.eqb i x then fa_of h f else if Nat.eqb i f then Some x
                           else if ptr_eqb (ch nx (negb d)) (Some i) then Some f else fa_of h i.
Proof.
  unfold rot. intros H. apply bind_inv in H. destruct H as (nx & E0 & H).
  assert (En : nth_error h x = Some nx).
  { unfold ld, vget in E0. destruct (nth_error h x); [|discriminate]. inversion E0; subst; auto. }
  destruct (n_fa nx) as [f|] eqn:Ef; [|discriminate].
  apply bind_inv in H. destruct H as (nf & E1 & H).
  assert (Enf : fa_of h f = n_fa nf).
  { unfold ld, vget in E1. unfold fa_of. destruct (nth_error h f); [|discriminate]. inversion E1; subst; auto. }
  apply bind_inv in H. destruct H as (d & Ed & H). apply bind_inv in H. destruct H as (cc & _ & H).
  apply bind_inv in H. destruct H as (h1 & S1 & H). apply bind_inv in H. destruct H as (h2 & S2 & H).
  apply bind_inv in H. destruct H as (h3 & S3 & H).
  destruct (setc_fa _ _ _ _ _ S1) as [L1 F1]. destruct (setc_fa _ _ _ _ _ S2) as [L2 F2].
  destruct (push_up_fa _ _ _ H) as [L4 F4].
  exists nx, f, d. split; [exact En|]. split; [exact Ef|]. split; [exact Ed|].
  assert (K : length h3 = length h2 /\ forall i, fa_of h3 i = if Nat.eqb i x then n_fa nf else fa_of h2 i).
  { destruct (n_fa nf) as [g|] eqn:Eg.
    - apply bind_inv in S3. destruct S3 as (ng & _ & S3). destruct (ptr_eqb (ch ng cc) (Some f)).
      + destruct (setc_fa _ _ _ _ _ S3) as [L3 F3]. split; [exact L3|]. intros i. rewrite F3. cbn [ptr_eqb].
        rewrite Nat.eqb_sym. reflexivity.
      + apply (modi_fa _ _ _ _ S3).
    - apply (modi_fa _ _ _ _ S3). }
  destruct K as [L3 F3]. split; [congruence|]. intros i. rewrite F4, F3, Enf.
  destruct (Nat.eqb i x); [reflexivity|]. rewrite F2. cbn [ptr_eqb]. rewrite Nat.eqb_sym. destruct (Nat.eqb i f); [reflexivity|].
  rewrite F1. reflexivity.
Qed.
End Keep.
