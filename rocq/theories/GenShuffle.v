(** * Permutations that shuffle never makes

    A state of random_t has 48 bits that matter, so shuffle of a given vector has at most
    2^48 results; 17! is larger. *)
From Coq Require Import Permutation Factorial.
From Verif Require Import Base BaseLemmas Generator GenRng GenGraphProof FuelMono.
Local Open Scope Z_scope.

(** ** All permutations *)
Fixpoint inserts (x : Z) (l : list Z) : list (list Z) :=
  match l with [] => [[x]] | y :: l' => (x :: l) :: map (cons y) (inserts x l') end.
Fixpoint perms (l : list Z) : list (list Z) := match l with [] => [[]] | x :: l => flat_map (inserts x) (perms l) end.

Lemma inserts_perm x l p : In p (inserts x l) -> Permutation (x :: l) p.
Proof.
  revert p. induction l as [|y l IH]; intros p H; cbn [inserts In] in H; [destruct H as [<-|[]]; reflexivity|]. destruct H as [<-|H]; [reflexivity|].
  apply in_map_iff in H. destruct H as (q & <- & H). rewrite <- (IH q H). apply perm_swap.
Qed.
Lemma perms_perm l p : In p (perms l) -> Permutation l p.
Proof.
  revert p. induction l as [|x l IH]; intros p H; cbn [perms] in H; [destruct H as [<-|[]]; constructor|]. apply in_flat_map in H. destruct H as (q & H1 & H2).
  rewrite <- (inserts_perm x q p H2). constructor. apply IH, H1.
Qed.
Lemma inserts_length x l : length (inserts x l) = S (length l).
Proof. induction l as [|y l IH]; cbn [inserts length]; [reflexivity|]. rewrite map_length, IH. reflexivity. Qed.
Lemma flat_map_const {A B} (f : A -> list B) n l : (forall x, In x l -> length (f x) = n) -> length (flat_map f l) = (n * length l)%nat.
Proof. induction l as [|x l IH]; intro H; cbn [flat_map length]; [lia|]. rewrite app_length, (H x) by (left; reflexivity). rewrite IH by (intros; apply H; right; assumption). lia. Qed.
Lemma perms_length l : length (perms l) = fact (length l).
Proof.
  induction l as [|x l IH]; [reflexivity|]. cbn [perms]. rewrite (flat_map_const _ (S (length l))).
  - rewrite IH. reflexivity.
  - intros p H. rewrite inserts_length. f_equal. symmetry. apply Permutation_length, perms_perm, H.
Qed.
Lemma inserts_nodup x l : ~ In x l -> NoDup (inserts x l).
Proof.
  induction l as [|y l IH]; intro H; cbn [inserts]; [repeat constructor; tauto|]. constructor.
  - intro X. apply in_map_iff in X. destruct X as (q & E & _). inversion E. apply H. left. congruence.
  - apply FinFun.Injective_map_NoDup; [intros a b E; inversion E; reflexivity|]. apply IH. intro X. apply H. right. exact X.
Qed.
Lemma inserts_remove x l p : ~ In x l -> In p (inserts x l) -> remove Z.eq_dec x p = l.
Proof.
  revert p. induction l as [|y l IH]; intros p N H; cbn [inserts In] in H.
  - destruct H as [<-|[]]. cbn. destruct (Z.eq_dec x x); congruence.
  - destruct H as [<-|H].
    + cbn [remove]. destruct (Z.eq_dec x x); [|congruence]. apply (notin_remove Z.eq_dec (y :: l) x N).
    + apply in_map_iff in H. destruct H as (q & <- & H). cbn [remove]. destruct (Z.eq_dec x y) as [->|_]; [exfalso; apply N; left; reflexivity|].
      f_equal. apply IH; [|exact H]. intro X. apply N. right. exact X.
Qed.
Lemma nodup_flat_map {A B} (f : A -> list B) l : NoDup l -> (forall x, In x l -> NoDup (f x)) -> (forall x y z, In x l -> In y l -> In z (f x) -> In z (f y) -> x = y) -> NoDup (flat_map f l).
Proof.
  induction 1 as [|x l Hx Hl IH]; intros H1 H2; cbn [flat_map]; [constructor|].
  assert (IH' : NoDup (flat_map f l)) by (apply IH; [intros; apply H1; right; assumption|intros a b z Ha Hb; apply H2; right; assumption]).
  assert (HX := H1 x (or_introl eq_refl)). assert (HD : forall z, In z (f x) -> ~ In z (flat_map f l)).
  { intros z Hz X. apply in_flat_map in X. destruct X as (y & Hy & Hzy). apply Hx. rewrite (H2 x y z (or_introl eq_refl) (or_intror Hy) Hz Hzy). exact Hy. }
  clear - IH' HX HD. induction HX as [|z k Hz Hk IHk]; cbn [app]; [exact IH'|]. constructor.
  - intro X. apply in_app_or in X. destruct X as [X|X]; [exact (Hz X)|]. exact (HD z (or_introl eq_refl) X).
  - apply IHk. intros w Hw. apply HD. right. exact Hw.
Qed.
Lemma perms_nodup l : NoDup l -> NoDup (perms l).
Proof.
  induction 1 as [|x l Hx Hl IH]; cbn [perms]; [repeat constructor; tauto|].
  assert (N : forall p, In p (perms l) -> ~ In x p) by (intros p Hp X; apply Hx; eapply Permutation_in; [symmetry; apply perms_perm; exact Hp|exact X]).
  apply nodup_flat_map; [exact IH|intros p Hp; apply inserts_nodup, N, Hp|].
  intros p q z Hp Hq H1 H2. rewrite <- (inserts_remove x p z (N p Hp) H1). exact (inserts_remove x q z (N q Hq) H2).
Qed.

(** ** Counting what is not in a list *)
Lemma missing {A} (dec : forall a b : A, {a = b} + {a <> b}) (L outs : list A) : NoDup L ->
  exists M, NoDup M /\ (length L <= length M + length outs)%nat /\ forall x, In x M -> In x L /\ ~ In x outs.
Proof.
  intro H. set (f := fun x => if in_dec dec x outs then false else true). exists (filter f L). split; [apply NoDup_filter; exact H|]. split.
  - assert (X : (length (filter (fun x => negb (f x)) L) <= length outs)%nat).
    { apply NoDup_incl_length; [apply NoDup_filter; exact H|]. intros x Hx. apply filter_In in Hx. destruct Hx as [_ Hx]. unfold f in Hx. destruct (in_dec dec x outs); [assumption|discriminate]. }
    assert (Y : length L = (length (filter f L) + length (filter (fun x => negb (f x)) L))%nat); [|lia].
    clear. induction L as [|x L IH]; cbn [filter length]; [reflexivity|]. destruct (f x); cbn [negb length]; lia.
  - intros x Hx. apply filter_In in Hx. destruct Hx as [H1 H2]. split; [exact H1|]. unfold f in H2. destruct (in_dec dec x outs); [discriminate|assumption].
Qed.

(** ** shuffle *)
Lemma step_mod s : rng_step (s mod 2 ^ 48) = rng_step s.
Proof. rewrite !step_eq. rewrite Z.add_mod, Z.mul_mod, Z.mod_mod, <- Z.mul_mod, <- Z.add_mod by lia. reflexivity. Qed.
Lemma next_int_mod fuel n s : next_int fuel n (s mod 2 ^ 48) = next_int fuel n s.
Proof.
  unfold next_int, next_bits. destruct (n <=? 0); [reflexivity|]. rewrite step_mod. destruct (_ =? n); [reflexivity|].
  destruct fuel as [|fuel]; [reflexivity|]. cbn [draw_below]. rewrite step_mod. reflexivity.
Qed.
Lemma shuffle_mod {A} fuel (l : list A) s : (2 <= length l)%nat -> shuffle fuel 0 l (s mod 2 ^ 48) = shuffle fuel 0 l s.
Proof.
  intro H. unfold shuffle. destruct (length l - 0 - 1)%nat as [|k] eqn:E; [lia|]. cbn [seq for_each]. destruct (ck (Z.of_nat 1 + 1)); cbn [bind]; [|reflexivity]. rewrite next_int_mod. reflexivity.
Qed.

Lemma some_nat z : 0 <= z -> exists n, Z.of_nat n = z.
Proof. intro H. exists (Z.to_nat z). apply Z2Nat.id. exact H. Qed.

Lemma last_step {X T} (l1 : list X) x (st : T) body r : for_each (l1 ++ [x]) st body = Ok r -> exists st', body st' x = Ok r.
Proof.
  rewrite for_each_app. intro E. apply bind_inv in E. destruct E as (st' & _ & E). cbn [for_each] in E. apply bind_inv in E. destruct E as (st2 & E & E2). exists st'. congruence.
Qed.
Lemma shuffle_short {A} fuel (l : list A) s r : (2 <= length l)%nat -> shuffle fuel 0 l s = Ok r -> Z.of_nat (length l) <= INT_MAX.
Proof.
  intros HL E. unfold shuffle in E. assert (S1 : seq 1 (length l - 0 - 1) = seq 1 (length l - 2) ++ [(length l - 1)%nat]).
  { replace (length l - 0 - 1)%nat with (S (length l - 2)) by lia. rewrite seq_S. do 2 f_equal. lia. }
  rewrite S1 in E. apply last_step in E. destruct E as ([l1 s1] & E). apply bind_inv in E. destruct E as (w & E & _). apply ck_inv in E. destruct E as [_ [_ E]].
  rewrite Nat2Z.inj_sub in E by lia. revert E. generalize INT_MAX. intros z E. clear - E. lia.
Qed.
Lemma shuffle_enough {A} fuel F (l : list A) s r : rng_fuel F -> (2 <= length l)%nat -> shuffle fuel 0 l s = Ok r -> shuffle F 0 l s = Ok r.
Proof.
  intros HR HL E. destruct (Nat.le_ge_cases fuel F) as [HF|HF].
  - destruct (shuffle_later HF 0 l s) as [X|X]; congruence.
  - destruct (shuffle_later HF 0 l s) as [X|X]; [|congruence]. exfalso.
    assert (R := shuffle_ok F 0 l s (shuffle_short _ _ _ _ HL E)). rewrite X in R. destruct R as [_ R]. exact (R HR).
Qed.
Definition outcome (F : nat) (l : list Z) (s : Z) : list Z := match shuffle F 0 l s with Ok (p, _) => p | Err _ => [] end.
Lemma outcomes F N (l : list Z) fuel s p s' : rng_fuel F -> Z.of_nat N = 2 ^ 48 -> (2 <= length l)%nat -> shuffle fuel 0 l s = Ok (p, s') ->
  In p (map (fun k => outcome F l (Z.of_nat k)) (seq 0 N)).
Proof.
  intros HR EN HL E. assert (B := Z.mod_pos_bound s (2 ^ 48) eq_refl). assert (C := shuffle_enough fuel F l s _ HR HL E). rewrite <- shuffle_mod in C by exact HL.
  revert B C. generalize (s mod 2 ^ 48). rewrite <- EN. clear. intros z B C. apply in_map_iff. exists (Z.to_nat z). split; [|apply in_seq; lia].
  rewrite Z2Nat.id by lia. unfold outcome. rewrite C. reflexivity.
Qed.

Theorem unshuffled (l : list Z) : NoDup l -> (2 <= length l)%nat ->
  exists M : list (list Z), NoDup M /\ Z.of_nat (fact (length l)) - 2 ^ 48 <= Z.of_nat (length M) /\
    forall p, In p M -> Permutation l p /\ forall fuel s s', shuffle fuel 0 l s <> Ok (p, s').
Proof.
  intros HN HL. destruct (some_nat (2 ^ 48)) as [N EN]; [lia|]. destruct (some_nat (2 ^ 48 + 2)) as [F EF]; [lia|].
  assert (HR : rng_fuel F) by (unfold rng_fuel; rewrite EF; apply Z.le_refl). clear EF.
  destruct (missing (list_eq_dec Z.eq_dec) (perms l) (map (fun k => outcome F l (Z.of_nat k)) (seq 0 N)) (perms_nodup l HN)) as (M & H1 & H2 & H3).
  rewrite perms_length, map_length, seq_length in H2. exists M. split; [exact H1|]. split; [rewrite <- EN; clear - H2; lia|].
  intros p Hp. destruct (H3 p Hp) as [H4 H5]. split; [apply perms_perm, H4|]. intros fuel s s' E. exact (H5 (outcomes F N l fuel s p s' HR EN HL E)).
Qed.

Lemma fact_17 n : (17 <= n)%nat -> 355687428096000 <= Z.of_nat (fact n).
Proof.
  intro H. assert (E : forall k, Z.of_nat (fact (S k)) = Z.of_nat (S k) * Z.of_nat (fact k)) by (intro k; rewrite <- Nat2Z.inj_mul; reflexivity).
  induction H as [|n H IH]; [|rewrite E; nia]. do 17 rewrite E. cbn [fact]. vm_compute. discriminate.
Qed.
Theorem not_all_shuffled (l : list Z) : NoDup l -> (17 <= length l)%nat ->
  exists p, Permutation l p /\ forall fuel s s', shuffle fuel 0 l s <> Ok (p, s').
Proof.
  intros HN HL. destruct (unshuffled l HN ltac:(lia)) as (M & _ & H & HM). assert (F := fact_17 _ HL). destruct M as [|p M]; [cbn [length] in H; lia|].
  exists p. apply HM. left. reflexivity.
Qed.
