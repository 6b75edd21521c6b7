(** * The random numbers of testlib: range, full period, termination *)
From Verif Require Import Base Data BaseLemmas Generator.
Local Open Scope Z_scope.

(** [m] succeeds with a result in [P]; it may run out of fuel, but not if [T] *)
Definition runs {A : Type} (T : Prop) (P : A -> Prop) (m : res A) : Prop :=
  match m with Ok a => P a | Err e => e = OutOfFuel /\ ~ T end.

Lemma runs_ret {A} T (P : A -> Prop) a : P a -> runs T P (Ok a).
Proof. exact (fun H => H). Qed.

Lemma runs_bind {A B} T (P : A -> Prop) (Q : B -> Prop) (m : res A) (k : A -> res B) :
  runs T P m -> (forall a, P a -> runs T Q (k a)) -> runs T Q (x <- m ;; k x).
Proof. destruct m; cbn; auto. Qed.

Lemma runs_weaken {A} (T T' : Prop) (P P' : A -> Prop) (m : res A) :
  runs T P m -> (T' -> T) -> (forall a, P a -> P' a) -> runs T' P' m.
Proof. destruct m; cbn; intuition. Qed.

Lemma runs_ok {A} (T : Prop) (P : A -> Prop) (m : res A) : runs T P m -> T -> exists a, m = Ok a /\ P a.
Proof. destruct m; cbn; [eauto|tauto]. Qed.

Lemma runs_ck T (P : Z -> Prop) z : INT_MIN <= z <= INT_MAX -> P z -> runs T P (ck z).
Proof. intros H HP. unfold ck. rewrite (proj2 (Z.leb_le _ _) (proj1 H)), (proj2 (Z.leb_le _ _) (proj2 H)). exact HP. Qed.

Lemma runs_for {A S} T (l : list A) (body : S -> A -> res S) (I : list A -> S -> Prop) st :
  I [] st ->
  (forall pre x suf s, l = pre ++ x :: suf -> I pre s -> runs T (I (pre ++ [x])) (body s x)) ->
  runs T (I l) (for_each l st body).
Proof.
  intros H0 Hs.
  enough (G : forall suf pre s, l = pre ++ suf -> I pre s -> runs T (I l) (for_each suf s body)) by (apply (G l []); auto).
  induction suf as [|x suf IH]; intros pre s E HI; cbn.
  - rewrite app_nil_r in E. subst. exact HI.
  - eapply runs_bind; [apply (Hs pre x suf s E HI)|]. intros s' HI'. apply (IH (pre ++ [x])); [|exact HI'].
    rewrite <- app_assoc. exact E.
Qed.

(** ** One step *)
Definition rng_ok (s : rng) : Prop := 0 <= s < 2 ^ 48.

Lemma step_eq s : rng_step s = (s * rng_multiplier + rng_addend) mod 2 ^ 48.
Proof.
  unfold rng_step. replace rng_mask with (Z.ones 48) by reflexivity. rewrite Z.land_ones by lia.
  change (2 ^ 64) with (2 ^ 48 * 2 ^ 16). generalize (s * rng_multiplier + rng_addend). intro x.
  rewrite Z.rem_mul_r by lia. rewrite Z.add_mod, Z.mul_comm, Z.mod_mul, Z.add_0_r, !Z.mod_mod by lia. reflexivity.
Qed.

Lemma step_ok s : rng_ok (rng_step s).
Proof. rewrite step_eq. apply Z.mod_pos_bound. lia. Qed.

Fixpoint steps (k : nat) (s : rng) : rng := match k with O => s | S k => steps k (rng_step s) end.

Lemma steps_add a b s : steps (a + b) s = steps b (steps a s).
Proof. revert s. induction a as [|a IH]; intro s; cbn; [reflexivity|apply IH]. Qed.

Lemma steps_S k s : steps (S k) s = rng_step (steps k s).
Proof. replace (S k) with (k + 1)%nat by lia. rewrite steps_add. reflexivity. Qed.

Lemma steps_ok k s : (1 <= k)%nat -> rng_ok (steps k s).
Proof. destruct k; [lia|]. intros _. rewrite steps_S. apply step_ok. Qed.

(** the map after 2^j steps is s |-> A*s + B *)
Fixpoint aff (j : nat) : Z * Z :=
  match j with
  | O => (rng_multiplier, rng_addend)
  | S j => let '(A, B) := aff j in ((A * A) mod 2 ^ 48, (A * B + B) mod 2 ^ 48)
  end.

Definition cong (m a b : Z) : Prop := a mod m = b mod m.

Lemma aff_steps j : exists p : nat, Z.of_nat p = 2 ^ Z.of_nat j /\
  forall s, cong (2 ^ 48) (steps p s) (fst (aff j) * s + snd (aff j)).
Proof.
  induction j as [|j [p [Ep IH]]].
  - exists 1%nat. split; [reflexivity|]. intro s. unfold cong. cbn [steps]. rewrite step_eq, Z.mod_mod by lia.
    cbn [aff fst snd]. f_equal. ring.
  - exists (p + p)%nat. split; [rewrite Nat2Z.inj_succ, Z.pow_succ_r by lia; lia|].
    intro s. rewrite steps_add. unfold cong in *. rewrite (IH (steps p s)).
    cbn [aff]. destruct (aff j) as [A B]. cbn [fst snd] in *.
    rewrite <- (Z.add_mod_idemp_l (A * _) B), <- Z.mul_mod_idemp_r, (IH s), Z.mul_mod_idemp_r, Z.add_mod_idemp_l by lia.
    rewrite <- (Z.add_mod_idemp_r _ ((A * B + B) mod _)), Z.mod_mod, Z.add_mod_idemp_r by lia.
    rewrite <- (Z.add_mod_idemp_l (_ * s)), Z.mul_mod_idemp_l, Z.add_mod_idemp_l by lia.
    f_equal. ring.
Qed.

Definition aff_ok (j : nat) : bool :=
  let '(A, B) := aff j in
  (A mod 2 ^ (Z.of_nat j + 1) =? 1) && (B mod 2 ^ (Z.of_nat j + 1) =? 2 ^ Z.of_nat j).

Lemma aff_table : forallb aff_ok (seq 0 48) = true.
Proof. vm_compute. reflexivity. Qed.

Lemma cong_divide m m' a b : 0 < m -> 0 < m' -> (m | m') -> cong m' a b -> cong m a b.
Proof.
  unfold cong. intros Hm Hm' [q ->] H.
  rewrite (Z.div_mod a (q * m)), (Z.div_mod b (q * m)), H by lia.
  generalize (b mod (q * m)). intro r.
  replace (q * m * (a / (q * m)) + r) with (r + (q * (a / (q * m))) * m) by ring.
  replace (q * m * (b / (q * m)) + r) with (r + (q * (b / (q * m))) * m) by ring.
  rewrite !Z.mod_add by lia. reflexivity.
Qed.

Lemma jump j : (j < 48)%nat -> exists p : nat, Z.of_nat p = 2 ^ Z.of_nat j /\
  forall s, cong (2 ^ (Z.of_nat j + 1)) (steps p s) (s + 2 ^ Z.of_nat j).
Proof.
  intro Hj. destruct (aff_steps j) as [p [Ep H]]. exists p. split; [exact Ep|]. intro s.
  pose proof (proj1 (forallb_forall _ _) aff_table j ltac:(apply in_seq; lia)) as T.
  unfold aff_ok in T. destruct (aff j) as [A B]. cbn [fst snd] in H.
  apply andb_prop in T. destruct T as [TA TB]. apply Z.eqb_eq in TA, TB.
  assert (Hm : 0 < 2 ^ (Z.of_nat j + 1)) by (apply Z.pow_pos_nonneg; lia).
  assert (D : (2 ^ (Z.of_nat j + 1) | 2 ^ 48)).
  { exists (2 ^ (48 - (Z.of_nat j + 1))). rewrite <- Z.pow_add_r by lia. f_equal. lia. }
  specialize (H s). assert (H48 : 0 < 2 ^ 48) by lia. apply (cong_divide _ _ _ _ Hm H48 D) in H. unfold cong in *. rewrite H.
  set (m := 2 ^ (Z.of_nat j + 1)) in *.
  rewrite Z.add_mod, Z.mul_mod, TA, TB, Z.mul_1_l, Z.mod_mod by lia. rewrite <- TB, <- Z.add_mod, Z.add_mod_idemp_r by lia. reflexivity.
Qed.

Lemma orbit_mod j s t : (j <= 48)%nat -> exists k : nat, Z.of_nat k < 2 ^ Z.of_nat j /\ cong (2 ^ Z.of_nat j) (steps k s) t.
Proof.
  induction j as [|j IH]; intro Hj.
  - exists 0%nat. split; [reflexivity|]. unfold cong. rewrite !Z.mod_1_r. reflexivity.
  - destruct (IH ltac:(lia)) as [k [Hk C]]. destruct (jump j ltac:(lia)) as [p [Ep J]].
    set (m := 2 ^ Z.of_nat j) in *. assert (Hm : 0 < m) by (apply Z.pow_pos_nonneg; lia).
    assert (E2 : 2 ^ Z.of_nat (S j) = 2 * m) by (rewrite Nat2Z.inj_succ, Z.pow_succ_r by lia; reflexivity).
    replace (2 ^ (Z.of_nat j + 1)) with (2 * m) in J by (rewrite <- E2; f_equal; lia).
    rewrite E2. clear IH E2. unfold cong in *. generalize (J (steps k s)). clear J. intro J. rewrite <- steps_add in J.
    pose proof (Z.div_mod (steps k s) m ltac:(lia)) as D1. pose proof (Z.div_mod t m ltac:(lia)) as D2.
    set (x := steps k s) in *. rewrite C in D1. set (q := x / m) in *. set (q' := t / m) in *. set (r := t mod m) in *.
    assert (P : exists z, q - q' = 2 * z \/ q - q' = 2 * z + 1).
    { exists ((q - q') / 2). pose proof (Z.div_mod (q - q') 2 ltac:(lia)). pose proof (Z.mod_pos_bound (q - q') 2 ltac:(lia)). lia. }
    destruct P as [z [P|P]].
    + exists k. split; [lia|]. fold x. replace x with (t + z * (2 * m)) by nia. apply Z.mod_add. lia.
    + exists (k + p)%nat. split; [lia|]. rewrite J. replace (x + m) with (t + (z + 1) * (2 * m)) by nia. apply Z.mod_add. lia.
Qed.

(** every state is reached from every state *)
Lemma orbit s t : rng_ok t -> exists k : nat, (1 <= k)%nat /\ Z.of_nat k <= 2 ^ 48 /\ steps k s = t.
Proof.
  intro Ht. destruct (orbit_mod 48 (rng_step s) t (le_n _)) as [k [Hk C]].
  exists (S k). split; [lia|]. change (Z.of_nat 48) with 48 in *. split; [lia|].
  cbn [steps]. unfold cong in C. rewrite (Z.mod_small t) in C by exact Ht. rewrite <- C. symmetry. apply Z.mod_small.
  destruct k; [exact (step_ok s)|rewrite steps_S; apply step_ok].
Qed.

Lemma step_parity s : Z.odd (rng_step s) = negb (Z.odd s).
Proof.
  rewrite step_eq.
  assert (E : forall x, Z.odd (x mod 2 ^ 48) = Z.odd x).
  { intro x. rewrite (Z.div_mod x (2 ^ 48)) at 2 by lia. rewrite Z.odd_add, Z.odd_mul. change (Z.odd (2 ^ 48)) with false. cbn [andb]. rewrite xorb_false_l. reflexivity. }
  rewrite E, Z.odd_add, Z.odd_mul. change (Z.odd rng_multiplier) with true. change (Z.odd rng_addend) with true.
  destruct (Z.odd s); reflexivity.
Qed.

Lemma steps_parity k s : Z.odd (steps k s) = xorb (Z.odd s) (Nat.odd k).
Proof.
  revert s. induction k as [|k IH]; intro s; cbn [steps]; [rewrite xorb_false_r; reflexivity|].
  rewrite IH, step_parity, Nat.odd_succ, <- Nat.negb_odd. destruct (Z.odd s), (Nat.odd k); reflexivity.
Qed.

(** ** next *)
Definition bits31 (s : rng) : Z := Z.shiftr s 17.

Lemma bits31_range s : rng_ok s -> 0 <= bits31 s < 2 ^ 31.
Proof.
  unfold rng_ok, bits31. intro H. rewrite Z.shiftr_div_pow2 by lia. split; [apply Z.div_pos; lia|].
  apply Z.div_lt_upper_bound; lia.
Qed.

Definition pow2 (n : Z) : bool := Z.land n (- n) =? n.

(** what [next(n)] makes of a state: [None] when it draws again *)
Definition out (n : Z) (s : rng) : option Z :=
  if pow2 n then Some (Z.shiftr (n * bits31 s) 31)
  else if INT_MAX / n * n <=? bits31 s then None else Some (bits31 s mod n).

Lemma out_range n s r : 0 < n -> rng_ok s -> out n s = Some r -> 0 <= r < n.
Proof.
  intros Hn Hs. pose proof (bits31_range s Hs). unfold out.
  destruct (pow2 n); [intros [= <-]|destruct (_ <=? _); [discriminate|]; intros [= <-]; apply Z.mod_pos_bound; lia].
  rewrite Z.shiftr_div_pow2 by lia. split; [apply Z.div_pos; nia|apply Z.div_lt_upper_bound; nia].
Qed.

Definition rng_fuel (fuel : nat) : Prop := 2 ^ 48 + 2 <= Z.of_nat fuel.

Lemma limit_pos n : 0 < n <= INT_MAX -> 0 < INT_MAX / n * n.
Proof. intro H. pose proof (Z.div_str_pos INT_MAX n H). lia. Qed.

(** the draws before the last one are refused *)
Definition drawn (n : Z) (s : rng) (r : Z) (s' : rng) : Prop :=
  exists k, (1 <= k)%nat /\ (forall j, (1 <= j < k)%nat -> out n (steps j s) = None) /\ out n (steps k s) = Some r /\ s' = steps k s.

Lemma draw_below_ok n fuel : forall s, pow2 n = false -> 0 < n <= INT_MAX ->
  runs (exists k, (1 <= k <= fuel)%nat /\ steps k s = 0) (fun '(b, s') => drawn n s (b mod n) s')
    (draw_below fuel (next_bits 31) (INT_MAX / n * n) s).
Proof.
  induction fuel as [|fuel IH]; intros s Hp Hn; cbn [draw_below].
  - split; [reflexivity|]. intros [k [Hk _]]. lia.
  - cbn [next_bits]. change (Z.shiftr (rng_step s) (48 - 31)) with (bits31 (rng_step s)).
    destruct (INT_MAX / n * n <=? bits31 (rng_step s)) eqn:E.
    + eapply runs_weaken; [apply (IH (rng_step s) Hp Hn)| |].
      * intros [k [Hk Ek]]. destruct k as [|k]; [lia|]. exists k. cbn [steps] in Ek. split; [|exact Ek].
        destruct k; [|lia]. exfalso. cbn in Ek. rewrite Ek in E. change (bits31 0) with 0 in E.
        apply Z.leb_le in E. pose proof (limit_pos n Hn). lia.
      * intros [b s'] [k (Hk & Hj & Ho & Es)]. exists (S k). split; [lia|]. split; [|split; [exact Ho|exact Es]].
        intros j Hj'. destruct j as [|[|j]]; [lia| |].
        -- cbn. unfold out. rewrite Hp, E. reflexivity.
        -- cbn [steps]. apply (Hj (S j)). lia.
    + exists 1%nat. split; [lia|]. split; [intros; lia|]. split; [|reflexivity]. cbn [steps]. unfold out. rewrite Hp, E. reflexivity.
Qed.

Lemma next_int_drawn fuel n s : 0 < n <= INT_MAX ->
  runs (rng_fuel fuel) (fun '(r, s') => drawn n s r s' /\ 0 <= r < n) (next_int fuel n s).
Proof.
  intro Hn. unfold next_int. rewrite (proj2 (Z.leb_gt n 0)) by lia.
  assert (R : forall r s', drawn n s r s' -> 0 <= r < n).
  { intros r s' [k (Hk & _ & Ho & _)]. apply (out_range n (steps k s)); [lia|apply steps_ok; lia|exact Ho]. }
  destruct (Z.land n (- n) =? n) eqn:E.
  - cbn [next_bits]. change (Z.shiftr (rng_step s) (48 - 31)) with (bits31 (rng_step s)).
    assert (G : drawn n s (Z.shiftr (n * bits31 (rng_step s)) 31) (rng_step s)).
    { exists 1%nat. split; [lia|]. split; [intros; lia|]. split; [|reflexivity]. cbn. unfold out, pow2. rewrite E. reflexivity. }
    cbn. split; [exact G|eapply R; exact G].
  - eapply runs_bind.
    + eapply runs_weaken; [apply (draw_below_ok n fuel s E Hn)| |intros x Hx; exact Hx].
      unfold rng_fuel. intro Hf. destruct (orbit s 0) as [k (H1 & H2 & H3)]; [unfold rng_ok; lia|]. exists k. split; [lia|exact H3].
    + intros [b s'] G. cbn. split; [exact G|eapply R; exact G].
Qed.

(** 63 bits *)
Lemma bits63_eq s : next_bits63 s = (Z.lxor (Z.shiftl (bits31 (rng_step s)) 32) (Z.shiftr (rng_step (rng_step s)) 16), rng_step (rng_step s)).
Proof. reflexivity. Qed.

Lemma bits63_range s : 0 <= fst (next_bits63 s) < 2 ^ 63.
Proof.
  rewrite bits63_eq. cbn [fst]. pose proof (bits31_range _ (step_ok s)) as H1. pose proof (step_ok (rng_step s)) as H2. unfold rng_ok in H2.
  set (a := Z.shiftl _ 32). set (b := Z.shiftr (rng_step (rng_step s)) 16).
  assert (Ha : 0 <= a < 2 ^ 63) by (unfold a; rewrite Z.shiftl_mul_pow2 by lia; lia).
  assert (Hb : 0 <= b < 2 ^ 63).
  { unfold b. rewrite Z.shiftr_div_pow2 by lia. split; [apply Z.div_pos; lia|apply Z.div_lt_upper_bound; lia]. }
  clearbody a b. clear H1 H2.
  assert (P : 0 <= Z.lxor a b) by (apply Z.lxor_nonneg; lia). split; [exact P|].
  destruct (Z.eq_dec (Z.lxor a b) 0) as [->|N]; [lia|]. apply Z.log2_lt_pow2; [lia|].
  pose proof (Z.log2_lxor a b ltac:(lia) ltac:(lia)).
  assert (L : forall x, 0 <= x < 2 ^ 63 -> Z.log2 x < 63).
  { intros x Hx. destruct (Z.eq_dec x 0) as [->|]; [reflexivity|]. apply Z.log2_lt_pow2; lia. }
  pose proof (L a Ha). pose proof (L b Hb). lia.
Qed.

Lemma bits63_small s : bits31 (rng_step s) = 0 -> fst (next_bits63 s) < 2 ^ 32.
Proof.
  intro E. rewrite bits63_eq, E. cbn [fst]. rewrite Z.shiftl_0_l, Z.lxor_0_l, Z.shiftr_div_pow2 by lia.
  pose proof (step_ok (rng_step s)) as H2. unfold rng_ok in H2. apply Z.div_lt_upper_bound; lia.
Qed.

Lemma draw63_ok fuel : forall L s, 2 ^ 32 <= L ->
  runs (exists k, (2 * k + 1 <= fuel)%nat /\ bits31 (steps (2 * k + 1) s) = 0) (fun '(b, s') => 0 <= b < L /\ rng_ok s')
    (draw_below fuel next_bits63 L s).
Proof.
  induction fuel as [|fuel IH]; intros L s HL; cbn [draw_below].
  - split; [reflexivity|]. intros [k [Hk _]]. lia.
  - pose proof (bits63_range s) as R. pose proof (bits63_small s) as Sm. pose proof (bits63_eq s) as E. destruct (next_bits63 s) as [b s'].
    cbn [fst] in R, Sm. assert (s' = rng_step (rng_step s)) by congruence. subst s'. clear E.
    destruct (L <=? b) eqn:E.
    + apply Z.leb_le in E. eapply runs_weaken; [apply (IH L _ HL)| |intros [? ?] H; exact H].
      intros [k [Hk Ek]]. destruct k as [|k]; [exfalso; specialize (Sm Ek); lia|].
      exists k. split; [lia|]. replace (2 * S k + 1)%nat with (S (S (2 * k + 1))) in Ek by lia. exact Ek.
    + apply Z.leb_gt in E. cbn. split; [lia|apply step_ok].
Qed.

Lemma next_ll_ok fuel n s : 0 < n <= 2 ^ 32 -> runs (rng_fuel fuel) (fun '(r, s') => 0 <= r < n /\ rng_ok s') (next_ll fuel n s).
Proof.
  intro Hn. unfold next_ll. rewrite (proj2 (Z.leb_gt n 0)) by lia.
  assert (HL : 2 ^ 32 <= LLONG_MAX / n * n).
  { pose proof (Z.div_mod LLONG_MAX n ltac:(lia)). pose proof (Z.mod_pos_bound LLONG_MAX n ltac:(lia)). unfold LLONG_MAX in *. lia. }
  eapply runs_bind.
  - eapply runs_weaken; [apply (draw63_ok fuel _ s HL)| |intros x H; exact H].
    unfold rng_fuel. intro Hf.
    destruct (orbit s (if Z.odd s then 0 else 1)) as [k (H1 & H2 & H3)]; [unfold rng_ok; destruct (Z.odd s); lia|].
    assert (O : Nat.odd k = true).
    { pose proof (steps_parity k s) as P. rewrite H3 in P. destruct (Z.odd s), (Nat.odd k); try reflexivity; discriminate P. }
    apply Nat.odd_spec in O. destruct O as [j ->]. exists j. split; [lia|]. rewrite H3. destruct (Z.odd s); reflexivity.
  - intros [b s'] [Hb Hs]. cbn. split; [apply Z.mod_pos_bound; lia|exact Hs].
Qed.

Lemma next_range_ok fuel from to s : INT_MIN <= from -> to <= INT_MAX -> from <= to ->
  runs (rng_fuel fuel) (fun '(r, s') => from <= r <= to /\ rng_ok s') (next_range fuel from to s).
Proof.
  intros H1 H2 H3. unfold next_range. eapply runs_bind.
  - apply next_ll_ok. unfold INT_MIN, INT_MAX in *. lia.
  - intros [r s'] [Hr Hs]. eapply runs_bind; [apply (runs_ck _ (fun x => x = r + from)); [lia|reflexivity]|].
    intros x ->. cbn. split; [lia|exact Hs].
Qed.

Lemma next_int_ok fuel n s : 0 < n <= INT_MAX -> runs (rng_fuel fuel) (fun '(r, s') => 0 <= r < n /\ rng_ok s') (next_int fuel n s).
Proof.
  intro Hn. eapply runs_weaken; [apply (next_int_drawn fuel n s Hn)|auto|].
  intros [r s'] [[k (Hk & _ & _ & ->)] Hr]. split; [exact Hr|]. apply steps_ok. lia.
Qed.

Lemma wnext_ok fuel n type s : 0 < n <= INT_MAX -> runs (rng_fuel fuel) (fun '(r, s') => 0 <= r < n /\ rng_ok s') (wnext fuel n type s).
Proof.
  intro Hn. unfold wnext. rewrite (proj2 (Z.leb_gt n 0)) by lia.
  eapply runs_bind; [apply (next_int_ok fuel n s Hn)|]. intros st Hst. eapply runs_bind.
  - apply (runs_for _ _ _ (fun _ '(r, s') => 0 <= r < n /\ rng_ok s')); [exact Hst|].
    intros _ _ _ [r s'] _ [Hr _]. eapply runs_bind; [apply (next_int_ok fuel n s' Hn)|]. intros [x s''] [Hx Hs]. cbn. split; [lia|exact Hs].
  - intros st' Hst'. apply (runs_for _ _ _ (fun _ '(r, s') => 0 <= r < n /\ rng_ok s')); [exact Hst'|].
    intros _ _ _ [r s'] _ [Hr _]. eapply runs_bind; [apply (next_int_ok fuel n s' Hn)|]. intros [x s''] [Hx Hs]. cbn. split; [lia|exact Hs].
Qed.

Lemma set_seed_ok s : rng_ok (set_seed s).
Proof. unfold set_seed. change rng_mask with (Z.ones 48). rewrite Z.land_ones by lia. apply Z.mod_pos_bound. lia. Qed.
