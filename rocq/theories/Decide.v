(** * Deciding the hypotheses of the theorems for concrete problems *)
From Coq Require Import Floats.SpecFloat.
From Verif Require Import Base BaseLemmas Data ProblemDefine Oracles CostScaling Spec FloatSpec OracleProof.
Local Open Scope Z_scope.

(** ** Deciding that a problem is admissible *)
Definition range (l u : Z) : list Z := map (fun i => l + Z.of_nat i) (seq 0 (Z.to_nat (u - l + 1))).

Lemma range_In l u x : l <= x <= u -> In x (range l u).
Proof. intro H. apply in_map_iff. exists (Z.to_nat (x - l)). split; [lia|]. apply in_seq. lia. Qed.

Definition fn_okb (f : Fn Z) (l u : Z) : bool :=
  forallb (fun x => match f x with Ok _ => true | Err _ => false end) (range l u) &&
  forallb (fun x => 2 * cost f x <=? cost f (x - 1) + cost f (x + 1)) (range (l + 1) (u - 1)).

Lemma fn_okb_ok f l u : fn_okb f l u = true -> defined_on f l u /\ convex_on (cost f) l u.
Proof.
  unfold fn_okb. intro H. apply andb_true_iff in H. destruct H as [H1 H2]. rewrite forallb_forall in H1, H2. split.
  - intros x Hx. specialize (H1 x (range_In l u x Hx)). destruct (f x) as [v|]; [eauto|discriminate].
  - intros x Hx. specialize (H2 x (range_In (l + 1) (u - 1) x ltac:(lia))). apply Z.leb_le in H2. exact H2.
Qed.

Definition mu_okb (K : Z) (m : MuLimit Z) : bool := (m_l m <=? m_u m) && fn_okb (m_fn m) (m_l m) (m_u m) && (- K <=? m_l m) && (m_u m <=? K).
Definition om_okb (n : nat) (K : Z) (o : OmegaLimit Z) : bool :=
  (o_l o <=? o_u o) && fn_okb (o_fn o) (o_l o) (o_u o) && (- K <=? o_l o) && (o_u o <=? K) &&
  (1 <=? o_i o)%nat && (o_i o <=? n)%nat && (1 <=? o_j o)%nat && (o_j o <=? n)%nat && negb (o_i o =? o_j o)%nat.

Definition problem_okb (n : nat) (mus : list (MuLimit Z)) (oms : list (OmegaLimit Z)) (K : Z) : bool :=
  (length mus =? n + 1)%nat && forallb (mu_okb K) (tl mus) && forallb (om_okb n K) oms && (1 <=? K) &&
  (28 * Z.of_nat (n + 1) * Z.of_nat (n + 1) * K <=? INT_MAX).

Lemma problem_okb_ok n mus oms K : problem_okb n mus oms K = true -> admissible n mus oms K.
Proof.
  unfold problem_okb. rewrite !andb_true_iff, !forallb_forall. intros ((((H1 & H2) & H3) & H4) & H5).
  apply Nat.eqb_eq in H1. apply Z.leb_le in H4, H5.
  assert (HM : forall i m, (1 <= i <= n)%nat -> nth_error mus i = Some m -> mu_okb K m = true).
  { intros i m Hi E. apply H2. destruct mus as [|x mus]; [destruct i; discriminate|]. destruct i as [|i]; [lia|]. eapply nth_error_In. exact E. }
  split; [split; [exact H1|split]|split; [split|split; assumption]].
  - intros i m Hi E. specialize (HM i m Hi E). unfold mu_okb in HM. rewrite !andb_true_iff in HM. destruct HM as (((A & B) & _) & _).
    apply Z.leb_le in A. split; [exact A|apply fn_okb_ok; exact B].
  - intros o Ho. specialize (H3 o Ho). unfold om_okb in H3. rewrite !andb_true_iff in H3. destruct H3 as ((((((((A & B) & _) & _) & C1) & C2) & C3) & C4) & C5).
    apply Z.leb_le in A. apply Nat.leb_le in C1, C2, C3, C4. apply negb_true_iff, Nat.eqb_neq in C5. apply fn_okb_ok in B. unfold om_wf. tauto.
  - intros i m Hi E. specialize (HM i m Hi E). unfold mu_okb in HM. rewrite !andb_true_iff in HM. destruct HM as ((_ & A) & B). apply Z.leb_le in A, B. auto.
  - intros o Ho. specialize (H3 o Ho). unfold om_okb in H3. rewrite !andb_true_iff in H3. destruct H3 as (((((((_ & A) & B) & _) & _) & _) & _) & _).
    apply Z.leb_le in A, B. auto.
Qed.

(** ** Solutions *)
Definition same_answer (r : res (option Z)) (e : option Z) : bool :=
  match r, e with Ok (Some v), Some w => v =? w | Ok None, None => true | _, _ => false end.

Lemma same_answer_ok r e : same_answer r e = true -> r = Ok e.
Proof. destruct r as [[v|]|]; destruct e as [w|]; cbn; try discriminate; [|reflexivity]. intro H. apply Z.eqb_eq in H. congruence. Qed.

Lemma bf_decides fuel n mus oms K e : admissible n mus oms K -> 2 * K + 32 <= Z.of_nat fuel ->
  @bf_solve Z (exact_ops 1) fuel n mus oms = Ok e -> solution n mus oms e.
Proof.
  intros (W & B & I1 & I2) Hf E. assert (1 <= Z.of_nat (n + 1) * Z.of_nat (n + 1)) by nia. assert (28 * K <= INT_MAX) by nia.
  destruct (bf_solve_ok 1 n mus oms K fuel W B) as (r & E' & S); try lia. replace e with r by congruence. exact S.
Qed.

(** ** Doubles *)
Definition f64_answer (k : Z) (r : res (option spec_float)) (e : option Z) : Prop :=
  match e with Some v => exists f, r = Ok (Some f) /\ f64_is k f v | None => r = Ok None end.

(** a double answers [e] *)
Definition f64_answerb (k : Z) (r : res (option spec_float)) (e : option Z) : bool :=
  match r, e with
  | Ok (Some (S754_zero _)), Some v => v =? 0
  | Ok (Some (S754_finite s m x)), Some v =>
      valid_binary f64_prec f64_emax (S754_finite s m x) && (cond_Zopp s (Zpos m) * 2 ^ Z.max 0 (x + k) =? v * 2 ^ Z.max 0 (- (x + k)))
  | Ok None, None => true
  | _, _ => false
  end.

Lemma f64_answerb_ok k r e : f64_answerb k r e = true -> f64_answer k r e.
Proof.
  destruct r as [[[b|b| |b m x]|]|], e as [v|]; cbn [f64_answerb]; try discriminate; intro H; [| |reflexivity]; eexists; (split; [reflexivity|]).
  - apply Z.eqb_eq in H. exact H.
  - apply andb_true_iff in H. destruct H as [H1 H2]. apply Z.eqb_eq in H2. split; assumption.
Qed.

(** a problem in doubles is an exact problem *)
Definition fn_isb (k : Z) (ff : Fn spec_float) (fz : Fn Z) (l u : Z) : bool :=
  forallb (fun x => match ff x, fz x with Ok f, Ok z => f64_answerb k (Ok (Some f)) (Some z) | _, _ => false end) (range l u).

Lemma fn_isb_ok k ff fz l u : fn_isb k ff fz l u = true -> fn_is k ff fz l u.
Proof.
  unfold fn_isb. rewrite forallb_forall. intros H x Hx. specialize (H x (range_In l u x Hx)).
  destruct (ff x) as [f|]; [|discriminate]. destruct (fz x) as [z|]; [|discriminate].
  apply f64_answerb_ok in H. destruct H as (f' & E & H). exists f, z. injection E as <-. auto.
Qed.

Definition mu_isb (k : Z) (p : MuLimit spec_float * MuLimit Z) : bool :=
  let (a, b) := p in (m_l a =? m_l b) && (m_u a =? m_u b) && fn_isb k (m_fn a) (m_fn b) (m_l b) (m_u b).
Definition om_isb (k : Z) (p : OmegaLimit spec_float * OmegaLimit Z) : bool :=
  let (a, b) := p in (o_l a =? o_l b) && (o_u a =? o_u b) && (o_i a =? o_i b)%nat && (o_j a =? o_j b)%nat && fn_isb k (o_fn a) (o_fn b) (o_l b) (o_u b).
Definition problem_isb (k : Z) (musf : list (MuLimit spec_float)) (omsf : list (OmegaLimit spec_float)) (mus : list (MuLimit Z)) (oms : list (OmegaLimit Z)) : bool :=
  (length musf =? length mus)%nat && forallb (mu_isb k) (combine (tl musf) (tl mus)) && (length omsf =? length oms)%nat && forallb (om_isb k) (combine omsf oms).

Lemma combine_nth_error {A B} (l : list A) (l' : list B) i a b : nth_error l i = Some a -> nth_error l' i = Some b -> In (a, b) (combine l l').
Proof.
  revert l' i; induction l as [|x l IH]; intros [|y l'] [|i]; cbn; try discriminate; intros E1 E2.
  - left. congruence.
  - right. eapply IH; eauto.
Qed.

Lemma problem_isb_ok k musf omsf mus oms : problem_isb k musf omsf mus oms = true -> problem_is k musf omsf mus oms.
Proof.
  unfold problem_isb. rewrite !andb_true_iff. intros (((H1 & H2) & H3) & H4). apply Nat.eqb_eq in H1, H3. split; [exact H1|]. split.
  - intros i mf mz Hi Ef Ez. rewrite forallb_forall in H2. destruct i as [|i]; [lia|].
    assert (I : In (mf, mz) (combine (tl musf) (tl mus))).
    { destruct musf as [|? musf], mus as [|? mus]; try discriminate. eapply combine_nth_error; eauto. }
    specialize (H2 _ I). cbn [mu_isb] in H2. rewrite !andb_true_iff in H2. destruct H2 as ((A & B) & C). apply Z.eqb_eq in A, B.
    split; [exact A|]. split; [exact B|]. apply fn_isb_ok. exact C.
  - clear H1 H2. revert oms H3 H4. induction omsf as [|o omsf IH]; intros [|o' oms] H3 H4; try discriminate; constructor.
    + cbn [combine forallb om_isb] in H4. rewrite !andb_true_iff in H4. destruct H4 as (((((A & B) & C) & E) & G) & _).
      apply Z.eqb_eq in A, B. apply Nat.eqb_eq in C, E. apply fn_isb_ok in G. repeat (split; [assumption|]). exact G.
    + apply IH; [cbn in H3; lia|]. cbn [combine forallb] in H4. apply andb_true_iff in H4. apply H4.
Qed.

