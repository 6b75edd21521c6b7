(** * Whole programs of link-cut tree calls, amortised *)
From Coq Require Import Permutation.
From Verif Require Import Base BaseLemmas Data LCT LCTTree LCTHeap LCTSplay LCTSpec LCTChecked LCTBound LCTForest LCTOps LCTRun LCTTime FuelMono LCTCount Sums LCTSizes LCTAmort LCTAmortOps LCTLinear.
Local Open Scope Z_scope.

(** [lct_call] with the turns of splaying counted: those of the loop of access
    (LCT.cpp:119-122), of the loop of splay (109-113) and of the recursion of
    push_down_from_root (89-93).  The walks down the left spine that find_root
    (9-10) and get_min_wtrbnr (37-42) make afterwards are not counted here. *)
Definition lct_call_s (one : Z) (fuel : nat) (h : heap Z) (op : lct_op) : counted (heap Z * lct_out) :=
  let ops := exact_ops one in
  match op with
  | FindRoot x => h <~ access_t fuel h x ;; r <~ free (leftmost fuel h x) ;; free (Ok (h, ONode r))
  | SetFa x y => h <~ set_fa_t fuel h x (Some y) ;; free (Ok (h, ONone))
  | Cut x => h <~ cut_t fuel h x ;; free (Ok (h, ONone))
  | GetVal x => p <~ get_val_t fuel h x ;; let ' (h, v) := p in free (Ok (h, OVal v))
  | GetMin x => h <~ access_t fuel h x ;;
                nx <~ free (ld h x) ;;
                p <~ free (get_min_loop fuel h x (n_val nx, Some x)) ;; let ' (h, m) := p in
                match snd m with
                | Some y => free (Ok (h, OMin (fst m) y))
                | None => Err NullDeref
                end
  | SetVal x v => h <~ set_val_t fuel h x v ;; free (Ok (h, ONone))
  | AddPath x d => h <~ add_val_way_to_root_t fuel h x d ;; free (Ok (h, ONone))
  end.

Fixpoint lct_calls_s (one : Z) (fuel : nat) (h : heap Z) (os : list lct_op) : counted (heap Z * list lct_out) :=
  match os with
  | [] => free (Ok (h, []))
  | op :: os =>
      p <~ lct_call_s one fuel h op ;; let ' (h, o) := p in
      p <~ lct_calls_s one fuel h os ;; let ' (h, r) := p in
      free (Ok (h, o :: r))
  end.

(** the calls that begin by accessing [x] *)
Definition accesses (x : nat) (op : lct_op) : Prop :=
  match op with
  | FindRoot y | Cut y | GetMin y | AddPath y _ => y = x
  | _ => False
  end.

(** After every link the linked node is accessed at once.  Flow does so:
    choice_operator calls link(p) and then send(p) (Flow.cpp:89), link ends with
    set_fa on nodes[p] (Flow.cpp:153) and send begins with find_root on nodes[p]
    (Flow.cpp:95). *)
Fixpoint eager (os : list lct_op) : Prop :=
  match os with
  | [] => True
  | SetFa x _ :: os' => match os' with [] => True | op :: _ => accesses x op end /\ eager os'
  | _ :: os' => eager os'
  end.

(** one call may cost this much, when the costs of a whole program are summed *)
Definition splay_turns (N : nat) : Z := 91 * Z.log2 (Z.of_nat N) + 14.

Section AmortRun.
Variable one : Z.
#[local] Hint Extern 0 (DataOps Z) => exact (exact_ops one) : typeclass_instances.

Lemma lct_call_s_erase fuel h op : erase (lct_call_s one fuel h op) = lct_call one fuel h op.
Proof.
  destruct op as [x|x y|x|x|x|x v|x d]; cbn [lct_call_s lct_call]; rewrite erase_cbind.
  - unfold find_root. rewrite access_erase, bind_assoc. apply bind_ext. intros h1. rewrite erase_cbind, erase_free, bind_assoc. apply bind_ext. reflexivity.
  - rewrite set_fa_erase. apply bind_ext. reflexivity.
  - rewrite cut_erase. apply bind_ext. reflexivity.
  - rewrite get_val_erase. apply bind_ext. intros [h1 r]. reflexivity.
  - unfold get_min_wtrbnr. rewrite access_erase, bind_assoc. apply bind_ext. intros h1. rewrite erase_cbind, erase_free, bind_assoc. apply bind_ext.
    intros nx. rewrite erase_cbind, erase_free. apply bind_ext. intros [h2 m]. destruct (snd m); reflexivity.
  - rewrite set_val_erase. apply bind_ext. reflexivity.
  - rewrite add_path_erase. apply bind_ext. reflexivity.
Qed.

Lemma lct_calls_s_erase fuel : forall os h, erase (lct_calls_s one fuel h os) = lct_calls one fuel h os.
Proof.
  induction os as [|op os IH]; intros h; [reflexivity|]. cbn [lct_calls_s lct_calls]. rewrite erase_cbind, lct_call_s_erase. apply bind_ext.
  intros [h1 o]. rewrite erase_cbind, IH. apply bind_ext. intros [h2 r]. reflexivity.
Qed.

(** it counts no more than [lct_call_t] *)
Lemma lct_call_s_le fuel h op r c r' c' :
  lct_call_s one fuel h op = Ok (r, c) -> lct_call_t one fuel h op = Ok (r', c') -> (c <= c')%nat.
Proof.
  destruct op as [x|x y|x|x|x|x v|x d]; cbn [lct_call_s lct_call_t]; intros H H'; try (rewrite H in H'; inversion H'; subst; lia).
  - apply cbind_inv in H. destruct H as (h1 & i & j & F1 & H & ->). apply cbind_inv in H. destruct H as (y & i1 & j1 & F2 & H & ->).
    apply free_inv in F2. destruct F2 as [_ ->]. apply free_inv in H. destruct H as [_ ->].
    unfold find_root_t in H'. rewrite F1 in H'. cbn [cbind] in H'.
    destruct (leftmost_t fuel h1 x) as [[y' k]|]; [|discriminate]. cbn [cbind free] in H'. inversion H'; subst. lia.
  - apply cbind_inv in H. destruct H as (h1 & i & j & F1 & H & ->). apply cbind_inv in H. destruct H as (nx & i1 & j1 & F2 & H & ->).
    apply free_inv in F2. destruct F2 as [F2 ->]. apply cbind_inv in H. destruct H as ([h2 m] & i2 & j2 & F3 & H & ->).
    apply free_inv in F3. destruct F3 as [_ ->]. destruct (snd m); [|discriminate]. apply free_inv in H. destruct H as [_ ->].
    unfold get_min_wtrbnr_t in H'. rewrite F1 in H'. cbn [cbind] in H'. rewrite F2 in H'. cbn [free cbind] in H'.
    destruct (get_min_loop_t fuel h1 x (n_val nx, Some x)) as [[[h3 m3] k]|]; [|discriminate]. cbn [cbind] in H'.
    destruct (snd m3); [|discriminate]. cbn [free cbind] in H'. inversion H'; subst. lia.
Qed.

Variable N : nat.
Let L := Z.log2 (Z.of_nat N).

Lemma L_nonneg : 0 <= L.
Proof. apply Z.log2_nonneg. Qed.

(** cutting the tree below a root off *)
Lemma sized_cut F F' s x c : sized N F s x 1 -> (x < N)%nat -> (c < N)%nat -> c <> x -> F x = None -> F c = Some x ->
  (forall i, F' i = if Nat.eqb i c then None else F i) ->
  exists s', sized N F' s' x 1 /\ pot N s' <= pot N s.
Proof.
  intros HS Hx Hc Hcx HFx HFc HF'. assert (Hn := sz_nn _ _ _ _ _ HS).
  assert (K := kids_one _ _ _ _ _ HS c x Hc HFc). assert (Ex := sz_eq _ _ _ _ _ HS x Hx).
  assert (Wx : weight x 1 x = 1) by (unfold weight; rewrite Nat.eqb_refl; reflexivity).
  set (s' := fup s x (s x - s c)).
  assert (KE : forall v, kids N F' s' v = kids N F s v - if Nat.eqb x v then s c else 0).
  { intros v. unfold kids. rewrite (zsum_point (seq 0 N) c (fun y => if ptr_eqb (F y) (Some v) then s y else 0)
       (fun y => if ptr_eqb (F' y) (Some v) then s' y else 0)).
    - cbv beta. rewrite HF', Nat.eqb_refl, HFc. cbn [ptr_eqb]. destruct (Nat.eqb x v); lia.
    - apply seq_NoDup.
    - apply in_seq0; auto.
    - intros i _ Hi. cbv beta. rewrite HF'. destruct (Nat.eqb_spec i c); [congruence|].
      destruct (Nat.eq_dec i x) as [->|Hix]; [rewrite HFx; reflexivity|]. unfold s'. rewrite fup_neq by auto. reflexivity. }
  exists s'. split.
  - constructor.
    + intros v Hv. rewrite KE. assert (E := sz_eq _ _ _ _ _ HS v Hv). destruct (Nat.eqb_spec x v) as [<-|Hxv].
      * unfold s'. rewrite fup_eq. lia.
      * unfold s'. rewrite fup_neq by auto. lia.
    + intros v Hv. unfold s'. destruct (Nat.eq_dec v x) as [->|Hvx]; [rewrite fup_eq; lia|]. rewrite fup_neq by auto. auto.
    + lia.
    + intros v w Hv E. rewrite HF' in E. destruct (Nat.eqb v c); [discriminate|]. eapply (sz_in _ _ _ _ _ HS); eauto.
  - unfold s'. rewrite pot_fup by auto. assert (Hc0 := Hn c Hc).
    assert (M : Z.log2 (s x - s c) <= Z.log2 (s x)) by (apply Z.log2_le_mono; lia). lia.
Qed.

(** what a state allows to be called next *)
Definition state (pd : option nat) (h : heap Z) (f : forest) (s : nat -> Z) : Prop :=
  match pd with
  | None => normal N h (parent f) (value f) s
  | Some x => pending N x h (parent f) (value f) s
  end.
Definition fits (pd : option nat) (op : lct_op) : Prop :=
  match pd with None => True | Some x => accesses x op end.
Definition after (op : lct_op) : option nat := match op with SetFa x _ => Some x | _ => None end.

Lemma state_rep pd h f s : state pd h f s -> Rep h (parent f) (value f) /\ length h = N.
Proof.
  destruct pd as [x|]; cbn [state].
  - intros (HW & HN & b0 & p & v & a & m & r & ts & HT & _). split; [|exact HN]. split; [eauto|rewrite HN; exact HW].
  - intros (HR & HN & _). auto.
Qed.

Lemma normal_intro h par val s x0 : Rep h par val -> length h = N -> sized N (fa_of h) s x0 1 -> normal N h par val s.
Proof. intros H1 H2 H3. split; [exact H1|]. split; [exact H2|]. eapply sized_any; eauto. Qed.

Lemma opt_access_paid par val fuel h x s (b : bool) h1 i :
  normal N h par val s -> (x < N)%nat -> (N < fuel)%nat ->
  (if b then free (Ok h) else access_t fuel h x) = Ok (h1, i) ->
  exists s', sized N (fa_of h1) s' x 1 /\ Z.of_nat i + 13 * pot N s' <= 13 * pot N s + 91 * L + 14.
Proof.
  intros HNm Hx Hf HT. destruct b.
  - apply free_inv in HT. destruct HT as [HT ->]. inversion HT; subst h1. exists s. destruct HNm as (_ & _ & HS).
    split; [eapply sized_any; eauto|]. assert (Q := L_nonneg). lia.
  - destruct (access_paid one N par val fuel h x s h1 i (or_introl HNm) Hx Hf HT) as (l' & v' & m' & ts' & s' & _ & _ & _ & S' & _ & P').
    exists s'. split; [exact S'|exact P'].
Qed.

Lemma lct_call_amort fuel pd h f op f' o s h' o' c :
  state pd h f s -> fits pd op -> lct_step N f op f' o -> (N < fuel)%nat ->
  lct_call_s one fuel h op = Ok (h', o', c) ->
  exists s', state (after op) h' f' s' /\ Z.of_nat c + 13 * pot N s' <= 13 * pot N s + 91 * L + 14.
Proof.
  intros HSt HF HStep Hf HT.
  destruct (state_rep _ _ _ _ HSt) as [HRep HN].
  destruct (lct_call_ok one N fuel h f op f' o Hf HN HRep HStep) as (hx & Ex & Lx & Rx).
  assert (E : lct_call one fuel h op = Ok (h', o')) by (rewrite <- lct_call_s_erase, HT; reflexivity).
  assert (hx = h') by congruence. subst hx. clear Ex E.
  assert (AC : forall x, accesses x op -> normal N h (parent f) (value f) s \/ pending N x h (parent f) (value f) s).
  { intros x Ha. destruct pd as [x'|]; cbn [state fits] in *; [|auto].
    assert (x' = x) by (destruct op; cbn [accesses] in *; try contradiction; congruence). subst. auto. }
  destruct HStep as [f x l r0 Hx HP|f x y ly Hx Hy Hr HP Hn|f x y Hx Hp|f x Hx|f x r0 below y above Hx HP H1 H2|f x v Hx|f x l d Hx HP];
    cbn [lct_call_s after state parent value] in *.
  - apply cbind_inv in HT. destruct HT as (h1 & i & j & F1 & HT & ->). apply cbind_inv in HT. destruct HT as (y & i1 & j1 & F2 & HT & ->).
    apply free_inv in F2. destruct F2 as [_ ->]. apply free_inv in HT. destruct HT as [HT ->]. inversion HT; subst h1 o'.
    destruct (access_paid one N _ _ fuel h x s h' i (AC x eq_refl) Hx Hf F1) as (l' & v' & m' & ts' & s' & _ & _ & _ & S' & _ & P').
    exists s'. split; [eapply normal_intro; eauto|]. fold L in P'. lia.
  - apply cbind_inv in HT. destruct HT as (h1 & i & j & F1 & HT & ->). apply free_inv in HT. destruct HT as [HT ->]. inversion HT; subst h1 o'.
    destruct pd as [x'|]; cbn [fits accesses] in HF; [destruct HF|]. cbn [state] in HSt.
    destruct (set_fa_amort one N _ _ fuel h x y ly s h' i HSt Hx Hy Hf Hr HP Hn F1) as (s' & S' & P').
    exists s'. split; [exact S'|]. fold L in P'. assert (Q := L_nonneg). lia.
  - apply cbind_inv in HT. destruct HT as (h1 & i & j & F1 & HT & ->). apply free_inv in HT. destruct HT as [HT ->]. inversion HT; subst h1 o'. clear HT.
    unfold cut_t in F1. apply cbind_inv in F1. destruct F1 as (h1 & i1 & j1 & F1 & HT & ->).
    destruct (access_paid one N _ _ fuel h x s h1 i1 (AC x eq_refl) Hx Hf F1) as (l' & v' & m' & ts' & s1 & T1 & L1 & _ & S1 & FX & P1).
    apply cbind_inv in HT. destruct HT as (nx & i2 & j2 & F2 & HT & ->). apply free_inv in F2. destruct F2 as [F2 ->].
    apply cbind_inv in HT. destruct HT as (u & i3 & j3 & F3 & HT & ->). apply free_inv in F3. destruct F3 as [F3 ->].
    pose proof (t_ok _ _ _ _ T1) as FT. inversion FT as [|a0 c0 Hg0 FT']; subst a0 c0. destruct Hg0 as (HR1 & _). cbn [fst snd] in HR1.
    pose proof HR1 as (Hn1 & Hl1 & _). rewrite (ld_ok _ _ _ Hn1) in F2. inversion F2; subst nx. cbn [n_c0] in HT. clear F2 F3.
    destruct (root l') as [c|] eqn:El; [|discriminate].
    apply cbind_inv in HT. destruct HT as (h2 & i4 & j4 & F4 & HT & ->). apply free_inv in F4. destruct F4 as [F4 ->].
    apply cbind_inv in HT. destruct HT as (h3 & i5 & j5 & F5 & HT & ->). apply free_inv in F5. destruct F5 as [F5 ->].
    apply free_inv in HT. destruct HT as [F6 ->].
    destruct (rep_root_fa _ _ _ _ Hl1 El) as [Lc Fc].
    assert (Ncx : c <> x).
    { intros ->. assert (NDt := trees_tail_nodup _ _ _ _ _ _ T1). cbn [idx] in NDt. apply NoDup_remove_2 in NDt. apply NDt, in_or_app.
      left. apply root_in_idx; auto. }
    destruct (modi_fa _ _ _ _ F4) as [_ A4].
    assert (HG : forall n : node Z, n_fa (set_ch_ false None n) = n_fa n) by reflexivity.
    destruct (modi_keep _ _ _ _ HG F5) as [_ A5]. destruct (push_up_fa one _ _ _ F6) as [_ A6].
    destruct (sized_cut (fa_of h1) (fa_of h') s1 x c S1 Hx ltac:(lia) Ncx FX Fc) as (s' & S' & P').
    { intros w. rewrite A6, A5, A4. reflexivity. }
    exists s'. split; [eapply normal_intro; eauto|]. fold L in P1. lia.
  - destruct pd as [x'|]; cbn [fits accesses] in HF; [destruct HF|]. cbn [state] in HSt.
    apply cbind_inv in HT. destruct HT as ([h1 v1] & i & j & F1 & HT & ->). apply free_inv in HT. destruct HT as [HT ->]. inversion HT; subst h1 o'. clear HT.
    unfold get_val_t in F1. apply cbind_inv in F1. destruct F1 as (b & i2 & j2 & F2 & HT & ->). apply free_inv in F2. destruct F2 as [F2 ->].
    apply cbind_inv in HT. destruct HT as (h1 & i3 & j3 & F3 & HT & ->).
    destruct (opt_access_paid _ _ fuel h x s b h1 i3 HSt Hx Hf F3) as (s' & S' & P').
    apply cbind_inv in HT. destruct HT as (nx & i4 & j4 & F4 & HT & ->). apply free_inv in F4. destruct F4 as [F4 ->].
    apply free_inv in HT. destruct HT as [HT ->]. inversion HT; subst h1.
    exists s'. split; [eapply normal_intro; eauto|lia].
  - apply cbind_inv in HT. destruct HT as (h1 & i & j & F1 & HT & ->).
    destruct (access_paid one N _ _ fuel h x s h1 i (AC x eq_refl) Hx Hf F1) as (l' & v' & m' & ts' & s' & _ & _ & _ & S' & _ & P').
    apply cbind_inv in HT. destruct HT as (nx & i2 & j2 & F2 & HT & ->). apply free_inv in F2. destruct F2 as [F2 ->].
    apply cbind_inv in HT. destruct HT as ([h2 m] & i3 & j3 & F3 & HT & ->). apply free_inv in F3. destruct F3 as [F3 ->].
    destruct (snd m); [|discriminate]. apply free_inv in HT. destruct HT as [HT ->]. inversion HT; subst h2 o'.
    destruct (get_min_loop_fa one _ _ _ _ _ _ F3) as [_ A3].
    exists s'. split; [|fold L in P'; lia]. eapply normal_intro; eauto. eapply sized_ext; [exact S'|intros; apply A3|auto].
  - destruct pd as [x'|]; cbn [fits accesses] in HF; [destruct HF|]. cbn [state] in HSt.
    apply cbind_inv in HT. destruct HT as (h1 & i & j & F1 & HT & ->). apply free_inv in HT. destruct HT as [HT ->]. inversion HT; subst h1 o'. clear HT.
    unfold set_val_t in F1. apply cbind_inv in F1. destruct F1 as (b & i2 & j2 & F2 & HT & ->). apply free_inv in F2. destruct F2 as [F2 ->].
    apply cbind_inv in HT. destruct HT as (h1 & i3 & j3 & F3 & HT & ->).
    destruct (opt_access_paid _ _ fuel h x s b h1 i3 HSt Hx Hf F3) as (s' & S' & P').
    apply cbind_inv in HT. destruct HT as (h2 & i4 & j4 & F4 & HT & ->). apply free_inv in F4. destruct F4 as [F4 ->].
    apply free_inv in HT. destruct HT as [HT ->].
    assert (HG : forall n : node Z, n_fa (set_val_ v n) = n_fa n) by reflexivity.
    destruct (modi_keep _ _ _ _ HG F4) as [_ A4]. destruct (push_up_fa one _ _ _ HT) as [_ A5].
    exists s'. split; [|lia]. eapply normal_intro; eauto. eapply sized_ext; [exact S'| |auto]. intros w _. rewrite A5, A4. reflexivity.
  - apply cbind_inv in HT. destruct HT as (h1 & i & j & F1 & HT & ->). apply free_inv in HT. destruct HT as [HT ->]. inversion HT; subst h1 o'. clear HT.
    unfold add_val_way_to_root_t in F1. apply cbind_inv in F1. destruct F1 as (h1 & i1 & j1 & F1 & HT & ->). apply free_inv in HT. destruct HT as [HT ->].
    destruct (access_paid one N _ _ fuel h x s h1 i1 (AC x eq_refl) Hx Hf F1) as (l' & v' & m' & ts' & s' & _ & _ & _ & S' & _ & P').
    destruct (update_add_fa one _ _ _ _ HT) as [_ A3].
    exists s'. split; [|fold L in P'; lia]. eapply normal_intro; eauto. eapply sized_ext; [exact S'|intros; apply A3|auto].
Qed.

Lemma lct_calls_amort fuel : forall os pd h f f' outs s r c,
  state pd h f s -> match os with [] => True | op :: _ => fits pd op end -> eager os -> lct_run N f os f' outs -> (N < fuel)%nat ->
  lct_calls_s one fuel h os = Ok (r, c) -> Z.of_nat c <= 13 * pot N s + Z.of_nat (length os) * (91 * L + 14).
Proof.
  induction os as [|op os IH]; intros pd h f f' outs s r c HSt HF HE HR Hf HT; cbn [lct_calls_s] in HT.
  - apply free_inv in HT. destruct HT as [_ ->]. assert (P : 0 <= pot N s) by apply pot_nonneg. cbn [length]. lia.
  - inversion HR as [|f0 op0 f1 o os0 f2 outs0 H1 H2]; subst.
    apply cbind_inv in HT. destruct HT as ([h1 o1] & i & j & F1 & HT & ->).
    apply cbind_inv in HT. destruct HT as ([h2 r2] & i2 & j2 & F2 & HT & ->). apply free_inv in HT. destruct HT as [_ ->].
    destruct (lct_call_amort fuel pd h f op f1 o s h1 o1 i HSt HF H1 Hf F1) as (s1 & S1 & P1).
    assert (P2 : Z.of_nat i2 <= 13 * pot N s1 + Z.of_nat (length os) * (91 * L + 14)).
    { eapply (IH (after op)); [exact S1| | |exact H2|exact Hf|exact F2].
      - destruct os as [|op2 os]; [exact I|]. destruct op; cbn [after fits]; try exact I. cbn [eager] in HE. apply HE.
      - destruct op; cbn [eager] in HE; try exact HE. apply HE. }
    cbn [length]. rewrite Nat2Z.inj_succ. lia.
Qed.

Lemma sized_init : sized N (fa_of (repeat (node0 (D := Z)) N)) (fun _ => 1) O 1 /\ pot N (fun _ => 1) = 0.
Proof.
  assert (EF : forall i, fa_of (repeat (node0 (D := Z)) N) i = None).
  { intros i. unfold fa_of. destruct (nth_error (repeat (node0 (D := Z)) N) i) as [n|] eqn:E; [|reflexivity].
    apply nth_error_In, repeat_spec in E. subst n. reflexivity. }
  split.
  - constructor.
    + intros v Hv. unfold weight, kids. rewrite zsum_zero; [destruct (Nat.eqb v 0); reflexivity|]. intros i _. rewrite EF. reflexivity.
    + lia.
    + lia.
    + intros v w _ E. rewrite EF in E. discriminate.
  - unfold pot. apply zsum_zero. reflexivity.
Qed.

Theorem lct_program_amort fuel os f outs :
  (N < fuel)%nat -> lct_run N forest0 os f outs -> eager os ->
  exists h c, lct_calls_s one fuel (repeat node0 N) os = Ok (h, outs, c) /\
    lct_calls one fuel (repeat node0 N) os = Ok (h, outs) /\
    Z.of_nat c <= Z.of_nat (length os) * splay_turns N.
Proof.
  intros Hf HS HE. destruct (lct_program_ok one N fuel os f outs Hf HS) as (h & E & _).
  assert (E' := E). rewrite <- lct_calls_s_erase in E'. apply erase_inv in E'. destruct E' as [c E'].
  exists h, c. split; [exact E'|]. split; [exact E|].
  destruct sized_init as [S0 P0].
  assert (HH : Z.of_nat c <= 13 * pot N (fun _ => 1) + Z.of_nat (length os) * (91 * L + 14)).
  { eapply (lct_calls_amort fuel os None); [|destruct os; exact I|exact HE|exact HS|exact Hf|exact E'].
    cbn [state]. eapply normal_intro; [apply (rep_init one N)|apply repeat_length|exact S0]. }
  rewrite P0 in HH. unfold splay_turns. fold L. lia.
Qed.
End AmortRun.

(** ** A single call can still be linear *)
Section OneCall.
Variable one : Z.
#[local] Hint Extern 0 (DataOps Z) => exact (exact_ops one) : typeclass_instances.

Lemma pdfr_t_enough fuel : forall (h : heap Z) x h' c,
  push_down_from_root_t fuel h x = Ok (h', c) -> push_down_from_root c h x = Ok h'.
Proof.
  induction fuel as [|fuel IH]; intros h x h' c H; [discriminate|]. cbn [push_down_from_root_t] in H.
  apply turn_inv in H. destruct H as (i0 & HT & ->). cbn [push_down_from_root].
  apply cbind_inv in HT. destruct HT as (rt & i1 & i2 & E1 & HT & ->). apply free_inv in E1. destruct E1 as [E1 ->]. rewrite E1. cbn [bind].
  apply cbind_inv in HT. destruct HT as (h2 & i3 & i4 & E3 & HT & ->). apply free_inv in HT. destruct HT as [HT ->].
  destruct rt; [apply free_inv in E3; destruct E3 as [E3 ->]; inversion E3; subst; exact HT|].
  apply cbind_inv in E3. destruct E3 as (nx & i5 & i6 & E5 & E3 & ->). apply free_inv in E5. destruct E5 as [E5 ->]. rewrite E5. cbn [bind].
  destruct (n_fa nx); [|discriminate]. rewrite Nat.add_0_r. cbn [Nat.add]. rewrite (IH _ _ _ _ E3). exact HT.
Qed.

Lemma eager_chain n : eager (chain_ops n).
Proof. unfold chain_ops. cbn [eager]. induction (seq 0 n) as [|i l IH]; cbn [flat_map grow app eager accesses]; auto. Qed.

Theorem one_call_linear N n : (0 < n < N)%nat ->
  exists os outs f h, length os = S (2 * n) /\ eager os /\ lct_run N forest0 os f outs /\
    forall fuel, (N < fuel)%nat -> lct_calls one fuel (repeat node0 N) os = Ok (h, outs) /\
      exists h' c, lct_call_s one fuel h (FindRoot 0) = Ok (h', ONode 0, c) /\ (n < c)%nat.
Proof.
  intros [H0 H]. destruct (chain_run N n H) as (f & HR & HP). exists (chain_ops n), (chain_outs n), f, (hp N (spine one n)).
  split; [apply chain_ops_length|]. split; [apply eager_chain|]. split; [exact HR|]. intros fuel Hf.
  assert (E : lct_calls one fuel (repeat node0 N) (chain_ops n) = Ok (hp N (spine one n), chain_outs n)) by (apply chain_calls; lia).
  split; [exact E|].
  destruct (lct_calls_ok one N fuel (repeat node0 N) forest0 _ f _ Hf (repeat_length _ _) (rep_init one N) HR) as (h1 & E1 & L1 & R1).
  assert (h1 = hp N (spine one n)) by congruence. subst h1.
  assert (HS : lct_step N f (FindRoot 0) f (ONode 0)).
  { apply (step_find_root N f 0 [] 0); [lia|]. cbn [app]. apply path_root. rewrite HP. reflexivity. }
  destruct (lct_call_ok one N fuel _ f _ f _ Hf L1 R1 HS) as (h' & E' & _).
  rewrite <- lct_call_s_erase in E'. apply erase_inv in E'. destruct E' as [c E']. exists h', c. split; [exact E'|].
  cbn [lct_call_s] in E'. apply cbind_inv in E'. destruct E' as (h2 & i & j & F1 & _ & ->).
  unfold access_t in F1. apply cbind_inv in F1. destruct F1 as (h3 & i1 & j1 & F1 & _ & ->).
  destruct fuel as [|fuel]; [lia|]. cbn [access_loop_t] in F1. apply turn_inv in F1. destruct F1 as (i2 & F1 & ->).
  apply cbind_inv in F1. destruct F1 as (h4 & i3 & j3 & F1 & _ & ->).
  unfold splay_t in F1. apply cbind_inv in F1. destruct F1 as (h5 & i4 & j4 & F1 & _ & ->).
  apply pdfr_t_enough in F1. destruct (Nat.le_gt_cases i4 n) as [Hle|Hgt]; [|lia].
  assert (Q : push_down_from_root i4 (hp N (spine one n)) 0 = Err OutOfFuel) by (apply (depth_spine one N n H n 0 i4); lia). congruence.
Qed.
End OneCall.
