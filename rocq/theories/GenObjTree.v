(** * RootTree objects: GenTree does not depend on earlier calls of it *)
From Coq Require Import Permutation Floats.SpecFloat.
From Verif Require Import Base Data BaseLemmas FlowSteps Generator GenSpec GenRng GenGraphProof GenMore GenMoreSpec GenTrees GenFar GenFarSpec GenFarProof GenFarShapes GenObj GenObjSpec.
Local Open Scope Z_scope.

(** ** [p] is a permutation that begins with the root *)
Lemma vswap_inv {A} (l l' : list A) i j : vswap l i j = Ok l' -> (i < length l)%nat /\ (j < length l)%nat.
Proof.
  unfold vswap. intro H. apply bind_inv in H as (a & Ha & H). apply bind_inv in H as (b & Hb & _). apply vget_inv in Ha, Hb.
  split; apply nth_error_Some; congruence.
Qed.
Lemma shuffle_inv {A} fuel (l l' : list A) s s' : shuffle fuel 1 l s = Ok (l', s') -> Permutation l l' /\ nth_error l' 0 = nth_error l 0.
Proof.
  unfold shuffle. assert (HI : forall k, In k (seq 1 (length l - 1 - 1)) -> (1 <= k)%nat) by (intros k Hk; apply in_seq in Hk; lia). revert HI.
  generalize (seq 1 (length l - 1 - 1)) as ks. intros ks HI. assert (X : forall a t, Permutation l a -> nth_error a 0 = nth_error l 0 ->
    for_each ks (a, t) (fun '(l, seed) k => w <- ck (Z.of_nat k + 1) ;; '(x, seed) <- next_int fuel w seed ;; l <- vswap l (1 + k) (1 + Z.to_nat x) ;; Ok (l, seed)) = Ok (l', s') ->
    Permutation l l' /\ nth_error l' 0 = nth_error l 0).
  { induction ks as [|k ks IH]; intros a t P N; cbn [for_each]; intro H; [inversion H; subst; auto|].
    apply bind_inv in H as ([a1 t1] & E & H). apply bind_inv in E as (w & _ & E). apply bind_inv in E as ([x t2] & _ & E). apply bind_inv in E as (a2 & V & E). inversion E; subst a2 t2.
    destruct (vswap_inv _ _ _ _ V) as [V1 V2]. destruct (vswap_ok a _ _ V1 V2) as (a3 & V3 & P3 & K3). rewrite V in V3. inversion V3; subst a3.
    apply (IH (fun k' Hk' => HI k' (or_intror Hk')) a1 t1); [|rewrite K3 by lia; exact N|exact H]. eapply Permutation_trans; eassumption. }
  apply X; auto.
Qed.

Section Past.
Variable draw : nat -> Z -> Z -> rng -> res (Z * rng).

(** the two arrays agree where they have been written *)
Definition agree (p : list Z) (i : nat) (F F' : list Z) : Prop :=
  length F = length F' /\ forall k x, (1 <= k < i)%nat -> nth_error p k = Some x -> nth_error F (Z.to_nat x) = nth_error F' (Z.to_nat x).
Definition alike (p : list Z) (i : nat) (r r' : res (list (Z * Z) * list Z * rng)) : Prop :=
  match r, r' with
  | Ok (e, F, s), Ok (e', F', s') => e = e' /\ s = s' /\ agree p i F F'
  | Err a, Err b => a = b
  | _, _ => False
  end.

Lemma agree_upd p i F F' x y : agree p i F F' -> (Z.to_nat x < length F)%nat -> nth_error p i = Some x -> agree p (S i) (upd F (Z.to_nat x) y) (upd F' (Z.to_nat x) y).
Proof.
  intros [L A] Hx Hi. split; [rewrite !upd_length; exact L|]. intros k z Hk Hz. destruct (Nat.eq_dec (Z.to_nat z) (Z.to_nat x)) as [E|E].
  - rewrite E, !nth_error_upd_eq by lia. reflexivity.
  - rewrite !nth_error_upd_neq by congruence. apply (A k z); [|exact Hz]. destruct (Nat.eq_dec k i) as [->|]; [congruence|lia].
Qed.

Lemma fill_alike fuel shift p k : forall i e F F' s, agree p i F F' ->
  let body := fun '(edge, father, seed) i =>
     '(f, seed) <- draw fuel (Z.of_nat i) shift seed ;;
     pi <- vget p i ;;
     pf <- vget p (Z.to_nat f) ;;
     father <- vset father (Z.to_nat pi) pf ;;
     '(b, seed) <- next_int fuel 2 seed ;;
     Ok (edge ++ [if b =? 0 then (pf, pi) else (pi, pf)], father, seed) in
  alike p (i + k) (for_each (seq i k) (e, F, s) body) (for_each (seq i k) (e, F', s) body).
Proof.
  induction k as [|k IH]; intros i e F F' s A body; cbn [seq for_each].
  - rewrite Nat.add_0_r. cbn. auto.
  - unfold body at 1 3. destruct (draw fuel (Z.of_nat i) shift s) as [[f s1]|]; cbn [bind]; [|reflexivity]. destruct (vget p i) as [x|] eqn:Ex; cbn [bind]; [|reflexivity].
    destruct (vget p (Z.to_nat f)) as [y|]; cbn [bind]; [|reflexivity]. apply vget_inv in Ex. unfold vset. rewrite <- (proj1 A).
    destruct (Nat.ltb_spec (Z.to_nat x) (length F)) as [Hx|Hx]; cbn [bind]; [|reflexivity]. destruct (next_int fuel 2 s1) as [[b s2]|]; cbn [bind]; [|reflexivity].
    rewrite Nat.add_succ_r. apply (IH (S i)). apply agree_upd; assumption.
Qed.

Lemma resized_length l n : length (resized l n) = n.
Proof. unfold resized. rewrite app_length, firstn_length, repeat_length. lia. Qed.

Theorem gen_root_past fuel o o' s : o_tree o = o_tree o' -> gen_root draw fuel o s = gen_root draw fuel o' s.
Proof.
  intro E. unfold gen_root. rewrite <- E. set (t := o_tree o). cbv zeta. unfold iota. destruct (Z.ltb_spec (rt_node t) 0) as [Hn|Hn]; [reflexivity|]. cbn [bind].
  set (p0 := map Z.of_nat (seq 0 (Z.to_nat (rt_node t)))). assert (L0 : length p0 = Z.to_nat (rt_node t)) by (unfold p0; rewrite map_length, seq_length; reflexivity).
  destruct (Z.ltb_spec (rt_root t) 0) as [Hr|Hr]; [reflexivity|]. destruct (vswap p0 0 (Z.to_nat (rt_root t))) as [p1|] eqn:V; cbn [bind]; [|reflexivity].
  destruct (shuffle fuel 1 p1 s) as [[p s1]|] eqn:S1; cbn [bind]; [|reflexivity].
  destruct (vswap_inv _ _ _ _ V) as [V1 V2]. destruct (vswap_ok p0 _ _ V1 V2) as (p1' & V3 & P1 & _). rewrite V in V3. inversion V3; subst p1'. clear V3.
  destruct (shuffle_inv _ _ _ _ _ S1) as [P2 N2]. assert (P : Permutation p0 p) by (eapply Permutation_trans; eassumption).
  assert (R0 : nth_error p1 0 = Some (rt_root t)).
  { unfold vswap in V. rewrite (vget_nth p0 0 0), (vget_nth p0 _ 0) in V by lia. cbn [bind] in V. rewrite vset_ok in V by lia. cbn [bind] in V. rewrite vset_ok in V by (rewrite upd_length; lia). inversion V.
    destruct (Nat.eq_dec (Z.to_nat (rt_root t)) 0) as [Z0|NZ].
    - rewrite Z0, nth_error_upd_eq by (rewrite upd_length; lia). f_equal. unfold p0. rewrite (nth_indep _ 0 (Z.of_nat 0)) by (fold p0; lia). rewrite map_nth, seq_nth by lia. lia.
    - rewrite nth_error_upd_neq by lia. rewrite nth_error_upd_eq by lia. f_equal. unfold p0. rewrite (nth_indep _ 0 (Z.of_nat 0)) by (fold p0; lia). rewrite map_nth, seq_nth by lia. lia. }
  rewrite R0 in N2.
  assert (A := fill_alike fuel (rt_shift t) p (Z.to_nat (rt_node t) - 1) 1 [] (resized (o_father o) (length p0)) (resized (o_father o') (length p0)) s1).
  cbv zeta in A. unfold alike in A.
  assert (A0 : agree p 1 (resized (o_father o) (length p0)) (resized (o_father o') (length p0))) by (split; [rewrite !resized_length; reflexivity|intros; lia]).
  specialize (A A0). clear A0.
  match goal with |- bind ?a _ = bind ?b _ => destruct a as [[[e F] s2]|] eqn:Ea; destruct b as [[[e' F'] s2']|] eqn:Eb; try contradiction end; cbn [bind]; [|congruence].
  destruct A as (-> & -> & L & A). unfold vset. rewrite <- L. destruct (Nat.ltb_spec (Z.to_nat (rt_root t)) (length F)) as [Hl|Hl]; [|reflexivity]. cbn [bind].
  assert (U : upd F (Z.to_nat (rt_root t)) (rt_rootfather t) = upd F' (Z.to_nat (rt_root t)) (rt_rootfather t)); [|rewrite U; reflexivity].
  assert (LF : length F = length p0).
  { clear - Ea. assert (X : forall ks e F0 s0, for_each ks (e, F0, s0) (fun '(edge, father, seed) i =>
       '(f, seed) <- draw fuel (Z.of_nat i) (rt_shift t) seed ;; pi <- vget p i ;; pf <- vget p (Z.to_nat f) ;; father <- vset father (Z.to_nat pi) pf ;;
       '(b, seed) <- next_int fuel 2 seed ;; Ok (edge ++ [if b =? 0 then (pf, pi) else (pi, pf)], father, seed)) = Ok (e', F, s2') -> length F = length F0).
    { induction ks as [|k ks IH]; intros e F0 s0; cbn [for_each]; intro H; [inversion H; reflexivity|]. apply bind_inv in H as ([[e1 F1] s9] & H1 & H). rewrite (IH _ _ _ H). clear H.
      apply bind_inv in H1 as ([f s3] & _ & H1). apply bind_inv in H1 as (x & _ & H1). apply bind_inv in H1 as (y & _ & H1). apply bind_inv in H1 as (F2 & V & H1). apply bind_inv in H1 as ([b s4] & _ & H1).
      inversion H1; subst. apply vset_inv in V as [_ ->]. apply upd_length. }
    rewrite (X _ _ _ _ Ea). apply resized_length. }
  apply (nth_ext _ _ 0 0); [rewrite !upd_length; exact L|]. intros j Hj. rewrite upd_length in Hj.
  destruct (Nat.eq_dec j (Z.to_nat (rt_root t))) as [->|NE].
  - apply nth_error_nth with (d := 0). rewrite nth_error_upd_eq by lia. f_equal. symmetry. apply nth_error_nth. rewrite nth_error_upd_eq by lia. reflexivity.
  - assert (I : In (Z.of_nat j) p).
    { apply (Permutation_in _ P). unfold p0. apply in_map. apply in_seq. lia. }
    apply In_nth_error in I as [k Hk]. destruct (Nat.eq_dec k 0) as [->|Nk]; [rewrite N2 in Hk; inversion Hk; lia|].
    assert (Hkl : (k < length p)%nat) by (apply nth_error_Some; congruence). rewrite <- (Permutation_length P) in Hkl.
    specialize (A k (Z.of_nat j) ltac:(lia) Hk). rewrite Nat2Z.id in A.
    destruct (nth_error F j) as [v|] eqn:Fj; [|apply nth_error_None in Fj; lia].
    transitivity v; [|symmetry]; apply nth_error_nth; rewrite nth_error_upd_neq by congruence; congruence.
Qed.
End Past.

(** ** GenTree of an object is GenTree of a new one *)
Theorem gen_root_run powf fuel o s :
  gen_root (wnext_all powf) fuel o s = bind (root_run powf fuel (o_tree o) s) (fun '(E, father, s') => Ok (mkObj (o_tree o) E father, s')).
Proof.
  rewrite (gen_root_past _ fuel o (mkObj (o_tree o) [] []) s eq_refl). unfold gen_root, root_run. cbn [o_tree o_father]. cbv zeta. unfold iota. destruct (_ <? 0); [reflexivity|]. cbn [bind].
  assert (R : forall n, resized [] n = repeat 0 n) by (intro n; unfold resized; rewrite firstn_nil, Nat.sub_0_r; reflexivity). rewrite R.
  destruct (if rt_root (o_tree o) <? 0 then _ else _) as [p|]; cbn [bind]; [|reflexivity]. destruct (shuffle fuel 1 p s) as [[p' s1]|]; cbn [bind]; [|reflexivity].
  match goal with |- bind ?a _ = _ => destruct a as [[[e F] s2]|] end; cbn [bind]; [|reflexivity]. destruct (vset _ _ _); cbn [bind]; [|reflexivity].
  destruct (shuffle fuel 0 e s2) as [[? ?]|]; reflexivity.
Qed.

Lemma near_run powf fuel t s : Z.abs (rt_shift t) < 25 -> root_run powf fuel t s = root_tree_run fuel t s.
Proof.
  intro H. unfold root_run, root_tree_run. destruct (iota (rt_node t)) as [p|]; cbn [bind]; [|reflexivity].
  destruct (if rt_root t <? 0 then _ else _) as [p1|]; cbn [bind]; [|reflexivity]. destruct (shuffle fuel 1 p1 s) as [[p' s1]|]; cbn [bind]; [|reflexivity].
  f_equal. apply for_each_in. intros [[e F] s2] x _. unfold wnext_all. rewrite (proj2 (Z.ltb_lt _ _) H). reflexivity.
Qed.

Theorem root_any powf fuel t s : pow_good powf -> 1 <= rt_node t <= INT_MAX -> 0 <= rt_root t < rt_node t -> good_shift (rt_shift t) -> rng_fuel fuel ->
  exists E father s', root_run powf fuel t s = Ok (E, father, s') /\ Z.of_nat (length E) = rt_node t - 1 /\ simple_connected (rt_node t) E /\
    rooted_tree (rt_node t) (rt_root t) (rt_rootfather t) father E.
Proof.
  intros G HN HR [HS|HS] HF.
  - rewrite near_run by exact HS. destruct (runs_ok _ _ _ (root_tree_ok fuel t s HN HR) HF) as ([[E father] s'] & H & X). exists E, father, s'. split; [exact H|exact X].
  - apply (far_root powf fuel (rt_node t) G HN t s eq_refl HS HR HF).
Qed.

(** ** sequences of calls *)
Lemma tree_calls_snoc draw fuel l k st : tree_calls draw fuel (l ++ [k]) st = bind (tree_calls draw fuel l st) (tree_call draw fuel k).
Proof.
  unfold tree_calls. revert st. induction l as [|x l IH]; intro st; cbn [app for_each].
  - cbn [bind]. destruct (tree_call draw fuel k st); reflexivity.
  - destruct (tree_call draw fuel x st); cbn [bind]; [apply IH|reflexivity].
Qed.

Theorem tree_object powf fuel shift n rt rtf l s : pow_good powf -> 1 <= n <= INT_MAX -> 0 <= rt -> good_shift shift -> rng_fuel fuel -> Forall sensible l ->
  exists o0 o s', construct_root shift n rt rtf = Ok o0 /\ tree_calls (wnext_all powf) fuel l (o0, s) = Ok (o, s') /\
    rt_node (o_tree o) = asked_nodes n l /\ 1 <= rt_node (o_tree o) <= INT_MAX /\ rt_rootfather (o_tree o) = asked_rootfather rtf l /\ rt_shift (o_tree o) = asked_shift shift l /\ good_shift (rt_shift (o_tree o)) /\
    0 <= rt_root (o_tree o) < rt_node (o_tree o) /\ rt_root (o_tree o) <= asked_root rt l.
Proof.
  intros G Hn Hr Hs HF. unfold construct_root. rewrite ck_ok by (unfold INT_MIN; lia). cbn [bind]. set (o0 := mkObj (mkRoot n (Z.min rt (n - 1)) rtf shift) [] []). exists o0.
  revert H. induction l as [|k l IH] using rev_ind; intro HL.
  - exists o0, s. split; [reflexivity|]. split; [reflexivity|]. unfold o0; cbn. repeat split; auto; lia.
  - apply Forall_app in HL as [HL HK]. destruct (IH HL) as (o & s' & E0 & E & A1 & A2 & A3 & A4 & A5 & A6 & A7). clear IH. inversion HK; subst. rename H1 into HK1. clear H2.
    rewrite tree_calls_snoc, E. unfold asked_nodes, asked_root, asked_rootfather, asked_shift in *. rewrite !fold_left_app. cbn [bind fold_left].
    destruct k as [n1|n1|r1|f1|sh1|]; cbn [tree_call sensible] in *; try contradiction.
    + rewrite ck_ok by (unfold INT_MIN; lia). cbn [bind]. do 2 eexists. split; [reflexivity|]. split; [reflexivity|]. cbn. repeat split; auto; lia.
    + rewrite ck_ok by (unfold INT_MIN; lia). cbn [bind]. do 2 eexists. split; [reflexivity|]. split; [reflexivity|]. cbn. repeat split; auto; lia.
    + do 2 eexists. split; [reflexivity|]. split; [reflexivity|]. cbn. repeat split; auto; lia.
    + do 2 eexists. split; [reflexivity|]. split; [reflexivity|]. cbn. repeat split; auto; lia.
    + rewrite gen_root_run. destruct (root_any powf fuel (o_tree o) s' G A2 A6 A5 HF) as (E1 & father & s2 & -> & _). cbn [bind]. do 2 eexists. split; [reflexivity|]. split; [reflexivity|]. cbn. repeat split; auto; lia.
Qed.

Lemma tree_calls_refute :
  (exists o0 o, construct_root 0 5 4 (-1) = Ok o0 /\ tree_calls wnext 0 [TreeSetNode 3] (o0, 1) = Ok (o, 1) /\ forall powf fuel s, gen_root (wnext_all powf) fuel o s = Err OutOfBounds) /\
  (exists o0 o, construct_root 0 5 4 (-1) = Ok o0 /\ tree_calls wnext 0 [RSetNode 0; RSetNode 5] (o0, 1) = Ok (o, 1) /\ forall powf fuel s, gen_root (wnext_all powf) fuel o s = Err OutOfBounds) /\
  (exists o0 o, construct_root 0 5 4 (-1) = Ok o0 /\ tree_calls wnext 0 [RSetNode 3; RSetNode 5] (o0, 1) = Ok (o, 1) /\ rt_node (o_tree o) = 5 /\ rt_root (o_tree o) = 2).
Proof.
  split; [|split]; (do 2 eexists; split; [reflexivity|]; split; [reflexivity|]); [intros; reflexivity..|]. split; reflexivity.
Qed.
