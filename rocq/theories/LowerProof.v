(** * Merging the limits first lowers the numbers of calc() *)
From Verif Require Import Base BaseLemmas Data ProblemDefine Flow ProblemSolver Gather.
From Verif Require Import Sums NetMath Spec SpecLemmas SolverProps FlowSpec Convex FlowNet PDProof FlowPhase FlowNew FlowOpt SolverNet SolverProof.
Local Open Scope Z_scope.

Section Lower.
Variable one : Z.
#[local] Hint Extern 0 (DataOps Z) => exact (exact_ops one) : typeclass_instances.
Variables (n : nat) (K R : Z).
Hypothesis HK : K <= INT_MAX.
Hypothesis HR : R <= INT_MAX.

(** a size that reversing keeps and merging does not raise *)
Section Size.
Variable F : OmegaLimit Z -> Z.
Hypothesis FR : forall o o', lgood n K R o -> reverse o = Ok o' -> F o' <= F o.
Hypothesis FM : forall o o2 o', lgood n K R o -> lgood n K R o2 -> lgood n K R o' -> merge o o2 = Ok (o', false) -> F o' <= F o + F o2.

Lemma merge_loop_size oms : forall mp mp',
  (forall o, In o oms -> lgood n K R o) -> (forall o, In o (map snd mp) -> lgood n K R o) -> keyed mp -> ksorted mp ->
  merge_loop oms mp = Ok (Some mp') -> zsum (map snd mp') F <= zsum (map snd mp) F + zsum oms F.
Proof.
  induction oms as [|it oms IH]; intros mp mp' G1 G2 HK1 HS H; cbn [merge_loop zsum] in *; [injection H as <-; lia|].
  assert (Gi := G1 it (or_introl eq_refl)).
  assert (HR1 : exists it', (if (o_i it <? o_j it)%nat then reverse it else Ok it) = Ok it' /\ lgood n K R it' /\ F it' <= F it).
  { destruct (o_i it <? o_j it)%nat; [|exists it; split; [reflexivity|split; [exact Gi|lia]]].
    pose proof Gi as [A1 A2 A3 A4 A5 A6 A7 A8]. destruct (reverse_ok it ltac:(lia) A1 ltac:(lia)) as (it' & E & HE & HF).
    exists it'. split; [exact E|]. split; [exact (rev_edge_good _ _ _ _ _ HE HF Gi)|exact (FR it it' Gi E)]. }
  destruct HR1 as (it' & E & Gi' & HQ). rewrite E in H. cbn [bind] in H. clear E.
  set (k := (o_i it', o_j it')) in *. destruct (map_find mp k) as [o|] eqn:EF.
  - assert (Hin := find_some_in _ _ _ EF). assert (Hk := HK1 _ _ Hin). unfold k in Hk. inversion Hk as [[Hk1 Hk2]].
    assert (Go : lgood n K R o) by (apply G2; apply (in_map snd _ _ Hin)).
    destruct (merge_good one n K R o it' ltac:(auto) ltac:(auto) Go Gi') as (o' & flag & Em & Ei & Ej & _ & _ & HFl).
    rewrite Em in H. cbn [bind] in H. destruct flag; [discriminate|]. destruct (HFl eq_refl) as [Go' _].
    destruct (map_set_present mp k o o' HS EF) as (l1 & l2 & E1 & E2).
    assert (E1' : map snd mp = map snd l1 ++ o :: map snd l2) by (rewrite E1, map_app; reflexivity).
    assert (E2' : map snd (map_set mp k o') = map snd l1 ++ o' :: map snd l2) by (rewrite E2, map_app; reflexivity).
    assert (X := IH (map_set mp k o') mp').
    assert (Q : F o' <= F o + F it') by exact (FM o it' o' Go Gi' Go' Em).
    rewrite E2' in X. rewrite E1'. rewrite !zsum_app in *. cbn [zsum] in *. enough (zsum (map snd mp') F <= zsum (map snd l1) F + (F o' + zsum (map snd l2) F) + zsum oms F) by lia.
    apply X.
    { intros; apply G1; simpl; auto. }
    { apply forall_insert. split; auto. rewrite E1' in G2. apply forall_insert in G2. tauto. }
    { unfold keyed. rewrite E2. intros k2 o2 H2. assert (H2' : k2 = k /\ o2 = o' \/ In (k2, o2) mp).
      { rewrite E1. apply in_app_or in H2. destruct H2 as [H2|[H2|H2]]; [right; apply in_or_app; auto|inversion H2; auto|right; apply in_or_app; simpl; auto]. }
      destruct H2' as [[-> ->]|H2']; [|apply HK1; auto]. unfold k. congruence. }
    { apply map_set_sorted; auto. }
    { exact H. }
  - destruct (map_set_absent mp k it' EF) as (l1 & l2 & E1 & E2).
    assert (E1' : map snd mp = map snd l1 ++ map snd l2) by (rewrite E1, map_app; reflexivity).
    assert (E2' : map snd (map_set mp k it') = map snd l1 ++ it' :: map snd l2) by (rewrite E2, map_app; reflexivity).
    assert (X := IH (map_set mp k it') mp'). rewrite E2' in X. rewrite E1'. rewrite !zsum_app in *. cbn [zsum] in *.
    enough (zsum (map snd mp') F <= zsum (map snd l1) F + (F it' + zsum (map snd l2) F) + zsum oms F) by lia. apply X.
    { intros; apply G1; simpl; auto. }
    { apply forall_insert. split; auto. rewrite E1' in G2. auto. }
    { unfold keyed. rewrite E2. intros k2 o2 H2. assert (H2' : k2 = k /\ o2 = it' \/ In (k2, o2) mp).
      { rewrite E1. apply in_app_or in H2. destruct H2 as [H2|[H2|H2]]; [right; apply in_or_app; auto|inversion H2; auto|right; apply in_or_app; simpl; auto]. }
      destruct H2' as [[-> ->]|H2']; [reflexivity|apply HK1; auto]. }
    { apply map_set_sorted; auto. }
    { exact H. }
Qed.
End Size.

Lemma reverse_same o o' : lgood n K R o -> reverse o = Ok o' ->
  o_l o' = - o_u o /\ o_u o' = - o_l o /\ lgood n K R o' /\ forall x, o_l o' <= x <= o_u o' -> cost (o_fn o') x = cost (o_fn o) (- x).
Proof.
  intros G E. pose proof G as [A1 A2 A3 A4 A5 A6 A7 A8]. destruct (reverse_ok o ltac:(lia) A1 ltac:(lia)) as (o2 & E2 & HE & HF).
  assert (o2 = o') by congruence. subst o2. assert (G' := rev_edge_good n K R o o' HE HF G). destruct HE as (_ & _ & E3 & E4 & E5).
  split; [exact E3|]. split; [exact E4|]. split; [exact G'|]. intros x Hx. rewrite <- (E5 (- x)) by lia. f_equal. lia.
Qed.

Lemma merge_same o o2 o' : lgood n K R o -> lgood n K R o2 -> merge o o2 = Ok (o', false) ->
  o_l o' = Z.max (o_l o) (o_l o2) /\ o_u o' = Z.min (o_u o) (o_u o2) /\
  forall x, o_l o' <= x <= o_u o' -> cost (o_fn o') x = cost (o_fn o) x + cost (o_fn o2) x.
Proof.
  intros G1 G2 E. assert (EE := E). unfold merge in EE. destruct (assert_ (o_i o =? o_i o2)%nat) eqn:A1; cbn [bind] in EE; [|discriminate].
  destruct (assert_ (o_j o =? o_j o2)%nat) eqn:A2; cbn [bind] in EE; [|discriminate].
  assert (Ei : o_i o = o_i o2) by (apply Nat.eqb_eq; destruct (o_i o =? o_i o2)%nat; [reflexivity|discriminate]).
  assert (Ej : o_j o = o_j o2) by (apply Nat.eqb_eq; destruct (o_j o =? o_j o2)%nat; [reflexivity|discriminate]).
  destruct (merge_ok one o o2 Ei Ej) as (o3 & fl & E3 & El & Eu & _ & _ & _ & EF). assert (o3 = o') by congruence. subst o3. split; [exact El|]. split; [exact Eu|].
  intros x Hx. unfold cost at 1. rewrite (EF x (cost (o_fn o) x) (cost (o_fn o2) x)); [reflexivity| |]; [apply (cost_ok _ _ _ _ (lg_def _ _ _ _ G1))|apply (cost_ok _ _ _ _ (lg_def _ _ _ _ G2))]; lia.
Qed.

Lemma hi_reverse o o' : lgood n K R o -> reverse o = Ok o' -> hi o' <= hi o.
Proof.
  intros G E. destruct (reverse_same o o' G E) as (El & Eu & G' & EF). assert (L := lg_lu _ _ _ _ G'). unfold hi. rewrite !EF by lia. rewrite El, Eu, !Z.opp_involutive. lia.
Qed.
Lemma hi_merge o o2 o' : lgood n K R o -> lgood n K R o2 -> lgood n K R o' -> merge o o2 = Ok (o', false) -> hi o' <= hi o + hi o2.
Proof.
  intros G1 G2 G' E. destruct (merge_same o o2 o' G1 G2 E) as (El & Eu & EF). assert (L := lg_lu _ _ _ _ G').
  assert (X : forall x, o_l o' <= x <= o_u o' -> cost (o_fn o') x <= hi o + hi o2).
  { intros x Hx. rewrite EF by exact Hx. assert (A := convex_max _ _ _ x (lg_conv _ _ _ _ G1) ltac:(lia)). assert (B := convex_max _ _ _ x (lg_conv _ _ _ _ G2) ltac:(lia)). unfold hi. lia. }
  assert (A := X (o_l o') ltac:(lia)). assert (B := X (o_u o') ltac:(lia)). unfold hi at 1. lia.
Qed.

Variable fuel : nat.
Hypothesis Hfuel : (31 < fuel)%nat.
Notation lo := (lo one fuel).

Lemma lo_reverse o o' : lgood n K R o -> reverse o = Ok o' -> lo o <= lo o'.
Proof.
  intros G E. destruct (reverse_same o o' G E) as (El & Eu & G' & EF).
  destruct (lo_ok one fuel Hfuel n K R o HK HR G) as (_ & A & _). destruct (lo_ok one fuel Hfuel n K R o' HK HR G') as (_ & _ & (x & Hx & Ex)).
  rewrite <- Ex, EF by exact Hx. apply A. lia.
Qed.
Lemma lo_merge o o2 o' : lgood n K R o -> lgood n K R o2 -> lgood n K R o' -> merge o o2 = Ok (o', false) -> lo o + lo o2 <= lo o'.
Proof.
  intros G1 G2 G' E. destruct (merge_same o o2 o' G1 G2 E) as (El & Eu & EF).
  destruct (lo_ok one fuel Hfuel n K R o HK HR G1) as (_ & A & _). destruct (lo_ok one fuel Hfuel n K R o2 HK HR G2) as (_ & B & _).
  destruct (lo_ok one fuel Hfuel n K R o' HK HR G') as (_ & _ & (x & Hx & Ex)). rewrite <- Ex, EF by exact Hx. assert (X := A x ltac:(lia)). assert (Y := B x ltac:(lia)). lia.
Qed.
End Lower.

Section Run.
Variable one : Z.
#[local] Hint Extern 0 (DataOps Z) => exact (exact_ops one) : typeclass_instances.

Lemma lower_values n mus oms K R fuel L L' : K <= INT_MAX -> 0 <= R <= INT_MAX -> (31 < fuel)%nat -> length mus = (n + 1)%nat ->
  (forall o, In o oms -> lgood n K R o) -> (forall i, (1 <= i <= n)%nat -> lgood n K R (mu_limit mus i)) ->
  merge_limits (mkSolver (Z.of_nat n) mus oms) = Ok (Some L) -> no_merge (fun l => l) (mkSolver (Z.of_nat n) mus oms) = Ok (Some L') ->
  exists V M U V' M' U', calc fuel L = Ok (V, M, U) /\ calc fuel L' = Ok (V', M', U') /\ V <= V' /\ M <= M' /\ U <= U'.
Proof.
  intros HK HR HF Hlen HG HM EL EL'.
  unfold no_merge in EL'. cbn [s_n s_mus s_oms] in EL'. rewrite Nat2Z.id in EL'. rewrite mu_loop_ok in EL' by (intros i Hi; apply in_seq in Hi; lia). cbn [bind app] in EL'. injection EL' as <-.
  set (ms := map (mu_limit mus) (seq 1 n)) in *.
  assert (HMs : forall o, In o ms -> lgood n K R o) by (intros o Ho; apply in_map_iff in Ho; destruct Ho as (i & <- & Hi); apply in_seq in Hi; apply HM; lia).
  destruct (calc_ok one fuel HF n K R (oms ++ ms) HK HR) as (U' & EC' & HU' & HW').
  { intros o Ho. apply in_app_or in Ho. destruct Ho; auto. }
  assert (HGU : forall o, In o (oms ++ ms) -> lgood n K U' o).
  { intros o Ho. assert (W := HW' o Ho). apply in_app_or in Ho. destruct Ho as [Ho|Ho]; [destruct (HG o Ho)|destruct (HMs o Ho)]; constructor; auto. }
  unfold merge_limits in EL. cbn [s_oms] in EL. destruct (merge_loop oms []) as [[mp|]|] eqn:EM; cbn [bind] in EL; try discriminate.
  cbn [s_n s_mus] in EL. rewrite Nat2Z.id in EL. rewrite mu_loop_ok in EL by (intros i Hi; apply in_seq in Hi; lia). cbn [bind app] in EL. injection EL as <-. fold ms.
  destruct (merge_loop_ok one n K U' HK oms []) as [(mp' & EM' & Gm & _)|[EM' _]]; try (rewrite EM in EM'; discriminate).
  { intros o Ho. apply HGU, in_or_app. auto. } { intros o []. } { intros k o []. } { constructor. }
  assert (mp' = mp) by congruence. subst mp'.
  destruct (calc_ok one fuel HF n K U' (map snd mp ++ ms) HK ltac:(lia)) as (U & EC & HU & _).
  { intros o Ho. apply in_app_or in Ho. destruct Ho as [Ho|Ho]; [auto|]. apply HGU, in_or_app. auto. }
  eexists _, _, U, _, _, U'. split; [exact EC|]. split; [exact EC'|]. rewrite !zsum_app.
  assert (X1 : zsum (map snd mp) hi <= zsum (map snd (@nil ((nat * nat) * OmegaLimit Z))) hi + zsum oms hi).
  { apply (merge_loop_size one n K R HK hi) with (7 := EM); auto; [intros; apply (hi_reverse n K R HK o); auto|intros o o2 o'; apply (hi_merge one n K R)|intros o []|intros k o []|constructor]. }
  assert (X2 : zsum (map snd mp) (fun o => hi o - lo one fuel o) <= zsum (map snd (@nil ((nat * nat) * OmegaLimit Z))) (fun o => hi o - lo one fuel o) + zsum oms (fun o => hi o - lo one fuel o)).
  { apply (merge_loop_size one n K R HK (fun o => hi o - lo one fuel o)) with (7 := EM); auto; [| |intros o []|intros k o []|constructor].
    - intros o o' G E. assert (A := hi_reverse n K R HK o o' G E). assert (B := lo_reverse one n K R HK ltac:(lia) fuel HF o o' G E). lia.
    - intros o o2 o' G1 G2 G' E. assert (A := hi_merge one n K R o o2 o' G1 G2 G' E). assert (B := lo_merge one n K R HK ltac:(lia) fuel HF o o2 o' G1 G2 G' E). lia. }
  cbn [map zsum] in X1, X2. lia.
Qed.

Theorem merging_lowers n mus oms K fuel s L L' :
  admissible n mus oms K -> solver_fuel n (length oms) K <= Z.of_nat fuel ->
  solver_new fuel (Z.of_nat n) mus oms = Ok s -> s_n s <> SIZE_MAX ->
  merge_limits s = Ok (Some L) -> no_merge (fun l => l) s = Ok (Some L') ->
  exists V M U V' M' U', calc fuel L = Ok (V, M, U) /\ calc fuel L' = Ok (V', M', U') /\ V <= V' /\ M <= M' /\ U <= U'.
Proof.
  intros HA Hfuel ES HV EL EL'. pose proof HA as (HW & (BM & BO) & HK & HI). pose proof HW as (Hlen & Hmu & Hom). assert (HN1 : 1 <= Z.of_nat (n + 1)) by lia.
  assert (HNear : near n mus oms (2 * K) (3 * K)) by (apply bounded_near; auto; [lia|split; auto]).
  assert (HFit : flow_fits n (2 * K) (3 * K)) by (apply fits_flow; auto). destruct HFit as (FR & HK2 & FK & FN & FR4 & FB).
  assert (HK3 : 3 * K <= INT_MAX) by nia. assert (HRb : 0 <= 3 * K <= INT_MAX) by nia.
  assert (HFF : 2 * Z.of_nat (n + 1) + 33 <= flow_fuel n (length oms + n) (2 * K)).
  { unfold flow_fuel, phase_work. rewrite Z.div_1_r. assert (HD2 := Dn_pos n). nia. }
  unfold solver_fuel in Hfuel. assert (Hf1 : (n + 1 < fuel)%nat) by lia. assert (Hf2 : (31 < fuel)%nat) by lia.
  assert (Hn : Z.of_nat n < INT_MAX) by (unfold INT_MAX in *; lia).
  unfold solver_new in ES. rewrite Z.mod_small in ES by (unfold SIZE_MAX, INT_MAX in *; lia).
  destruct (Z.eqb_spec (Z.of_nat (length mus)) (Z.of_nat n + 1)); [|lia]. cbn [negb] in ES.
  destruct (check_mus_ok n mus Hlen n 1 fuel ltac:(lia) ltac:(lia)) as (b & Eb & Hb). rewrite Eb in ES. cbn [bind] in ES.
  assert (b = true). { apply Hb. intros k m Hk Hm. apply (Hmu k m); auto. } subst b. cbn [negb] in ES.
  destruct (check_omegas_ok one n mus K fuel ltac:(lia) HK3 Hf2 Hlen Hmu BM oms Hom BO) as (r & Er & Hr). rewrite Er in ES. cbn [bind] in ES.
  destruct r as [oms'|]; [|injection ES as <-; exfalso; apply HV; reflexivity]. injection ES as <-. destruct Hr as [HF2 HG0].
  apply (lower_values n mus oms' (2 * K) (3 * K) fuel L L'); auto; [lia|].
  intros i Hi. apply (near_mu_good n mus oms); auto.
Qed.
End Run.
