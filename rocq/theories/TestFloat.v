(** * The random tests cannot fail on doubles *)
From Coq Require Import Floats.SpecFloat.
From Verif Require Import Base Data BaseLemmas ProblemDefine ProblemSolver Oracles CostScaling Generator TestSuite Sums Spec FlowOpt FlowPhase FlowNet.
From Verif Require Import FloatSpec FloatExact FloatRun Hom FloatOracles SolverProof ScaleSpec ScaleProof SimpleProof ScaleExample.
From Verif Require Import GenSpec GenRng GenGraphProof GenProof GenTable GenExact TestProof.
Local Open Scope Z_scope.

(** ** The costs made by the generator *)
Section Costs.
Variables (K r : Z) (fl : Z * Z).
Hypothesis HK : 1 <= K <= INT_MAX.
Hypothesis Hr : 0 <= r.
Hypothesis Hfl : within_K r fl.
Hypothesis HB : 16 * r * (K * K + K + 1) < 2 ^ 53.
Hypothesis HrI : 4 * r <= INT_MAX.

Lemma quarter_is w : Z.abs w <= 4 * r -> RF 2 w (@quarter spec_float f64_ops w).
Proof.
  intros Hw. assert (H := f64_hom 2 ltac:(lia)). unfold quarter, of_int. apply (h_half _ _ _ H), (h_half _ _ _ H).
  replace (2 * (2 * w)) with (2 ^ 2 * w) by lia. apply (h_mul _ _ _ H); [apply f64_done; lia|unfold INT_MIN, INT_MAX in *; lia|].
  change (2 ^ 2) with 4. assert (1 <= K * K + K + 1) by nia. nia.
Qed.

Lemma fn_of_is t l u : coefficients_in fl t -> - K <= l -> u <= K -> fn_is 2 (@fn_of spec_float f64_ops t) (@fn_of Z (exact_ops 4) t) l u.
Proof.
  intros HC Hl Hu x Hx. assert (H := f64_hom 2 ltac:(lia)).
  assert (Q := fn_of_eq 1 t). change (4 * 1) with 4 in Q.
  destruct t as [[a b] c]. destruct HC as (Ha & Hb & Hc). destruct Hfl as [F1 F2].
  unfold quadratic_cost in Q.
  eexists _, _. split; [reflexivity|]. split; [apply Q|]. rewrite Z.mul_1_l.
  assert (Ra := quarter_is a ltac:(lia)). assert (Rb := quarter_is b ltac:(lia)). assert (Rcc := quarter_is c ltac:(lia)).
  assert (A1 : Z.abs (a * x) <= 4 * r * K) by (rewrite Z.abs_mul; apply Z.mul_le_mono_nonneg; lia).
  assert (A2 : Z.abs (a * x * x) <= 4 * r * (K * K)).
  { rewrite Z.abs_mul. replace (4 * r * (K * K)) with (4 * r * K * K) by ring. apply Z.mul_le_mono_nonneg; lia. }
  assert (A3 : Z.abs (b * x) <= 4 * r * K) by (rewrite Z.abs_mul; apply Z.mul_le_mono_nonneg; lia).
  assert (0 <= r * K) by nia. assert (0 <= r * (K * K)) by nia.
  enough (X : RF 2 (a * x * x + b * x + c) (dadd (dadd (dmuli (dmuli (quarter a) x) x) (dmuli (quarter b) x)) (quarter c))) by apply X.
  apply (h_add _ _ _ H); [|exact Rcc|lia].
  apply (h_add _ _ _ H); [| |lia].
  - apply (h_mul _ _ _ H); [|unfold INT_MIN, INT_MAX in *; lia|lia]. apply (h_mul _ _ _ H); [exact Ra|unfold INT_MIN, INT_MAX in *; lia|lia].
  - apply (h_mul _ _ _ H); [exact Rb|unfold INT_MIN, INT_MAX in *; lia|lia].
Qed.

(** the graph on doubles stands for the graph on exact numbers *)
Lemma tiny_is nl el n na ea : within_K K nl -> within_K K el ->
  (forall x, In x na -> node_good nl fl x) -> (forall x, In x ea -> edge_good n el fl x) ->
  problem_is 2 (@no_node spec_float :: map (@node_of spec_float f64_ops) na) (map (@edge_of spec_float f64_ops) ea)
    (@no_node Z :: map (@node_of Z (exact_ops 4)) na) (map (@edge_of Z (exact_ops 4)) ea).
Proof.
  intros [N1 N2] [E1 E2] HN HE. split; [cbn [length]; rewrite !map_length; reflexivity|]. split.
  - intros [|i] mf mz Hi Ef Ez; [lia|]. cbn [nth_error] in *. rewrite nth_error_map in Ef, Ez.
    destruct (nth_error na i) as [[[l u] t]|] eqn:Ei; [|discriminate]. cbn [option_map] in *. injection Ef as <-. injection Ez as <-.
    destruct (HN _ (nth_error_In _ _ Ei)) as [(R1 & R2 & R3) HC]. split; [reflexivity|]. split; [reflexivity|]. cbn [node_of m_fn m_l m_u].
    apply fn_of_is; auto; lia.
  - clear - HE E1 E2 HK Hr Hfl HB HrI. induction ea as [|[[[[l u] t] i] j] ea IH]; cbn [map]; constructor.
    + destruct (HE _ (or_introl eq_refl)) as ((R1 & R2 & R3) & HC & _). repeat (split; [reflexivity|]). cbn [edge_of o_fn o_l o_u].
      apply fn_of_is; auto; lia.
    + apply IH. intros; apply HE; simpl; auto.
Qed.
End Costs.

(** ** Two solutions compare equal *)
Lemma optimum_le n mus oms A v : well_formed n mus oms -> costs_within n mus oms A -> optimum n mus oms v -> Z.abs v <= A.
Proof.
  intros (Hlen & _) (wm & wo & Wm & Wo & WA) [(mu & om & [F1 F2] & <-) _]. unfold total_cost.
  assert (G : forall (l : list nat) (f w : nat -> Z), (forall i, In i l -> Z.abs (f i) <= w i) -> Z.abs (sumZ (map f l)) <= sumZ (map w l)).
  { induction l as [|a l IH]; intros f w H; cbn [map sumZ]; [lia|]. assert (X := H a (or_introl eq_refl)). specialize (IH f w (fun i Hi => H i (or_intror Hi))). lia. }
  assert (G1 := G (seq 1 n) (mu_cost mus mu) wm). assert (G2 := G (seq 0 (length oms)) (om_cost oms om) wo).
  assert (X1 : Z.abs (sumZ (map (mu_cost mus mu) (seq 1 n))) <= sumZ (map wm (seq 1 n))).
  { apply G1. intros i Hi. apply in_seq in Hi. destruct (F1 i ltac:(lia)) as (m & Em & Bm). unfold mu_cost. rewrite Em. apply (Wm i m); auto; lia. }
  assert (X2 : Z.abs (sumZ (map (om_cost oms om) (seq 0 (length oms)))) <= sumZ (map wo (seq 0 (length oms)))).
  { apply G2. intros k Hk. unfold om_cost. destruct (nth_error oms k) as [o|] eqn:Ek.
    - apply (Wo k o); auto. apply (F2 k o Ek).
    - apply nth_error_None in Ek. apply in_seq in Hk. lia. }
  lia.
Qed.

Lemma solutions_equal k n mus oms A a b : 0 <= k <= 52 -> well_formed n mus oms -> costs_within n mus oms A -> A < 2 ^ 53 ->
  double_solution k n mus oms a -> double_solution k n mus oms b ->
  exists x y, a = Ok x /\ b = Ok y /\ @opt_eq spec_float f64_ops x y = true.
Proof.
  intros Hk HW HA HB [(f & v & -> & F1 & F2)|[-> F]] [(g & w & -> & G1 & G2)|[-> G]].
  - exists (Some f), (Some g). split; [reflexivity|]. split; [reflexivity|]. cbn [opt_eq deq f64_ops].
    assert (v = w). { destruct F2 as [(mu & om & X1 & X2) X3], G2 as [(mu' & om' & Y1 & Y2) Y3]. assert (P := X3 _ _ Y1). assert (Q := Y3 _ _ X1). lia. }
    subst w. assert (V := optimum_le _ _ _ _ _ HW HA F2).
    rewrite (R_eq k Hk f g v v) by (split; [assumption|lia]). apply Z.eqb_refl.
  - destruct F2 as [(mu & om & X & _) _]. destruct (G _ _ X).
  - destruct G2 as [(mu & om & X & _) _]. destruct (F _ _ X).
  - exists None, None. auto.
Qed.

(** ** One generated graph *)
Record spec_f64 (s : gen_spec) (K r : Z) : Prop := {
  sf_ok : spec_ok s K r;
  sf_K : K <= INT_MAX;
  sf_r : 4 * r <= INT_MAX;
  sf_cost : 16 * r * (K * K + K + 1) < 2 ^ 53;
  sf_all : (s_n s + s_m s) * (4 * r * (K * K + K + 1)) < 2 ^ 53;
  sf_simple : simple_sizes 2 (Z.to_nat (s_n s)) (Z.to_nat (s_m s)) K ((s_n s + s_m s) * (4 * r * (K * K + K + 1)));
  sf_fast : run_bound (Z.to_nat (s_n s)) (Z.to_nat (s_m s)) K (2 ^ 2) ((s_n s + s_m s) * (4 * r * (K * K + K + 1))) < 2 ^ 53
}.

Ltac f64_tac H := constructor; [exact H | vm_compute; discriminate | vm_compute; discriminate | vm_compute; reflexivity | vm_compute; reflexivity
  | split; vm_compute; reflexivity | vm_compute; reflexivity].

Lemma small1_f64 : spec_f64 SmallGen1 6 10.
Proof. f64_tac small1_ok. Qed.
Lemma small2_f64 : spec_f64 SmallGen2 6 10.
Proof. f64_tac small2_ok. Qed.
Lemma huge1_f64 : spec_f64 HugeGen1 60 100.
Proof. f64_tac huge1_ok. Qed.
Lemma huge2_f64 : spec_f64 HugeGen2 60 100.
Proof. f64_tac huge2_ok. Qed.
Lemma huge3_f64 : spec_f64 HugeGen3 40 100.
Proof. f64_tac huge3_ok. Qed.

Lemma tests_f64 t : In t random_tests -> exists K r, spec_f64 (t_gen t) K r.
Proof.
  assert (H1 := small1_f64). assert (H2 := small2_f64). assert (H3 := huge1_f64). assert (H4 := huge2_f64). assert (H5 := huge3_f64).
  unfold random_tests. cbn [In]. intro H. repeat (destruct H as [<-|H]; [cbn [t_gen]; eauto|]). destruct H.
Qed.

Lemma costs_mono n mus oms A A' : A <= A' -> costs_within n mus oms A -> costs_within n mus oms A'.
Proof. intros H (wm & wo & H1 & H2 & H3). exists wm, wo. split; auto. split; auto. lia. Qed.

(** the graph on doubles is the graph of some exact problem, which all methods solve *)
Lemma methods_f64 s K r fuel g q : spec_f64 s K r -> 2 ^ 50 <= Z.of_nat fuel ->
  @tiny_shape spec_float f64_ops (s_n s) (s_m s) (s_multi s) (s_node s) (s_edge s) (s_fun s) true g q ->
  exists gz A, problem_is 2 (gr_node g) (gr_edge g) (gr_node gz) (gr_edge gz) /\
    tiny_result 1 (s_n s) (s_m s) (s_multi s) (s_node s) (s_edge s) (s_fun s) gz /\
    well_formed (Z.to_nat (s_n s)) (gr_node gz) (gr_edge gz) /\ costs_within (Z.to_nat (s_n s)) (gr_node gz) (gr_edge gz) A /\ A < 2 ^ 53 /\
    forall m, double_solution 2 (Z.to_nat (s_n s)) (gr_node gz) (gr_edge gz) (@answer spec_float f64_ops m fuel g).
Proof.
  intros [SO KI RI CO AL SI FA] Hf HG. pose proof SO as SO'. destruct SO' as [A DR WN WE WF R0 K1 FI HV CO1 F1 F2].
  destruct HG as (na & ea & G1 & G2 & G3 & G4 & G5 & G6 & G7 & G8 & G9 & G10 & G11 & G12).
  set (gz := @mkGraph Z (gr_n g) (gr_m g) (no_node :: map (@node_of Z (exact_ops 4)) na) (map (@edge_of Z (exact_ops 4)) ea)
    (map (@node_info Z (exact_ops 4)) na, map (@edge_info Z (exact_ops 4)) ea)).
  assert (SH : @tiny_shape Z (exact_ops (4 * 1)) (s_n s) (s_m s) (s_multi s) (s_node s) (s_edge s) (s_fun s) true gz []).
  { exists na, ea. repeat (split; [assumption || reflexivity|]). reflexivity. }
  destruct (tiny_result_of 1 _ _ _ _ _ _ _ _ SH) as [TR _].
  assert (PI : problem_is 2 (gr_node g) (gr_edge g) (gr_node gz) (gr_edge gz)).
  { rewrite G6, G7. apply (tiny_is K r (s_fun s)) with (nl := s_node s) (el := s_edge s) (n := s_n s); auto. }
  assert (Hn : 1 <= s_n s) by apply A.
  assert (AD := tiny_admissible 1 Z.lt_0_1 _ _ K _ _ _ _ gz TR Hn WN WE FI).
  assert (SP := tiny_spread 1 Z.lt_0_1 _ _ K r _ _ _ _ gz TR Hn WN WE WF R0 K1).
  assert (CW := tiny_costs 1 Z.lt_0_1 _ _ K r _ _ _ _ gz TR Hn WN WE WF R0 K1).
  set (AA := (s_n s + s_m s) * (4 * r * (K * K + K + 1))) in *.
  assert (PK : 0 <= peak 1 K r) by (unfold peak; nia).
  assert (CA : costs_within (Z.to_nat (s_n s)) (gr_node gz) (gr_edge gz) AA).
  { eapply costs_mono; [|exact CW]. unfold AA. replace (4 * r * (K * K + K + 1)) with (peak 1 K r) by (unfold peak; ring).
    cbn [gz gr_m]. nia. }
  assert (LE : (length (gr_edge gz) <= Z.to_nat (s_m s))%nat) by (cbn [gz gr_edge]; rewrite map_length; lia).
  assert (A0 : 0 <= AA) by (destruct (costs_le _ _ _ _ (proj1 AD) CA); lia).
  exists gz, AA. split; [exact PI|]. split; [exact TR|]. split; [apply AD|]. split; [exact CA|]. split; [exact AL|].
  intros []; unfold answer; rewrite G1.
  - apply (bf_doubles 2 _ _ _ _ _ K AA fuel); auto; try lia.
  - apply (simple_doubles 2 _ _ _ _ _ K _ AA fuel ltac:(lia) PI AD SP); auto.
    + change (2 ^ 2) with 4. unfold peak. replace (2 * ((s_n s + s_m s) * (4 * 1 * r * (K * K + K + 1)))) with (4 * (2 * ((s_n s + s_m s) * (r * (K * K + K + 1))))) by ring. lia.
    + destruct SI as [S1 S2]. split; [exact S1|]. eapply Z.le_lt_trans; [|exact S2]. apply Z.add_le_mono_r, Z.mul_le_mono_nonneg_r; [lia|].
      clear - LE K1. apply Z.add_le_mono_r, Z.mul_le_mono_nonneg_r; lia.
    + pose proof (simple_fuel_le (Z.to_nat (s_n s)) _ _ K LE). lia.
  - rewrite <- (Z2Nat.id (s_n s)) by lia. rewrite Z2Nat.id at 1 by lia.
    apply (doubles_exact 2 _ _ _ _ _ K AA fuel ltac:(lia) PI AD CA).
    + eapply Z.le_lt_trans; [|exact FA]. unfold run_bound. fold AA. apply Z.mul_le_mono_nonneg_r; [lia|]. apply Z.mul_le_mono_nonneg_r; [lia|]. lia.
    + pose proof (solver_fuel_le (Z.to_nat (s_n s)) _ _ K ltac:(lia) LE). lia.
Qed.

Lemma make_f64 s K r fuel i st : spec_ok s K r -> 2 ^ 50 <= Z.of_nat fuel -> fst st = [] ->
  exists g s', @make spec_float f64_ops fuel s i st = Ok (g, ([], s')) /\
    @tiny_shape spec_float f64_ops (s_n s) (s_m s) (s_multi s) (s_node s) (s_edge s) (s_fun s) true g [].
Proof.
  intros HS Hf Hq. destruct st as [q s0]. cbn in Hq. subst q.
  assert (X := @tiny_gen_shape spec_float f64_ops fuel (s_n s) (s_m s) (s_multi s) (s_node s) (s_edge s) (s_fun s) (Z.of_nat i) true s0 (so_args _ _ _ HS)).
  assert (T : rng_fuel fuel /\ drawable (s_multi s) (s_n s)) by (split; [unfold rng_fuel; change (2 ^ 50) with (4 * 2 ^ 48) in Hf; lia|exact (so_draw _ _ _ HS)]).
  apply (fun H => runs_ok _ _ _ H T) in X.
  destruct X as ([g [q' s']] & E & X). exists g, s'.
  assert (q' = []) as -> by (destruct X as (na & ea & X); apply X). split; [exact E|exact X].
Qed.

Theorem random_test_passes_f64 t fuel s : In t random_tests -> 2 ^ 50 <= Z.of_nat fuel ->
  exists s', @run_random_test spec_float f64_ops fuel t ([], s) = Ok ([], s').
Proof.
  intros Ht Hf. destruct (tests_f64 t Ht) as (K & r & HS). unfold run_random_test.
  generalize (seq 1 (Z.to_nat (if t_compare t then s_many (t_gen t) else s_few (t_gen t)))). intro l. revert s.
  induction l as [|i l IH]; intro s; cbn [for_each]; [eauto|].
  destruct (make_f64 _ K r fuel i ([], s) (sf_ok _ _ _ HS) Hf eq_refl) as (g & s' & E & HG). rewrite E. cbn [bind].
  destruct (methods_f64 _ K r fuel g [] HS Hf HG) as (gz & A & _ & _ & HW & CW & AL & HA).
  destruct (solutions_equal 2 _ _ _ A _ _ ltac:(lia) HW CW AL (HA (t_method t)) (HA (t_verifier t))) as (x & y & E1 & E2 & E3).
  unfold verify. rewrite E1. cbn [bind]. rewrite E2. cbn [bind]. rewrite E3. cbn [assert_ bind]. apply IH.
Qed.
