(** * Integral solutions are as good as fractional ones *)
From Verif Require Import Base BaseLemmas Data ProblemDefine Sums Spec FracSpec SpecLemmas SolverProof SolverProps ExampleData ProblemSolver Convex FlowOpt.
Local Open Scope Z_scope.

(** ** Rounding with all offsets *)
Section Round.
Variable q : Z.
Hypothesis Hq : 0 < q.
Definition offsets : list nat := seq 0 (Z.to_nat q).

Definition up (x : Z) (t : nat) : Z := (x + Z.of_nat t) / q.

Lemma up_cases x t : In t offsets -> up x t = x / q + (if q <=? x mod q + Z.of_nat t then 1 else 0).
Proof.
  intros Ht. apply in_seq in Ht. unfold up. assert (H := Z.mod_pos_bound x q Hq). assert (E := Z.div_mod x q ltac:(lia)).
  destruct (q <=? x mod q + Z.of_nat t) eqn:C; [apply Z.leb_le in C|apply Z.leb_gt in C]; symmetry.
  - apply (Z.div_unique _ _ _ (x mod q + Z.of_nat t - q)); lia.
  - apply (Z.div_unique _ _ _ (x mod q + Z.of_nat t)); lia.
Qed.

Lemma steps_sum c : forall k, zsum (seq 0 k) (fun t => if q <=? c + Z.of_nat t then 1 else 0) = Z.max 0 (Z.min (Z.of_nat k) (Z.of_nat k - (q - c))).
Proof.
  induction k as [|k IH]; [cbn; lia|]. rewrite seq_S, zsum_app, IH. cbn [zsum]. cbn [Nat.add]. destruct (q <=? c + Z.of_nat k) eqn:E; [apply Z.leb_le in E|apply Z.leb_gt in E]; lia.
Qed.

Lemma const_sum c : zsum offsets (fun _ => c) = q * c.
Proof.
  unfold offsets. replace q with (Z.of_nat (Z.to_nat q)) at 2 by lia. induction (Z.to_nat q) as [|k IH]; [cbn; lia|]. rewrite seq_S, zsum_app, IH. cbn [zsum]. lia.
Qed.

Lemma up_sum x : zsum offsets (up x) = x.
Proof.
  rewrite (zsum_ext _ _ _ (up_cases x)), zsum_add, const_sum. unfold offsets. rewrite steps_sum.
  assert (H := Z.mod_pos_bound x q Hq). assert (E := Z.div_mod x q ltac:(lia)). lia.
Qed.

(** a function of a value that is a or a + 1 *)
Lemma two_values (F : Z -> Z) a (z : nat -> Z) : (forall t, In t offsets -> z t = a \/ z t = a + 1) ->
  zsum offsets (fun t => F (z t)) = q * F a + (zsum offsets z - q * a) * (F (a + 1) - F a).
Proof.
  intros H. rewrite (zsum_ext _ _ (fun t => F a + (F (a + 1) - F a) * (z t - a))).
  - rewrite zsum_add, const_sum, zsum_scale, zsum_sub, const_sum. lia.
  - intros t Ht. destruct (H t Ht) as [-> | ->]; ring_simplify (a - a); try ring_simplify (a + 1 - a); lia.
Qed.

Lemma up_between F x : zsum offsets (fun t => F (up x t)) = between q F x.
Proof.
  rewrite (two_values F (x / q)); [|intros t Ht; rewrite (up_cases x t Ht); destruct (q <=? _); lia].
  rewrite up_sum. unfold between. assert (E := Z.div_mod x q ltac:(lia)). nia.
Qed.

Definition gap (x w : Z) (t : nat) : Z := up (x + w) t - up x t.

Lemma gap_cases x w t : In t offsets -> w / q <= gap x w t <= w / q + 1 /\ (w mod q = 0 -> gap x w t = w / q).
Proof.
  intros Ht. unfold gap, up. set (y := x + Z.of_nat t). replace (x + w + Z.of_nat t) with (y + w) by (unfold y; lia). clearbody y.
  assert (Hw := Z.mod_pos_bound w q Hq). assert (Ew := Z.div_mod w q ltac:(lia)). assert (Hy := Z.mod_pos_bound y q Hq). assert (Ey := Z.div_mod y q ltac:(lia)).
  set (z := y + w) in *. assert (Hz := Z.mod_pos_bound z q Hq). assert (Ez := Z.div_mod z q ltac:(lia)).
  assert (X : q * (z / q - y / q - w / q) = y mod q + w mod q - z mod q) by lia. split; [nia|]. intros H0. nia.
Qed.

Lemma gap_between F x w : zsum offsets (fun t => F (gap x w t)) = between q F w.
Proof.
  rewrite (two_values F (w / q)); [|intros t Ht; destruct (gap_cases x w t Ht) as [H _]; lia].
  unfold gap. rewrite zsum_sub, !up_sum. unfold between. assert (E := Z.div_mod w q ltac:(lia)). nia.
Qed.

Lemma up_range x l u t : In t offsets -> q * l <= x <= q * u -> l <= up x t <= u.
Proof.
  intros Ht H. apply in_seq in Ht. unfold up. split; [apply Z.div_le_lower_bound; lia|].
  assert (x + Z.of_nat t < q * (u + 1)) by lia. assert (Y := Z.div_lt_upper_bound (x + Z.of_nat t) q (u + 1) Hq ltac:(lia)). lia.
Qed.

Lemma gap_range x w l u t : In t offsets -> q * l <= w <= q * u -> l <= gap x w t <= u.
Proof.
  intros Ht H. destruct (gap_cases x w t Ht) as [H1 H2]. assert (Hw := Z.mod_pos_bound w q Hq). assert (Ew := Z.div_mod w q ltac:(lia)).
  assert (l <= w / q) by (apply Z.div_le_lower_bound; lia). split; [lia|].
  destruct (Z.eq_dec (w mod q) 0) as [E|E]; [specialize (H2 E); nia|nia].
Qed.

(** ** The rounded solutions *)
Variables (n : nat) (mus : list (MuLimit Z)) (oms : list (OmegaLimit Z)).
Variables (x w : nat -> Z).
Hypothesis HF : frac_feasible q n mus oms x w.

Definition rmu (t : nat) (i : nat) : Z := up (x i) t.
Definition rom (t : nat) (k : nat) : Z := match nth_error oms k with Some o => gap (x (o_j o)) (w k) t | None => 0 end.

Lemma rounded_feasible t : In t offsets -> feasible n mus oms (rmu t) (rom t).
Proof.
  intros Ht. destruct HF as [H1 H2]. split.
  - intros i Hi. destruct (H1 i Hi) as (m & Em & Hm). exists m. split; [exact Em|]. apply up_range; assumption.
  - intros k o Ek. destruct (H2 k o Ek) as [Hw Hd]. unfold rom. rewrite Ek. split; [apply gap_range; assumption|].
    unfold rmu, gap. assert (up (x (o_i o)) t <= up (x (o_j o) + w k) t); [|lia]. apply Z.div_le_mono; lia.
Qed.

Lemma rounded_cost : zsum offsets (fun t => total_cost n mus oms (rmu t) (rom t)) = frac_cost q n mus oms x w.
Proof.
  unfold total_cost, frac_cost. rewrite zsum_add, !sumZ_zsum.
  rewrite (zsum_ext offsets (fun t => sumZ (map (mu_cost mus (rmu t)) (seq 1 n))) (fun t => zsum (seq 1 n) (mu_cost mus (rmu t)))) by (intros; apply sumZ_zsum).
  rewrite (zsum_ext offsets (fun t => sumZ (map (om_cost oms (rom t)) (seq 0 (length oms)))) (fun t => zsum (seq 0 (length oms)) (om_cost oms (rom t)))) by (intros; apply sumZ_zsum).
  rewrite (zsum_swap offsets (seq 1 n)), (zsum_swap offsets (seq 0 (length oms))). f_equal; apply zsum_ext; intros k Hk.
  - unfold mu_cost. destruct (nth_error mus k) as [m|]; [|apply zsum_zero; reflexivity]. unfold rmu. apply up_between.
  - unfold om_cost. destruct (nth_error oms k) as [o|] eqn:E; [|apply zsum_zero; reflexivity]. unfold rom. rewrite E. apply gap_between.
Qed.
End Round.

Lemma whole_between q F x : 0 < q -> between q F (q * x) = q * F x.
Proof. intros Hq. unfold between. rewrite (Z.mul_comm q x), Z.mod_mul, Z.div_mul by lia. lia. Qed.

Theorem solution_frac q n mus oms r : 0 < q -> solution n mus oms r -> frac_solution q n mus oms r.
Proof.
  intros Hq HS. destruct r as [v|]; cbn [solution frac_solution] in *.
  - destruct HS as [(mu & om & HF & Hv) HL]. split.
    + exists (fun i => q * mu i), (fun k => q * om k). split.
      * destruct HF as [H1 H2]. split.
        -- intros i Hi. destruct (H1 i Hi) as (m & Em & Hm). exists m. split; [exact Em|]. nia.
        -- intros k o Ek. destruct (H2 k o Ek) as [Hw Hd]. split; nia.
      * rewrite <- Hv. unfold frac_cost, total_cost. rewrite !sumZ_zsum, Z.mul_add_distr_l, <- !zsum_scale. f_equal; apply zsum_ext; intros k Hk.
        -- unfold mu_cost. destruct (nth_error mus k); [apply whole_between; exact Hq|lia].
        -- unfold om_cost. destruct (nth_error oms k); [apply whole_between; exact Hq|lia].
    + intros x w HX. rewrite <- (rounded_cost q Hq n mus oms x w). rewrite <- (const_sum q Hq). apply zsum_le.
      intros t Ht. apply HL. apply rounded_feasible; assumption.
  - intros x w HX. apply (HS (rmu q x O) (rom q oms x w O)). apply rounded_feasible; try assumption. unfold offsets. apply in_seq. lia.
Qed.

(** ** Problems between two problems *)
Lemma convex_pair F l u a b : convex_on F l u -> l <= a <= u -> l <= b <= u -> between 2 F (a + b) <= F a + F b.
Proof.
  intros HC Ha Hb. assert (G : forall a b, l <= a <= u -> l <= b <= u -> a <= b -> between 2 F (a + b) <= F a + F b).
  2:{ destruct (Z.le_ge_cases a b); [apply G; assumption|]. rewrite (Z.add_comm a b), (Z.add_comm (F a)). apply G; assumption. }
  clear a b Ha Hb. intros a b Ha Hb Hab. unfold between. set (y := (a + b) / 2). assert (Hm := Z.mod_pos_bound (a + b) 2 ltac:(lia)). assert (E := Z.div_mod (a + b) 2 ltac:(lia)). fold y in E.
  (* a + b = 2 y + r, with y - a = b - y - r steps on both sides *)
  assert (S1 : forall k : nat, l <= y - Z.of_nat k -> y + (a + b) mod 2 + Z.of_nat k <= u ->
    F y + F (y + (a + b) mod 2) <= F (y - Z.of_nat k) + F (y + (a + b) mod 2 + Z.of_nat k)).
  { induction k as [|k IH]; intros H1 H2; [cbn; rewrite Z.sub_0_r, Z.add_0_r; lia|].
    assert (IH' := IH ltac:(lia) ltac:(lia)). set (r := (a + b) mod 2) in *.
    assert (D := diff_mono F l u (y - Z.of_nat (S k)) (y + r + Z.of_nat k) HC ltac:(lia) ltac:(lia) ltac:(lia)).
    replace (y - Z.of_nat (S k) + 1) with (y - Z.of_nat k) in D by lia. replace (y + r + Z.of_nat (S k)) with (y + r + Z.of_nat k + 1) by lia. lia. }
  assert (S2 := S1 (Z.to_nat (y - a)) ltac:(lia) ltac:(lia)).
  replace (y - Z.of_nat (Z.to_nat (y - a))) with a in S2 by lia. replace (y + (a + b) mod 2 + Z.of_nat (Z.to_nat (y - a))) with b in S2 by lia.
  assert (R : (a + b) mod 2 = 0 \/ (a + b) mod 2 = 1) by lia. destruct R as [R|R]; rewrite R in *; [rewrite Z.add_0_r in S2|]; lia.
Qed.

Theorem halfway_frac n musa mus musb omsa oms omsb mua oma mub omb :
  halfway n musa mus musb omsa oms omsb -> length mus = (n + 1)%nat ->
  feasible n musa omsa mua oma -> feasible n musb omsb mub omb ->
  let x i := mua i + mub i in let w k := oma k + omb k in
  frac_feasible 2 n mus oms x w /\
  frac_cost 2 n mus oms x w <= total_cost n musa omsa mua oma + total_cost n musb omsb mub omb.
Proof.
  intros (HM & L1 & L2 & HO) HL [A1 A2] [B1 B2] x w.
  assert (GM : forall i, (1 <= i <= n)%nat -> exists a m b, nth_error musa i = Some a /\ nth_error mus i = Some m /\ nth_error musb i = Some b /\
    mu_halfway a m b /\ m_l a <= mua i <= m_u a /\ m_l b <= mub i <= m_u b).
  { intros i Hi. destruct (A1 i Hi) as (a & Ea & Ha). destruct (B1 i Hi) as (b & Eb & Hb).
    destruct (nth_error mus i) as [m|] eqn:Em; [|apply nth_error_None in Em; lia]. exists a, m, b. eauto 10. }
  assert (GO : forall k o, nth_error oms k = Some o -> exists a b, nth_error omsa k = Some a /\ nth_error omsb k = Some b /\ om_halfway a o b /\
    (o_l a <= oma k <= o_u a /\ mua (o_i a) - mua (o_j a) <= oma k) /\ (o_l b <= omb k <= o_u b /\ mub (o_i b) - mub (o_j b) <= omb k)).
  { intros k o Eo. assert (k < length oms)%nat by (apply nth_error_Some; congruence).
    destruct (nth_error omsa k) as [a|] eqn:Ea; [|apply nth_error_None in Ea; lia]. destruct (nth_error omsb k) as [b|] eqn:Eb; [|apply nth_error_None in Eb; lia].
    exists a, b. split; [reflexivity|]. split; [reflexivity|]. split; [eapply HO; eauto|]. split; [apply A2; exact Ea|apply B2; exact Eb]. }
  split.
  - split.
    + intros i Hi. destruct (GM i Hi) as (a & m & b & _ & Em & _ & (_ & _ & H1 & H2 & _) & Ha & Hb). exists m. split; [exact Em|]. unfold x. lia.
    + intros k o Eo. destruct (GO k o Eo) as (a & b & _ & _ & (_ & _ & I1 & J1 & I2 & J2 & H1 & H2 & _) & [Ha Da] & [Hb Db]).
      rewrite I1, J1 in Da. rewrite I2, J2 in Db. unfold x, w. lia.
  - unfold frac_cost, total_cost. rewrite L1, L2. rewrite !sumZ_zsum.
    assert (P1 : zsum (seq 1 n) (fun i => match nth_error mus i with Some m => between 2 (cost (m_fn m)) (x i) | None => 0 end) <=
      zsum (seq 1 n) (mu_cost musa mua) + zsum (seq 1 n) (mu_cost musb mub)).
    { rewrite <- zsum_add. apply zsum_le. intros i Hi. apply in_seq in Hi. destruct (GM i ltac:(lia)) as (a & m & b & Ea & Em & Eb & (F1 & F2 & _ & _ & HC) & Ha & Hb).
      unfold mu_cost. rewrite Ea, Em, Eb, F1, F2. unfold x. eapply convex_pair; [exact HC|lia|lia]. }
    assert (P2 : zsum (seq 0 (length oms)) (fun k => match nth_error oms k with Some o => between 2 (cost (o_fn o)) (w k) | None => 0 end) <=
      zsum (seq 0 (length oms)) (om_cost omsa oma) + zsum (seq 0 (length oms)) (om_cost omsb omb)).
    { rewrite <- zsum_add. apply zsum_le. intros k Hk. apply in_seq in Hk. destruct (nth_error oms k) as [o|] eqn:Eo; [|apply nth_error_None in Eo; lia].
      destruct (GO k o Eo) as (a & b & Ea & Eb & (F1 & F2 & _ & _ & _ & _ & _ & _ & HC) & [Ha _] & [Hb _]).
      unfold om_cost. rewrite Ea, Eb, F1, F2. unfold w. eapply convex_pair; [exact HC|lia|lia]. }
    lia.
Qed.

Theorem halfway_answers one n musa mus musb omsa oms omsb K fuel va vb : 0 < one ->
  admissible n musa omsa K -> admissible n mus oms K -> admissible n musb omsb K -> halfway n musa mus musb omsa oms omsb ->
  solver_fuel n (length oms) K <= Z.of_nat fuel ->
  @run_solver Z (exact_ops one) fuel (Z.of_nat n) musa omsa = Ok (Some va) ->
  @run_solver Z (exact_ops one) fuel (Z.of_nat n) musb omsb = Ok (Some vb) ->
  exists v, @run_solver Z (exact_ops one) fuel (Z.of_nat n) mus oms = Ok (Some v) /\ 2 * v <= va + vb.
Proof.
  intros H1 AA AM AB HH HF Ea Eb. destruct HH as (HM & L1 & L2 & HO).
  assert (Oa := solve_optimum one H1 n musa omsa K fuel va AA ltac:(rewrite L1; exact HF) Ea).
  assert (Ob := solve_optimum one H1 n musb omsb K fuel vb AB ltac:(rewrite L2; exact HF) Eb).
  destruct Oa as [(mua & oma & Fa & Ca) _]. destruct Ob as [(mub & omb & Fb & Cb) _].
  destruct (halfway_frac n musa mus musb omsa oms omsb mua oma mub omb) as [FF FC]; [exact (conj HM (conj L1 (conj L2 HO)))|apply AM|assumption|assumption|].
  destruct AM as (HW & HBd & HK & HI). destruct (run_solver_ok one n mus oms K fuel H1 HW HBd HK HI HF) as (r & Er & Hs).
  assert (S := solution_frac 2 n mus oms r ltac:(lia) Hs). destruct r as [v|]; cbn [frac_solution] in S.
  - exists v. split; [exact Er|]. destruct S as [_ S]. specialize (S _ _ FF). lia.
  - exfalso. exact (S _ _ FF).
Qed.

Theorem run_frac one n mus oms K fuel q : 0 < one -> admissible n mus oms K -> solver_fuel n (length oms) K <= Z.of_nat fuel -> 0 < q ->
  exists r, @run_solver Z (exact_ops one) fuel (Z.of_nat n) mus oms = Ok r /\ frac_solution q n mus oms r.
Proof.
  intros H1 (HW & HBd & HK & HI) HF Hq. destruct (run_solver_ok one n mus oms K fuel H1 HW HBd HK HI HF) as (r & Er & Hs).
  exists r. split; [exact Er|]. apply solution_frac; assumption.
Qed.
