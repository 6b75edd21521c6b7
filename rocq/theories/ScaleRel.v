(** * CostScaling::Refine on numbers that are only right while they are small *)
From Verif Require Import Base BaseLemmas Data ProblemDefine Flow CostScaling Sums NetMath Spec FlowOpt ScaleNet ScaleRefine ScaleRun Hom.
Local Open Scope Z_scope.

(** the excess of a node is at most the sum of all capacities *)
Lemma exc_bound A x v : inrange A x -> (forall a, In a A -> 0 <= in_cap a) ->
  Z.abs (exc (length A) (sei A) (sej A) x v) <= allcap A.
Proof.
  intros Hr HC.
  assert (Hk : forall k, (k < length A)%nat -> 0 <= x k <= in_cap (ak A k)).
  { intros k Hk. assert (A1 := Hr (2 * k)%nat ltac:(lia)). assert (A2 := Hr (2 * k + 1)%nat ltac:(lia)).
    unfold rc, sub, scap, xd in *. rewrite even_2k, div2_2k in A1. rewrite even_2k1, div2_2k1 in A2. lia. }
  unfold allcap. rewrite (zsum_ak A (mkIn 0 0 0 0) in_cap). unfold exc.
  assert (U : zsum (seq 0 (length A)) (fun k => (if (sej A (2 * k) =? v)%nat then x k else 0) - (if (sei A (2 * k) =? v)%nat then x k else 0))
    <= zsum (seq 0 (length A)) (fun k => in_cap (ak A k))).
  { apply zsum_le. intros k Hi. apply in_seq in Hi. specialize (Hk k ltac:(lia)). destruct (_ =? _)%nat, (_ =? _)%nat; lia. }
  assert (L : zsum (seq 0 (length A)) (fun k => - in_cap (ak A k))
    <= zsum (seq 0 (length A)) (fun k => (if (sej A (2 * k) =? v)%nat then x k else 0) - (if (sei A (2 * k) =? v)%nat then x k else 0))).
  { apply zsum_le. intros k Hi. apply in_seq in Hi. specialize (Hk k ltac:(lia)). destruct (_ =? _)%nat, (_ =? _)%nat; lia. }
  rewrite (zsum_ext _ (fun k => - in_cap (ak A k)) (fun k => (-1) * in_cap (ak A k))) in L by (intros; lia).
  rewrite zsum_scale in L. unfold ak in *. lia.
Qed.

(** open a related element of a vector *)
Ltac vg H d E Rd :=
  match type of H with vrel _ ?l _ _ =>
    match goal with |- context[vget l ?i] => destruct (vrel_get _ _ _ _ i H) as (d & E & Rd); [|rewrite E; cbn [bind]] end
  end.

Section Refine.
Context {D : Type} {ops : DataOps D}.
Variables (Rc Rp : Z -> D -> Prop) (Bc Bp : Z).
Hypothesis HC : hom ops Rc Bc.
Hypothesis HP : hom ops Rp Bp.

Variables (one : Z) (n : nat) (A : list (InputEdge Z)).
Notation m := (length A).
Hypothesis HA : arcs_ok n A.
Variables (nx : nat -> option nat) (hd : nat -> option nat).
Hypothesis Hlink : forall u, (u <= n)%nat -> linked nx (hd u) (sG A u).

(** the sizes *)
Variables (C P : Z).
Hypothesis H1 : Rp one done.
Hypothesis Hone : 0 < one.
Hypothesis HCc : forall a, In a A -> - C <= in_cost a <= C.
Hypothesis HCi : 0 <= C <= INT_MAX.
Hypothesis HBp : one * C + 2 * P <= Bp.
Hypothesis HBc : allcap A <= Bc.

Notation sei := (sei A).
Notation sej := (sej A).
Notation pe := (pe sei sej).
Notation exc := (exc m sei sej).
Notation opt := (opt m sei sej (slft one A)).
Notation nodes := (nodes n).
Notation rc := (rc A).
Notation cpi := (cpi one A).
Notation rinv := (rinv one n A).
Notation net := (scale_netok one n A HA).
Notation arcf := (arcf A nx).

Definition arcR (a : Arc Z) (b : Arc D) : Prop :=
  a_next b = a_next a /\ a_v b = a_v a /\ a_cost b = a_cost a /\ Rc (a_cap a) (a_cap b).

Definition pbd (p : nat -> Z) : Prop := forall v, (v <= n)%nat -> Z.abs (p v) <= P.

Lemma sc_bound e : (e < 2 * m)%nat -> - C <= sc A e <= C.
Proof. intros He. assert (B := HCc _ (ak_in A _ (div2_lt _ _ He))). unfold sc. destruct (Nat.even e); lia. Qed.

Lemma rc_bound x e : inrange A x -> (e < 2 * m)%nat -> 0 <= rc x e <= Bc.
Proof.
  intros Hr He. assert (A1 := Hr e He). assert (A2 := Hr _ (rev_lt _ _ He)). rewrite rc_rev in A2.
  assert (A3 := scap_all n A HA e He). lia.
Qed.

Lemma exc_bound' x v : inrange A x -> Z.abs (exc x v) <= Bc.
Proof. intros Hr. assert (E := exc_bound A x v Hr (ao_cap _ _ HA)). lia. Qed.

Lemma cost_pi_rel pD p x e b : vrel Rp pD (n + 1) p -> pbd p -> (e < 2 * m)%nat -> arcR (arcf x e) b ->
  exists w, cost_pi pD (sei e) b = Ok w /\ Rp (cpi p e) w.
Proof.
  intros HPv Hb He (A1 & A2 & A3 & A4). assert (B1 := sei_le n A HA e He). assert (B2 := sej_le n A HA e He).
  assert (S := sc_bound e He). cbn [ScaleRefine.arcf a_next a_v a_cost a_cap] in *.
  unfold cost_pi. rewrite A2, A3. vg HPv u Eu Ru; [lia|]. vg HPv v Ev Rv; [lia|].
  assert (P1 := Hb _ B1). assert (P2 := Hb _ B2).
  assert (S2 : Z.abs (one * sc A e) <= one * C) by nia.
  eexists. split; [reflexivity|].
  replace (cpi p e) with (one * sc A e - p (sei e) + p (sej e)) by (unfold ScaleNet.cpi, NetMath.pe; lia).
  apply (h_add _ _ _ HP); auto; [|lia]. apply (h_sub _ _ _ HP); auto; [|lia].
  unfold of_int. apply (h_mul _ _ _ HP); auto; [unfold INT_MIN, INT_MAX in *; lia|lia].
Qed.

(** moving [d] units along [e] in the arc array *)
Lemma inrange_xadd x e d : inrange A x -> (e < 2 * m)%nat -> 0 <= d <= rc x e -> inrange A (xadd x e d).
Proof.
  intros Hr He Hd i Hi. destruct (Nat.eq_dec i e) as [->|N1]; [rewrite rc_xadd_eq; lia|].
  destruct (Nat.eq_dec i (rev_id e)) as [->|N2].
  - rewrite rc_xadd_rev. assert (Q2 := Hr _ (rev_lt _ _ He)). lia.
  - rewrite rc_xadd_neq by auto. auto.
Qed.

Lemma arcR_cap x x' e b c : arcR (arcf x e) b -> Rc (rc x' e) c -> arcR (arcf x' e) (with_cap b c).
Proof. intros (A1 & A2 & A3 & A4) HR. repeat split; auto. Qed.

Lemma arcR_ext x x' e b : rc x e = rc x' e -> arcR (arcf x e) b -> arcR (arcf x' e) b.
Proof. intros E (A1 & A2 & A3 & A4). repeat split; auto. cbn [ScaleRefine.arcf a_cap] in *. rewrite <- E. auto. Qed.

Lemma arcs_push E x e d b1 b2 : vrel arcR E (2 * m) (arcf x) -> (e < 2 * m)%nat ->
  arcR (arcf (xadd x e d) e) b1 -> arcR (arcf (xadd x e d) (rev_id e)) b2 ->
  vrel arcR (upd (upd E e b1) (rev_id e) b2) (2 * m) (arcf (xadd x e d)).
Proof.
  intros HE He R1 R2. assert (Hr := rev_lt _ _ He).
  eapply vrel_ext; [apply vrel_upd; [apply vrel_upd; [exact HE|exact He|exact R1]|exact Hr|exact R2]|].
  intros i Hi. unfold fup. destruct (Nat.eqb_spec i (rev_id e)) as [->|N1]; auto.
  destruct (Nat.eqb_spec i e) as [->|N2]; auto. unfold ScaleRefine.arcf. rewrite rc_xadd_neq by auto. reflexivity.
Qed.

Lemma arcs_push' E x e d b1 b2 : vrel arcR E (2 * m) (arcf x) -> (e < 2 * m)%nat ->
  arcR (arcf (xadd x e d) e) b1 -> arcR (arcf (xadd x e d) (rev_id e)) b2 ->
  vrel arcR (upd (upd E (rev_id e) b2) e b1) (2 * m) (arcf (xadd x e d)).
Proof.
  intros HE He R1 R2. assert (Hr := rev_lt _ _ He).
  eapply vrel_ext; [apply vrel_upd; [apply vrel_upd; [exact HE|exact Hr|exact R2]|exact He|exact R1]|].
  intros i Hi. unfold fup. destruct (Nat.eqb_spec i e) as [->|N1]; auto.
  destruct (Nat.eqb_spec i (rev_id e)) as [->|N2]; auto. unfold ScaleRefine.arcf. rewrite rc_xadd_neq by auto. reflexivity.
Qed.

(** the two excesses after moving [d] units along [e] *)
Lemma exc_move X x e d dd : vrel Rc X (n + 1) (exc x) -> (e < 2 * m)%nat -> inrange A x -> 0 <= d <= rc x e -> Rc d dd ->
  exists X1 X2, vsub X (sei e) dd = Ok X1 /\ vadd X1 (sej e) dd = Ok X2 /\ vrel Rc X2 (n + 1) (exc (xadd x e d)).
Proof.
  intros HX He Hr Hd Rd. assert (B1 := sei_le n A HA e He). assert (B2 := sej_le n A HA e He).
  assert (NL := no_loop n A HA e He).
  assert (Hr' := inrange_xadd x e d Hr He Hd).
  assert (Exc := exc_xadd _ _ _ _ _ _ _ net x e d).
  assert (Ei : exc (xadd x e d) (sei e) = exc x (sei e) - d).
  { rewrite Exc by auto. rewrite Nat.eqb_refl. destruct (Nat.eqb_spec (sej e) (sei e)); [congruence|lia]. }
  assert (Ej : exc (xadd x e d) (sej e) = exc x (sej e) + d).
  { rewrite Exc by auto. rewrite Nat.eqb_refl. destruct (Nat.eqb_spec (sei e) (sej e)); [congruence|lia]. }
  assert (Bi := exc_bound' _ (sei e) Hr'). assert (Bj := exc_bound' _ (sej e) Hr').
  unfold vsub. vg HX a Ea Ra; [lia|]. rewrite (vrel_set _ _ _ _ _ _ HX) by lia.
  assert (R1 : Rc (exc x (sei e) - d) (dsub a dd)) by (apply (h_sub _ _ _ HC); auto; lia).
  assert (V1 := vrel_upd _ _ _ _ (sei e) _ _ HX ltac:(lia) R1).
  eexists _. unfold vadd. destruct (vrel_get _ _ _ _ (sej e) V1 ltac:(lia)) as (b & Eb & Rb).
  rewrite fup_neq in Rb by auto.
  eexists. split; [reflexivity|]. rewrite Eb. cbn [bind]. rewrite (vrel_set _ _ _ _ _ _ V1) by lia. split; [reflexivity|].
  assert (R2 : Rc (exc x (sej e) + d) (dadd b dd)) by (apply (h_add _ _ _ HC); auto; lia).
  eapply vrel_ext; [apply vrel_upd; [exact V1|lia|exact R2]|].
  intros i Hi. rewrite Exc by auto. unfold fup.
  destruct (Nat.eqb_spec i (sej e)) as [->|N1].
  - rewrite Nat.eqb_refl. destruct (Nat.eqb_spec (sei e) (sej e)); [contradiction|]. lia.
  - destruct (Nat.eqb_spec (sej e) i); [congruence|]. destruct (Nat.eqb_spec i (sei e)) as [->|N2].
    + rewrite Nat.eqb_refl. lia.
    + destruct (Nat.eqb_spec (sei e) i); [congruence|]. lia.
Qed.

(** ** Saturating all arcs of negative reduced cost: CostScaling.cpp:15-24 *)
Section Saturate.
Variables (pD : list D) (p : nat -> Z).
Hypothesis HPv : vrel Rp pD (n + 1) p.
Hypothesis Hpb : pbd p.

Definition sat_rel (E : list (Arc D)) (X : list D) (x : nat -> Z) (L : nat -> Prop) : Prop :=
  vrel arcR E (2 * m) (arcf x) /\ vrel Rc X (n + 1) (exc x) /\ inrange A x /\
  forall e, (e < 2 * m)%nat -> L e -> cpi p e < 0 -> rc x e = 0.

Lemma saturate_rel u L : forall fuel h E X x M, (length L <= fuel)%nat -> linked nx h L ->
  (forall e, In e L -> (e < 2 * m)%nat /\ sei e = u) -> sat_rel E X x M ->
  exists E' X' x', saturate fuel pD u h E X = Ok (E', X') /\ sat_rel E' X' x' (fun e => M e \/ In e L).
Proof using HPv Hpb HC HP HA H1 Hone HCc HCi HBp HBc.
  induction L as [|e L IH]; intros fuel h E X x M Hf Hl HL HI.
  - cbn [linked] in Hl. subst h. exists E, X, x. split; [destruct fuel; reflexivity|].
    destruct HI as (I1 & I2 & I3 & I4). repeat (split; auto). intros e He [Hd|[]]. auto.
  - cbn [linked] in Hl. destruct Hl as [-> Hl]. destruct fuel as [|fuel]; [simpl in Hf; lia|]. simpl in Hf.
    destruct (HL e (or_introl eq_refl)) as [He Eu]. destruct HI as (I1 & I2 & I3 & I4).
    assert (Hr := rev_lt _ _ He).
    cbn [saturate]. vg I1 a Ea Ra; [auto|].
    destruct (cost_pi_rel pD p x e a HPv Hpb He Ra) as (w & Ew & Rw).
    rewrite <- Eu, Ew. cbn [bind]. rewrite (h_lt _ _ _ HP _ 0 _ _ Rw) by apply HP.
    assert (Ra' := Ra). destruct Ra' as (An & Av & Ac & Acap). cbn [ScaleRefine.arcf a_next a_v a_cost a_cap] in An, Av, Ac, Acap.
    assert (Hstep : exists E' X' x', (if cpi p e <? 0 then
               excess <- vsub X (sei e) (a_cap a) ;;
               excess <- vadd excess (a_v a) (a_cap a) ;;
               edge <- add_cap E (rev_id e) (a_cap a) ;;
               a' <- vget edge e ;;
               edge <- vset edge e (with_cap a' dzero) ;;
               Ok (edge, excess)
             else Ok (E, X)) = Ok (E', X') /\ sat_rel E' X' x' (fun i => M i \/ i = e)).
    { destruct (Z.ltb_spec (cpi p e) 0) as [Hc|Hc].
      - assert (Q1 := I3 e He). assert (Q2 := I3 _ Hr).
        assert (Hr' := inrange_xadd x e (rc x e) I3 He ltac:(lia)).
        destruct (exc_move X x e (rc x e) (a_cap a) I2 He I3 ltac:(lia) Acap) as (X1 & X2 & E1 & E2 & VX).
        rewrite E1. cbn [bind]. rewrite Av, E2. cbn [bind].
        unfold add_cap. vg I1 b Eb Rb; [auto|]. rewrite (vrel_set _ _ _ _ _ _ I1) by auto. cbn [bind].
        assert (Rb' := Rb). destruct Rb' as (_ & _ & _ & Bcap). cbn [ScaleRefine.arcf a_cap] in Bcap.
        assert (Rb2 : arcR (arcf (xadd x e (rc x e)) (rev_id e)) (with_cap b (dadd (a_cap b) (a_cap a)))).
        { eapply arcR_cap; [exact Rb|]. rewrite rc_xadd_rev. apply (h_add _ _ _ HC); auto.
          assert (T := rc_bound _ _ Hr' Hr). rewrite rc_xadd_rev in T. lia. }
        assert (V2 := vrel_upd _ _ _ _ (rev_id e) _ _ I1 Hr Rb2).
        destruct (vrel_get _ _ _ _ e V2 He) as (a' & Ea' & Ra').
        rewrite fup_neq in Ra' by (intros Q; apply (rev_neq e); congruence).
        rewrite Ea'. cbn [bind]. rewrite (vrel_set _ _ _ _ _ _ V2) by auto. cbn [bind].
        eexists _, _, (xadd x e (rc x e)). split; [reflexivity|]. split; [|split; [exact VX|split; [exact Hr'|]]].
        + apply arcs_push'; auto. eapply arcR_cap; [exact Ra'|]. rewrite rc_xadd_eq, Z.sub_diag. apply HC.
        + intros i Hi Hd Hci. destruct (Nat.eq_dec i e) as [->|N1]; [rewrite rc_xadd_eq; lia|].
          destruct (Nat.eq_dec i (rev_id e)) as [->|N2].
          * rewrite (cpi_rev one n A HA) in Hci by auto. lia.
          * rewrite rc_xadd_neq by auto. destruct Hd as [Hd|Hd]; [auto|contradiction].
      - exists E, X, x. split; auto. split; auto. split; auto. split; auto.
        intros i Hi [Hd|Hd] Hci; [auto|]. subst i. lia. }
    destruct Hstep as (E1 & X1 & x1 & HS & HI1). rewrite HS. cbn [bind]. rewrite An, Eu.
    destruct (IH fuel (nx e) E1 X1 x1 (fun i => M i \/ i = e)) as (E' & X' & x' & R1 & R2); auto; [lia| |].
    { intros i Hi. apply HL. simpl; auto. }
    exists E', X', x'. split; auto. destruct R2 as (J1 & J2 & J3 & J4). repeat (split; auto).
    intros i Hi [Hd|[Hd|Hd]] Hci; apply J4; auto.
Qed.

Lemma saturate_all_rel fuel cs x : (2 * m <= fuel)%nat -> c_N cs = (n + 1)%nat -> c_p cs = pD ->
  vec (c_head cs) (n + 1) hd -> vrel arcR (c_edge cs) (2 * m) (arcf x) -> inrange A x ->
  (forall v, (v <= n)%nat -> exc x v = 0) ->
  exists E X x', saturate_all fuel cs = Ok (E, X) /\ vrel arcR E (2 * m) (arcf x') /\ vrel Rc X (n + 1) (exc x') /\ opt 0 p x'.
Proof using HPv Hpb HC HP HA H1 Hone HCc HCi HBp HBc Hlink.
  intros Hf EN EP Hh HE Hr Hcz. unfold saturate_all. rewrite EN, EP.
  destruct (for_each_inv (fun pre (st : list (Arc D) * list D) => exists x', sat_rel (fst st) (snd st) x' (fun e => In (sei e) pre))
    (fun '(edge, excess) u => i <- vget (c_head cs) u ;; saturate fuel pD u i edge excess)
    (seq 0 (n + 1)) (c_edge cs, repeat dzero (n + 1))) as ([E X] & E1 & x' & G1 & G2 & G3 & G4).
  - exists x. split; [exact HE|]. split; [|split; [exact Hr|intros e He []]].
    eapply vrel_ext; [apply vrel_repeat; apply HC|]. intros i Hi. cbv beta. rewrite Hcz by lia. reflexivity.
  - intros pre u post [E X] Ep (x1 & HI). cbn [fst snd] in *.
    assert (Hu : (u <= n)%nat).
    { assert (Hin : In u (seq 0 (n + 1))) by (rewrite Ep; apply in_or_app; simpl; auto). apply in_seq in Hin. lia. }
    rewrite (vec_get _ _ _ _ Hh) by lia. cbn [bind].
    destruct (saturate_rel u (sG A u) fuel (hd u) E X x1 (fun e => In (sei e) pre)) as (E' & X' & x' & R1 & R2); auto.
    { assert (B := sG_len A u). lia. }
    { intros e He. apply in_sG in He. auto. }
    exists (E', X'). split; auto. exists x'. cbn [fst snd]. destruct R2 as (J1 & J2 & J3 & J4). repeat (split; auto).
    intros e He Hi. apply J4; auto. apply in_app_or in Hi. destruct Hi as [Hi|[Hi|[]]]; auto. right. apply in_sG. auto.
  - exists E, X, x'. cbn [fst snd] in *. repeat (split; auto). apply (opt_iff one n A HA). split; auto.
    intros e He Hr'. destruct (Z.le_gt_cases (-0) (cpi p e)); auto. exfalso.
    rewrite G4 in Hr'; auto; [lia|]. apply in_seq. assert (B := sei_le n A HA e He). lia.
Qed.

End Saturate.

(** ** The main loop *)
Notation act := (act A).
Notation Cm := (Cm n).
Notation Phi := (Phi n A).
Notation Bm := (Z.of_nat n + 2).
Notation Kmax := (6 * Z.of_nat n + 7).

Variables (p0 x0 : nat -> Z) (h eps P0 : Z) (epsD : D).
Hypothesis Hh : 0 < h.
Hypothesis Heps : eps = 2 * h.
Hypothesis HepsD : Rp eps epsD.
Hypothesis Hr0 : inrange A x0.
Hypothesis Hcirc0 : forall v, (v <= n)%nat -> exc x0 v = 0.
Hypothesis Hp0 : forall v, (v <= n)%nat -> Z.abs (p0 v) <= P0.
Hypothesis HP0 : P0 + h * Kmax <= P.
Hypothesis HP00 : 0 <= P0.
Hypothesis HnI : Z.of_nat n + 1 <= INT_MAX.
Hypothesis Heps3 : 3 * eps * (Z.of_nat n + 1) <= Bp.

Notation linv := (linv one n A p0 h).
Notation work := (work n A).

Lemma linv_pbd p x rank todo kf : linv p x rank todo kf -> pbd p.
Proof.
  intros HI v Hv. rewrite (li_p _ _ _ _ _ _ _ _ _ _ HI v Hv). assert (K := li_k _ _ _ _ _ _ _ _ _ _ HI v Hv).
  assert (B := Hp0 v Hv). clear - K B HP0 Hh. nia.
Qed.

Record rstR (s : refine_st D) (p x : nat -> Z) (todo : nat -> list nat) (vis : nat -> bool) : Prop := {
  rr_edge : vrel arcR (r_edge s) (2 * m) (arcf x);
  rr_p : vrel Rp (r_p s) (n + 1) p;
  rr_exc : vrel Rc (r_exc s) (n + 1) (exc x);
  rr_inc : vrel Rp (r_inc s) (n + 1) (fun v => p v - p0 v);
  rr_cur : exists cur, vec (r_cur s) (n + 1) cur /\ forall v, (v <= n)%nat -> linked nx (cur v) (todo v);
  rr_vis : vec (r_vis s) (n + 1) vis;
  rr_st : NoDup (r_st s) /\ forall v, In v (r_st s) <-> (v <= n)%nat /\ vis v = true
}.

Lemma push_rel s p x todo vis e d dd : rstR s p x todo vis -> (e < 2 * m)%nat -> inrange A x -> 0 <= d <= rc x e -> Rc d dd ->
  (forall v, (v <= n)%nat -> v <> sei e -> vis v = act x v) -> vis (sei e) = false -> 0 <= d <= exc x (sei e) ->
  exists s' vis', push (sei e) e dd s = Ok s' /\ rstR s' p (xadd x e d) todo vis' /\
    (forall v, (v <= n)%nat -> v <> sei e -> vis' v = act (xadd x e d) v) /\ vis' (sei e) = false.
Proof.
  intros [G1 G2 G3 G4 G5 G6 [G7 G8]] He Hrx Hdr Rd Hv Hu Hd.
  assert (B1 := sei_le n A HA e He). assert (B2 := sej_le n A HA e He). assert (NL := no_loop n A HA e He).
  assert (Hr := rev_lt _ _ He). assert (Hr' := inrange_xadd x e d Hrx He Hdr).
  unfold push. vg G1 a Ea Ra; [auto|]. rewrite (vrel_set _ _ _ _ _ _ G1) by auto. cbn [bind].
  assert (Ra' := Ra). destruct Ra' as (An & Av & Ac & Acap). cbn [ScaleRefine.arcf a_next a_v a_cost a_cap] in An, Av, Ac, Acap.
  assert (Ra2 : arcR (arcf (xadd x e d) e) (with_cap a (dsub (a_cap a) dd))).
  { eapply arcR_cap; [exact Ra|]. rewrite rc_xadd_eq. apply (h_sub _ _ _ HC); auto.
    assert (T := rc_bound _ _ Hr' He). rewrite rc_xadd_eq in T. lia. }
  assert (V1 := vrel_upd _ _ _ _ e _ _ G1 He Ra2).
  unfold add_cap. vg V1 b Eb Rb; [auto|]. rewrite (vrel_set _ _ _ _ _ _ V1) by auto. cbn [bind].
  rewrite fup_neq in Rb by apply rev_neq.
  assert (Rb' := Rb). destruct Rb' as (_ & _ & _ & Bcap). cbn [ScaleRefine.arcf a_cap] in Bcap.
  assert (Rb2 : arcR (arcf (xadd x e d) (rev_id e)) (with_cap b (dadd (a_cap b) dd))).
  { eapply arcR_cap; [exact Rb|]. rewrite rc_xadd_rev. apply (h_add _ _ _ HC); auto.
    assert (T := rc_bound _ _ Hr' Hr). rewrite rc_xadd_rev in T. lia. }
  assert (V4 := arcs_push _ x e d _ _ G1 He Ra2 Rb2).
  destruct (exc_move (r_exc s) x e d dd G3 He Hrx Hdr Rd) as (X1 & X2 & E1 & E2 & V3).
  rewrite E1. cbn [bind]. rewrite Av, E2. cbn [bind].
  vg V3 y Ey Ry; [lia|]. rewrite (vec_get _ _ _ _ G6) by lia. cbn [bind].
  rewrite (h_lt _ _ _ HC 0 _ _ _ (h_0 _ _ _ HC) Ry).
  assert (Eother : forall v, (v <= n)%nat -> v <> sei e -> v <> sej e -> act (xadd x e d) v = act x v).
  { intros v Hv1 N1 N2. unfold ScaleRefine.act. rewrite (exc_xadd _ _ _ _ _ _ _ net) by auto.
    destruct (Nat.eqb_spec (sej e) v); [congruence|]. destruct (Nat.eqb_spec (sei e) v); [congruence|]. f_equal. lia. }
  assert (Ej : exc (xadd x e d) (sej e) = exc x (sej e) + d).
  { rewrite (exc_xadd _ _ _ _ _ _ _ net) by auto. rewrite Nat.eqb_refl. destruct (Nat.eqb_spec (sei e) (sej e)); [contradiction|lia]. }
  destruct (Z.ltb_spec 0 (exc (xadd x e d) (sej e))) as [Hp|Hp]; destruct (vis (sej e)) eqn:Ev; cbn [andb negb].
  - eexists _, vis. split; [reflexivity|]. split; [constructor; auto; split; auto|]. split; auto.
    intros v Hv1 N1. destruct (Nat.eq_dec v (sej e)) as [->|N2]; [|rewrite Eother; auto].
    rewrite Ev. unfold ScaleRefine.act. symmetry. apply Z.ltb_lt. auto.
  - rewrite (vec_set _ _ _ _ _ G6) by lia. cbn [bind].
    eexists _, (fup vis (sej e) true). split; [reflexivity|]. split; [|split].
    + constructor; auto; cbn [r_vis r_st]; [apply vec_upd; auto; lia|]. split.
      * constructor; auto. intros Hi. apply G8 in Hi. destruct Hi. congruence.
      * intros v. cbn [In]. rewrite G8. unfold fup. destruct (Nat.eqb_spec v (sej e)) as [->|N]; intuition congruence.
    + intros v Hv1 N1. destruct (Nat.eq_dec v (sej e)) as [->|N2].
      * rewrite fup_eq. symmetry. apply Z.ltb_lt; auto.
      * rewrite fup_neq by auto. rewrite Eother; auto.
    + rewrite fup_neq by auto. auto.
  - exfalso. rewrite Hv in Ev by auto. unfold ScaleRefine.act in Ev. apply Z.ltb_lt in Ev. lia.
  - eexists _, vis. split; [reflexivity|]. split; [constructor; auto; split; auto|]. split; auto.
    intros v Hv1 N1. destruct (Nat.eq_dec v (sej e)) as [->|N2]; [|rewrite Eother; auto].
    rewrite Ev. unfold ScaleRefine.act. symmetry. apply Z.ltb_ge. auto.
Qed.

(** CostScaling.cpp:55-63 *)
Lemma scan_rel u p rank : (u <= n)%nat -> pbd p -> forall L fuel s x todo vis, (length L <= fuel)%nat ->
  rstR s p x todo vis -> rinv h p x rank todo -> todo u = L -> 0 < exc x u ->
  (forall v, (v <= n)%nat -> v <> u -> vis v = act x v) -> vis u = false ->
  (forall v, (v <= n)%nat -> exc x v < 0 -> p v = p0 v) ->
  exists b s' x' todo' vis', scan fuel u s = Ok (b, s') /\ rstR s' p x' todo' vis' /\ rinv h p x' rank todo' /\
    (forall v, (v <= n)%nat -> v <> u -> vis' v = act x' v) /\ vis' u = false /\
    (forall v, (v <= n)%nat -> exc x' v < 0 -> p v = p0 v) /\
    Bm * Cm todo' + Phi x' rank + (if (b : bool) then 1 else 0) <= Bm * Cm todo + Phi x rank /\
    (if b then exc x' u = 0 else todo' u = [] /\ 0 < exc x' u).
Proof.
  intros Hu Hpb. induction L as [|e L IH]; intros fuel s x todo vis Hf HS HI Et Hx Hv Hvu Hneg.
  - destruct (rr_cur _ _ _ _ _ HS) as (cur & C1 & C2). assert (Cu := C2 u Hu). rewrite Et in Cu. cbn [linked] in Cu.
    exists false, s, x, todo, vis.
    assert (E : scan fuel u s = Ok (false, s)).
    { destruct fuel; cbn [scan]; rewrite (vec_get _ _ _ _ C1) by lia; cbn [bind]; rewrite Cu; reflexivity. }
    rewrite E. repeat (split; auto). lia.
  - destruct fuel as [|fuel]; [simpl in Hf; lia|]. simpl in Hf.
    destruct (rr_cur _ _ _ _ _ HS) as (cur & C1 & C2). assert (Cu := C2 u Hu). rewrite Et in Cu. cbn [linked] in Cu.
    destruct Cu as [Cu Cl].
    assert (Hin : In e (sG A u)).
    { destruct (ri_sub _ _ _ _ _ _ _ _ HI u Hu) as (pre & Ep). rewrite Ep, Et. apply in_or_app. simpl; auto. }
    apply in_sG in Hin. destruct Hin as [He Eu].
    cbn [scan]. rewrite (vec_get _ _ _ _ C1) by lia. cbn [bind]. rewrite Cu.
    assert (VE := rr_edge _ _ _ _ _ HS). vg VE a Ea Ra; [auto|].
    destruct (cost_pi_rel (r_p s) p x e a (rr_p _ _ _ _ _ HS) Hpb He Ra) as (w & Ew & Rw). rewrite Eu in Ew.
    rewrite Ew. cbn [bind]. rewrite (h_lt _ _ _ HP _ 0 _ _ Rw) by apply HP.
    assert (Ra' := Ra). destruct Ra' as (An & Av & Ac & Acap). cbn [ScaleRefine.arcf a_next a_v a_cost a_cap] in An, Av, Ac, Acap.
    assert (Hall := proj1 (proj1 (opt_iff one n A HA h p x) (ri_opt _ _ _ _ _ _ _ _ HI))).
    assert (Hrange := Hall e He).
    assert (VX := rr_exc _ _ _ _ _ HS).
    destruct (Z.ltb_spec (cpi p e) 0) as [Hc|Hc].
    + vg VX xu Exu0 Rxu; [lia|].
      assert (Rd := h_min _ _ HC _ _ _ _ Acap Rxu).
      set (dd := dmin (a_cap a) xu) in *. set (d := Z.min (rc x e) (exc x u)) in *.
      assert (Ed : d = Z.min (rc x e) (exc x u)) by reflexivity. clearbody d dd.
      destruct (push_rel s p x todo vis e d dd) as (s1 & vis1 & E1 & R1 & V1 & V2); auto; try (rewrite ?Eu; auto; lia).
      rewrite Eu in E1, V1, V2. rewrite E1. cbn [bind].
      assert (VX1 := rr_exc _ _ _ _ _ R1). vg VX1 xu1 Exu1 Rxu1; [lia|].
      rewrite (h_eq _ _ _ HC _ 0 _ _ Rxu1) by apply HC.
      assert (NL := no_loop n A HA e He).
      assert (Exu : exc (xadd x e d) u = exc x u - d).
      { rewrite (exc_xadd _ _ _ _ _ _ _ net) by auto. rewrite Eu, Nat.eqb_refl. destruct (Nat.eqb_spec (sej e) u); [congruence|lia]. }
      assert (I1 : rinv h p (xadd x e d) rank todo) by (apply rinv_push; auto; lia).
      assert (Hneg1 : forall v, (v <= n)%nat -> exc (xadd x e d) v < 0 -> p v = p0 v).
      { intros v Hv1 Hn. apply Hneg; auto. rewrite (exc_xadd _ _ _ _ _ _ _ net) in Hn by auto. rewrite Eu in Hn.
        destruct (Nat.eqb_spec (sej e) v), (Nat.eqb_spec u v); subst; lia. }
      destruct (Z.eqb_spec (exc (xadd x e d) u) 0) as [Ez|Ez].
      * assert (d = exc x u) by lia.
        exists true, s1, (xadd x e d), todo, vis1. repeat (split; auto).
        assert (Ha : adm one A p x e) by (split; lia).
        assert (Rk := ri_rank _ _ _ _ _ _ _ _ HI e He Ha).
        assert (Q := Phi_return one n A HA x rank e He Rk). rewrite Eu in Q. specialize (Q ltac:(lia)).
        replace d with (exc x u). lia.
      * destruct (rr_cur _ _ _ _ _ R1) as (cur1 & D1 & D2). rewrite (vec_set _ _ _ _ _ D1) by lia. cbn [bind].
        assert (Hd2 : d = rc x e) by lia. rewrite An.
        destruct (IH fuel (with_cur s1 (upd (r_cur s1) u (nx e))) (xadd x e d) (fup todo u L) vis1)
          as (b & s' & x' & todo' & vis' & Q1 & Q2 & Q3 & Q4 & Q5 & Q6 & Q7 & Q8); auto; try lia.
        { destruct R1 as [T1 T2 T3 T4 T5 T6 T7]. constructor; auto. cbn [with_cur r_cur].
          exists (fup cur1 u (nx e)). split; [apply vec_upd; auto; lia|].
          intros v Hv1. unfold fup. destruct (Nat.eqb_spec v u); auto. }
        { apply rinv_next with e; auto. intros [Z1 _]. rewrite rc_xadd_eq in Z1. lia. }
        { apply fup_eq. }
        exists b, s', x', todo', vis'. repeat (split; auto).
        rewrite (Cm_next n todo u e L Hu Et) in Q7.
        assert (PA := Phi_add one n A HA x rank e d He (ri_rk_le _ _ _ _ _ _ _ _ HI)). rewrite Eu in PA. specialize (PA ltac:(lia)). lia.
    + cbn [bind]. vg VX xu Exu0 Rxu; [lia|]. rewrite (h_eq _ _ _ HC _ 0 _ _ Rxu) by apply HC.
      destruct (Z.eqb_spec (exc x u) 0) as [Ez|Ez]; [lia|].
      rewrite (vec_set _ _ _ _ _ C1) by lia. cbn [bind]. rewrite An.
      destruct (IH fuel (with_cur s (upd (r_cur s) u (nx e))) x (fup todo u L) vis)
        as (b & s' & x' & todo' & vis' & Q1 & Q2 & Q3 & Q4 & Q5 & Q6 & Q7 & Q8); auto; try lia.
      { destruct HS as [T1 T2 T3 T4 T5 T6 T7]. constructor; auto. cbn [with_cur r_cur].
        exists (fup cur u (nx e)). split; [apply vec_upd; auto; lia|].
        intros v Hv1. unfold fup. destruct (Nat.eqb_spec v u); auto. }
      { apply rinv_next with e; auto. intros [_ Z1]. lia. }
      { apply fup_eq. }
      exists b, s', x', todo', vis'. repeat (split; auto).
      rewrite (Cm_next n todo u e L Hu Et) in Q7. lia.
Qed.

Variable head : list (option nat).
Hypothesis Hhead : vec head (n + 1) hd.

Lemma modify_rel fuel s u p x rank todo kf vis : (2 * m <= fuel)%nat -> (u <= n)%nat ->
  rstR s p x todo vis -> linv p x rank todo kf -> 0 < exc x u -> kf u < Kmax ->
  (forall v, (v <= n)%nat -> v <> u -> vis v = act x v) -> vis u = false ->
  exists s' p' x' rank' todo' kf', modify fuel epsD head u s = Ok s' /\ rstR s' p' x' todo' (act x') /\
    linv p' x' rank' todo' kf' /\ work x' rank' todo' kf' < work x rank todo kf.
Proof.
  intros Hf Hu HS HI Hx Hk Hv Hvu. unfold modify.
  assert (VX := rr_exc _ _ _ _ _ HS). vg VX xu Exu0 Rxu; [lia|].
  rewrite (h_lt _ _ _ HC 0 _ _ _ (h_0 _ _ _ HC) Rxu).
  assert (Ex : (0 <? exc x u) = true) by (apply Z.ltb_lt; auto). rewrite Ex. cbn [assert_ bind].
  assert (HI' := HI). destruct HI' as [I1 I2 I3 I4].
  assert (Hlen : (length (todo u) <= fuel)%nat).
  { destruct (ri_sub _ _ _ _ _ _ _ _ I1 u Hu) as (pre & E). assert (B := sG_len A u). rewrite E, app_length in B. lia. }
  assert (Hpb := linv_pbd _ _ _ _ _ HI).
  destruct (scan_rel u p rank Hu Hpb (todo u) fuel s x todo vis Hlen HS I1 eq_refl Hx Hv Hvu I4)
    as (b & s1 & x1 & todo1 & vis1 & Q1 & Q2 & Q3 & Q4 & Q5 & Q6 & Q7 & Q8).
  rewrite Q1. cbn [bind]. destruct b.
  - exists s1, p, x1, rank, todo1, kf. split; [reflexivity|]. split; [|split].
    + destruct Q2 as [T1 T2 T3 T4 T5 T6 [T7 T8]].
      assert (Ea : forall v, (v <= n)%nat -> vis1 v = act x1 v).
      { intros v Hv1. destruct (Nat.eq_dec v u) as [->|N]; auto. rewrite Q5. unfold ScaleRefine.act. rewrite Q8. reflexivity. }
      constructor; auto; [eapply vec_ext; [exact T6|intros i Hi; apply Ea; lia]|].
      split; auto. intros v. rewrite T8. split; intros [Z1 Z2]; split; auto; [rewrite <- Ea|rewrite Ea]; auto.
    + constructor; auto.
    + unfold ScaleRefine.work. lia.
  - destruct Q8 as [Q8 Q9]. assert (VX1 := rr_exc _ _ _ _ _ Q2). vg VX1 xu1 Exu1 Rxu1; [lia|].
    rewrite (h_lt _ _ _ HC 0 _ _ _ (h_0 _ _ _ HC) Rxu1).
    assert (Ex1 : (0 <? exc x1 u) = true) by (apply Z.ltb_lt; auto). rewrite Ex1. cbn [assert_ bind].
    destruct Q2 as [T1 T2 T3 T4 T5 T6 [T7 T8]].
    assert (Rh : Rp h (dhalf epsD)) by (apply (h_half _ _ _ HP); rewrite <- Heps; exact HepsD).
    assert (L1 : linv p x1 rank todo1 kf) by (constructor; auto).
    assert (Hk0 := I3 u Hu).
    set (kf' := fup kf u (kf u + 1)).
    assert (LI : linv (fup p u (p u + h)) x1 (rerank n rank u) (fup todo1 u (sG A u)) kf').
    { constructor.
      - apply rinv_relabel; auto.
      - intros v Hv1. unfold kf', fup. destruct (Nat.eqb_spec v u) as [->|N]; [rewrite I2 by auto; lia|auto].
      - intros v Hv1. unfold kf', fup. destruct (Nat.eqb_spec v u) as [->|N]; [lia|auto].
      - intros v Hv1 Hn. unfold fup. destruct (Nat.eqb_spec v u) as [->|N]; [lia|auto]. }
    assert (Hpb' := linv_pbd _ _ _ _ _ LI u Hu). rewrite fup_eq in Hpb'.
    assert (Hpu := I2 u Hu). assert (0 <= one * C) by nia.
    unfold relabel, vadd. vg T2 pu Epu Rpu; [lia|]. rewrite (vrel_set _ _ _ _ _ _ T2) by lia. cbn [bind].
    vg T4 iu Eiu Riu; [lia|]. rewrite (vrel_set _ _ _ _ _ _ T4) by lia. cbn [bind].
    rewrite (vec_get _ _ _ _ Hhead) by lia. cbn [bind r_cur r_vis r_edge r_p r_exc r_inc r_st].
    destruct T5 as (cur & T5 & T5'). rewrite (vec_set _ _ _ _ _ T5) by lia. cbn [bind].
    rewrite (vec_set _ _ _ _ _ T6) by lia. cbn [bind].
    assert (Rpu' : Rp (p u + h) (dadd pu (dhalf epsD))) by (apply (h_add _ _ _ HP); auto; lia).
    assert (Riu' : Rp (p u - p0 u + h) (dadd iu (dhalf epsD))).
    { apply (h_add _ _ _ HP); auto. assert (h * (kf u + 1) <= h * Kmax) by (apply Z.mul_le_mono_nonneg_l; lia). nia. }
    eexists _, (fup p u (p u + h)), x1, (rerank n rank u), (fup todo1 u (sG A u)), kf'.
    split; [reflexivity|]. split; [|split; [exact LI|]].
    + constructor; cbn [r_edge r_p r_exc r_inc r_cur r_vis r_st]; auto.
      * apply vrel_upd; auto; lia.
      * eapply vrel_ext; [apply vrel_upd; [exact T4|lia|exact Riu']|]. intros i Hi. unfold fup.
        destruct (Nat.eqb_spec i u) as [->|N]; [lia|reflexivity].
      * exists (fup cur u (hd u)). split; [apply vec_upd; auto; lia|].
        intros v Hv1. unfold fup. destruct (Nat.eqb_spec v u) as [->|N]; auto.
      * eapply vec_ext; [apply vec_upd; [exact T6|lia]|]. intros i Hi. unfold fup.
        destruct (Nat.eqb_spec i u) as [->|N]; [unfold ScaleRefine.act; symmetry; apply Z.ltb_lt; auto|apply Q4; auto; lia].
      * split.
        -- constructor; auto. intros Hi. apply T8 in Hi. destruct Hi; congruence.
        -- intros v. cbn [In]. rewrite T8. split.
           ++ intros [<-|[Z1 Z2]]; [split; auto; unfold ScaleRefine.act; apply Z.ltb_lt; auto|]. split; auto.
              rewrite <- Q4; auto. intros ->. congruence.
           ++ intros [Z1 Z2]. destruct (Nat.eq_dec v u) as [->|N]; auto. right. split; auto. rewrite Q4; auto.
    + assert (ER : Rm n kf' = Rm n kf - 1).
      { unfold Rm. rewrite (zsum_point nodes u (fun v => Kmax - kf v)).
        - unfold kf'. rewrite fup_eq. lia.
        - apply seq_NoDup.
        - apply in_nodes; auto.
        - intros k _ Hk2. unfold kf'. rewrite fup_neq by auto. reflexivity. }
      assert (C1 := Cm_le _ _ _ _ _ _ _ _ (li_r _ _ _ _ _ _ _ _ _ _ LI)). assert (P1 := Phi_le _ _ _ _ _ _ _ _ (li_r _ _ _ _ _ _ _ _ _ _ LI)).
      assert (C0 := Cm_nonneg n todo). assert (P0' := Phi_nonneg n A x rank). assert (R0 := Rm_nonneg _ _ _ _ _ _ _ _ _ _ LI).
      unfold ScaleRefine.work. rewrite ER. clear - C1 P1 C0 P0'. nia.
Qed.

(** CostScaling.cpp:70-78 *)
Lemma refine_loop_rel fuel : (2 * m <= fuel)%nat -> forall k s p x rank todo kf, work x rank todo kf < Z.of_nat k ->
  rstR s p x todo (act x) -> linv p x rank todo kf ->
  exists b s', refine_loop fuel k epsD (n + 1) head s = Ok (b, s') /\ (opt eps p0 x0 -> b = true) /\
    (b = true -> exists p' x', vrel arcR (r_edge s') (2 * m) (arcf x') /\ vrel Rp (r_p s') (n + 1) p' /\ opt h p' x' /\
       (forall v, (v <= n)%nat -> exc x' v = 0) /\ (forall v, (v <= n)%nat -> Z.abs (p' v) <= P0 + h * Kmax)).
Proof.
  intros Hf. induction k as [|k IH]; intros s p x rank todo kf Hk HS HI.
  - exfalso. assert (R0 := Rm_nonneg _ _ _ _ _ _ _ _ _ _ HI). assert (C0 := Cm_nonneg n todo). assert (P0' := Phi_nonneg n A x rank).
    unfold ScaleRefine.work in Hk. assert (0 <= Bm * Cm todo) by (apply Z.mul_nonneg_nonneg; lia).
    match type of Hk with ?a * Rm n kf + _ + _ < _ => assert (0 <= a * Rm n kf) by (apply Z.mul_nonneg_nonneg; auto; clear; nia) end. lia.
  - cbn [refine_loop]. destruct (rr_st _ _ _ _ _ HS) as [S1 S2]. destruct (r_st s) as [|u st] eqn:Es.
    + exists true, s. split; [reflexivity|]. split; [reflexivity|]. intros _. exists p, x. split; [apply (rr_edge _ _ _ _ _ HS)|]. split; [apply (rr_p _ _ _ _ _ HS)|].
      split; [apply (ri_opt _ _ _ _ _ _ _ _ (li_r _ _ _ _ _ _ _ _ _ _ HI))|]. split.
      * apply (all_zero one n A HA). intros v Hv.
        destruct (Z.le_gt_cases (exc x v) 0); auto. exfalso. apply (S2 v). split; auto. unfold ScaleRefine.act. apply Z.ltb_lt. lia.
      * intros v Hv. rewrite (li_p _ _ _ _ _ _ _ _ _ _ HI v Hv). assert (K := li_k _ _ _ _ _ _ _ _ _ _ HI v Hv).
        assert (B := Hp0 v Hv). nia.
    + destruct (proj1 (S2 u) (or_introl eq_refl)) as [Hu Hact]. unfold ScaleRefine.act in Hact. apply Z.ltb_lt in Hact.
      rewrite (vec_set _ _ _ _ _ (rr_vis _ _ _ _ _ HS)) by lia. cbn [bind r_inc].
      assert (VI := rr_inc _ _ _ _ _ HS). vg VI iu Eiu Riu; [lia|].
      assert (R3 : Rp (eps * 3 * Z.of_nat (n + 1)) (dmuli (dmuli epsD 3) (Z.of_nat (n + 1)))).
      { assert (0 < eps) by lia. apply (h_mul _ _ _ HP); [|unfold INT_MIN, INT_MAX in *; lia|].
        - apply (h_mul _ _ _ HP); [exact HepsD|unfold INT_MIN, INT_MAX; lia|nia].
        - rewrite Z.abs_eq by nia. replace (Z.of_nat (n + 1)) with (Z.of_nat n + 1) by lia. lia. }
      rewrite (h_lt _ _ _ HP _ _ _ _ R3 Riu).
      assert (Hk0 := li_k _ _ _ _ _ _ _ _ _ _ HI u Hu). assert (Ep := li_p _ _ _ _ _ _ _ _ _ _ HI u Hu).
      destruct (Z.ltb_spec (eps * 3 * Z.of_nat (n + 1)) (p u - p0 u)) as [Hbig|Hsm].
      { eexists false, _. split; [reflexivity|]. split; [|discriminate]. intros Ho.
        assert (Hr := raised one n A HA p0 x0 h eps Hh Heps Hcirc0 _ _ _ _ _ u Ho HI Hu Hact). exfalso. rewrite Ep in Hbig. clear - Hbig Hr Hk0 Hh Heps. nia. }
      assert (Hku : kf u < Kmax) by (rewrite Ep in Hsm; clear - Hsm Hk0 Hh Heps; nia).
      destruct (modify_rel fuel (mkR (r_edge s) (r_p s) (r_exc s) (r_inc s) (r_cur s) (upd (r_vis s) u false) st) u p x rank todo kf (fup (act x) u false))
        as (s1 & p1 & x1 & rank1 & todo1 & kf1 & M1 & M2 & M3 & M4); auto.
      { destruct HS as [T1 T2 T3 T4 T5 T6 T7]. constructor; cbn [r_edge r_p r_exc r_inc r_cur r_vis r_st]; auto.
        - apply vec_upd; auto; lia.
        - inversion S1; subst. split; auto. intros v. unfold fup. destruct (Nat.eqb_spec v u) as [->|N].
          + split; [intros; contradiction|intros [_ Q]; discriminate].
          + rewrite <- S2. cbn [In]. intuition congruence. }
      { intros v Hv N. apply fup_neq; auto. }
      { apply fup_eq. }
      rewrite M1. cbn [bind]. apply (IH s1 p1 x1 rank1 todo1 kf1); auto. lia.
Qed.

Lemma init_stack_rel X x : vrel Rc X (n + 1) (exc x) -> exists vis st,
  init_stack X (repeat false (n + 1)) (n + 1) = Ok (vis, st) /\ vec vis (n + 1) (act x) /\
  NoDup st /\ forall v, In v st <-> (v <= n)%nat /\ act x v = true.
Proof.
  intros HX. unfold init_stack.
  destruct (for_each_inv (fun pre (st : list bool * list nat) =>
      vec (fst st) (n + 1) (fun v => if in_dec Nat.eq_dec v pre then act x v else false) /\
      NoDup (snd st) /\ forall v, In v (snd st) <-> In v pre /\ act x v = true)
    (fun '(vis, st) u => y <- vget X u ;; if dlt dzero y then vis <- vset vis u true ;; Ok (vis, u :: st) else Ok (vis, st))
    (seq 0 (n + 1)) (repeat false (n + 1), [])) as ([vis st] & E & G1 & G2 & G3).
  - cbn [fst snd]. split; [eapply vec_ext; [apply vec_repeat|reflexivity]|]. split; [constructor|]. intros v. cbn [In]. tauto.
  - intros pre u post [vis st] Ep (G1 & G2 & G3). cbn [fst snd] in *.
    assert (Hu : (u <= n)%nat).
    { assert (Hin : In u (seq 0 (n + 1))) by (rewrite Ep; apply in_or_app; simpl; auto). apply in_seq in Hin. lia. }
    assert (Hnp : ~ In u pre).
    { assert (ND := seq_NoDup (n + 1) 0). rewrite Ep in ND. apply NoDup_remove_2 in ND. intros Hi. apply ND, in_or_app; auto. }
    vg HX y Ey Ry; [lia|]. rewrite (h_lt _ _ _ HC 0 _ _ _ (h_0 _ _ _ HC) Ry).
    assert (Hcase : forall v, v <> u -> (if in_dec Nat.eq_dec v pre then act x v else false) =
       (if in_dec Nat.eq_dec v (pre ++ [u]) then act x v else false)).
    { intros v N. destruct (in_dec Nat.eq_dec v pre) as [I1|I1], (in_dec Nat.eq_dec v (pre ++ [u])) as [I2|I2]; auto; exfalso.
      - apply I2, in_or_app; auto.
      - apply in_app_or in I2. destruct I2 as [I2|[I2|[]]]; congruence. }
    assert (Huu : (if in_dec Nat.eq_dec u (pre ++ [u]) then act x u else false) = act x u).
    { destruct (in_dec Nat.eq_dec u (pre ++ [u])) as [|I]; auto. exfalso. apply I, in_or_app. simpl; auto. }
    fold (act x u). destruct (act x u) eqn:Ea.
    + rewrite (vec_set _ _ _ _ _ G1) by lia. cbn [bind]. eexists (_, _). split; [reflexivity|]. cbn [fst snd]. split; [|split].
      * eapply vec_ext; [apply vec_upd; [exact G1|lia]|]. intros i Hi. unfold fup.
        destruct (Nat.eqb_spec i u) as [->|N]; [rewrite Ea, Huu; auto|auto].
      * constructor; auto. rewrite G3. tauto.
      * intros v. cbn [In]. rewrite G3, in_app_iff. cbn [In]. intuition (subst; auto).
    + exists (vis, st). split; [reflexivity|]. cbn [fst snd]. split; [|split]; auto.
      * eapply vec_ext; [exact G1|]. intros i Hi. cbv beta. destruct (Nat.eq_dec i u) as [->|N]; [|auto].
        rewrite Ea, Huu. destruct (in_dec Nat.eq_dec u pre); [contradiction|auto].
      * intros v. rewrite G3, in_app_iff. cbn [In]. intuition (subst; try congruence; auto).
  - exists vis, st. cbn [fst snd] in *. split; auto. split; [|split; auto].
    + eapply vec_ext; [exact G1|]. intros i Hi. cbv beta. destruct (in_dec Nat.eq_dec i (seq 0 (n + 1))) as [|I]; auto.
      exfalso. apply I, in_seq. lia.
    + intros v. rewrite G3, in_seq. intuition lia.
Qed.

Theorem refine_rel fuel cs : refine_fuel n A <= Z.of_nat fuel -> c_N cs = (n + 1)%nat -> c_eps cs = epsD -> c_head cs = head ->
  vrel Rp (c_p cs) (n + 1) p0 -> vrel arcR (c_edge cs) (2 * m) (arcf x0) ->
  exists b cs', refine fuel cs = Ok (b, cs') /\ (opt eps p0 x0 -> b = true) /\
    (b = true -> c_N cs' = c_N cs /\ c_eps cs' = epsD /\ c_head cs' = head /\ c_total cs' = c_total cs /\
     exists p' x', vrel Rp (c_p cs') (n + 1) p' /\ vrel arcR (c_edge cs') (2 * m) (arcf x') /\ opt h p' x' /\
       (forall v, (v <= n)%nat -> exc x' v = 0) /\ (forall v, (v <= n)%nat -> Z.abs (p' v) <= P0 + h * Kmax)).
Proof.
  intros Hf EN Ee Eh HPv HE. unfold refine. rewrite EN, Ee, Eh.
  assert (Hm : (2 * m <= fuel)%nat).
  { unfold refine_fuel in Hf. assert (2 * Z.of_nat m <= Z.of_nat fuel) by (clear - Hf; nia). lia. }
  assert (Hpb0 : pbd p0) by (intros v Hv; assert (B := Hp0 v Hv); nia).
  destruct (saturate_all_rel (c_p cs) p0 HPv Hpb0 fuel cs x0) as (E & X & x1 & S1 & S2 & S3 & S4); auto.
  { rewrite Eh; auto. }
  rewrite S1. cbn [bind]. destruct (init_stack_rel X x1 S3) as (vis & st & T1 & T2 & T3 & T4). rewrite T1. cbn [bind].
  assert (LI : linv p0 x1 (fun v => v) (sG A) (fun _ => 0)).
  { constructor.
    - apply rinv_init; auto. lia.
    - intros; lia.
    - intros; lia.
    - auto. }
  destruct (refine_loop_rel fuel Hm fuel (mkR E (c_p cs) X (repeat dzero (n + 1)) head vis st) p0 x1 (fun v => v) (sG A) (fun _ => 0))
    as (b & s' & R1 & R2 & R3); auto.
  - assert (C1 := Cm_le _ _ _ _ _ _ _ _ (li_r _ _ _ _ _ _ _ _ _ _ LI)). assert (P1 := Phi_le _ _ _ _ _ _ _ _ (li_r _ _ _ _ _ _ _ _ _ _ LI)).
    assert (ER : Rm n (fun _ => 0) <= (Z.of_nat n + 1) * Kmax).
    { unfold Rm. eapply Z.le_trans; [apply (zsum_const_le _ _ Kmax); intros; lia|]. rewrite nodes_len. lia. }
    unfold ScaleRefine.work, refine_fuel in *.
    match type of Hf with ?a * _ + _ + _ + 1 <= _ => set (Am := a) in *; assert (0 < Am) by (unfold Am; clear; nia) end.
    assert (Am * Rm n (fun _ => 0) <= Am * ((Z.of_nat n + 1) * Kmax)) by (apply Z.mul_le_mono_nonneg_l; lia).
    match type of C1 with _ <= ?c => assert (Bm * Cm (sG A) <= Bm * c) by (apply Z.mul_le_mono_nonneg_l; lia) end. lia.
  - constructor; cbn [r_edge r_p r_exc r_inc r_cur r_vis r_st]; auto.
    + eapply vrel_ext; [apply vrel_repeat; apply HP|]. intros i Hi. cbv beta. lia.
    + exists hd. split; auto.
  - rewrite R1. cbn [bind]. eexists b, _. split; [reflexivity|]. split; auto. cbn [c_N c_eps c_head c_total c_p c_edge].
    intros Eb. destruct (R3 Eb) as (p' & x' & Q1 & Q2 & Q3 & Q4 & Q5). repeat (split; auto). exists p', x'. auto.
Qed.

End Refine.
