(** * Expressions over an ordered group

    A third number type between the group and the integers: terms built by the operations of
    the code from the values of the cost functions.  They are compared by their values in the
    group; the integers of GroupSigns.v agree with any given comparison if they are chosen well. *)
From Verif Require Import Base Data ProblemDefine GroupSpec GroupSigns EvHom.
Local Open Scope Z_scope.

Inductive expr (G : Type) :=
| EZero
| ELeaf (x : G)
| EAdd (a b : expr G)
| ESub (a b : expr G)
| EOpp (a : expr G)
| EMul (a : expr G) (w : Z).
Arguments EZero {G}. Arguments ELeaf {G}. Arguments EAdd {G}. Arguments ESub {G}. Arguments EOpp {G}. Arguments EMul {G}.

Section Expr.
Context {G : Type} {ops : DataOps G} (HG : ordered_group ops).

Fixpoint evG (e : expr G) : G :=
  match e with
  | EZero => dzero | ELeaf x => x | EAdd a b => dadd (evG a) (evG b) | ESub a b => dsub (evG a) (evG b)
  | EOpp a => dopp (evG a) | EMul a w => dmuli (evG a) w
  end.

Fixpoint evZ (p : G -> Z) (e : expr G) : Z :=
  match e with
  | EZero => 0 | ELeaf x => p x | EAdd a b => evZ p a + evZ p b | ESub a b => evZ p a - evZ p b
  | EOpp a => - evZ p a | EMul a w => evZ p a * w
  end.

Definition expr_ops : DataOps (expr G) := {|
  dzero := EZero;
  done := ELeaf done;
  dadd := EAdd;
  dsub := ESub;
  dopp := EOpp;
  dmuli := EMul;
  dhalf := fun a => a; (* not used *)
  dlt := fun a b => dlt (evG a) (evG b);
  dle := fun a b => dle (evG a) (evG b);
  deq := fun a b => deq (evG a) (evG b)
|}.

(** ** An expression as a form *)
Fixpoint cf (e : expr G) : form :=
  match e with
  | EZero => [] | ELeaf x => [(1, x)]
  | EAdd a b => cf a ++ cf b
  | ESub a b => cf a ++ scale (-1) (cf b)
  | EOpp a => scale (-1) (cf a) | EMul a w => scale w (cf a)
  end.

Lemma evG_form e : evG e = valG (cf e).
Proof.
  induction e as [|x|a IHa b IHb|a IHa b IHb|a IHa|a IHa w]; cbn [cf evG].
  - reflexivity.
  - cbn [valG]. rewrite (g_zero_r HG), (g_mul_1 HG). reflexivity.
  - rewrite (valG_app HG), <- IHa, <- IHb. reflexivity.
  - rewrite (valG_app HG), (valG_scale HG), <- IHa, <- IHb, (og_sub _ HG), (g_opp_mul HG). reflexivity.
  - rewrite (valG_scale HG), <- IHa, (g_opp_mul HG). reflexivity.
  - rewrite (valG_scale HG), <- IHa. reflexivity.
Qed.

Lemma evZ_form p e : evZ p e = valZ p (cf e).
Proof.
  induction e as [|x|a IHa b IHb|a IHa b IHb|a IHa|a IHa w]; cbn [cf evZ]; rewrite ?valZ_app, ?valZ_scale, <- ?IHa, <- ?IHb; cbn [valZ]; ring.
Qed.

(** ** Good integers *)
Definition good (t : list form) (p : G -> Z) : Prop := 0 < p done /\ keeps t p.

Lemma good_join t t' : exists t'', forall p, good t'' p -> good t p /\ good t' p.
Proof.
  exists (t ++ t'). intros p (H2 & H3). unfold good. repeat split; auto; apply H3; apply in_or_app; auto.
Qed.

Lemma good_exists t : exists p, good t p.
Proof.
  destruct (keeps_exists HG ([(1, done)] :: t)) as (p & Hp). exists p. split.
  - assert (X := Hp [(1, done)] (or_introl eq_refl)). cbn [valG valZ] in X. rewrite (g_zero_r HG), (g_mul_1 HG) in X. apply proj2 in X. specialize (X (og_one _ HG)). lia.
  - intros L HL. apply (Hp L (or_intror HL)).
Qed.

Notation evp := (ev good).

Lemma evp_exists P : evp P -> exists p, P p /\ 0 < p done.
Proof. intros [t H]. destruct (good_exists t) as [p Hp]. exists p. split; [auto|apply Hp]. Qed.

Lemma evp_1 (P Q : (G -> Z) -> Prop) : evp P -> (forall p, P p -> Q p) -> evp Q.
Proof. exact (ev_1 good P Q). Qed.
Lemma evp_2 (P Q S : (G -> Z) -> Prop) : evp P -> evp Q -> (forall p, P p -> Q p -> S p) -> evp S.
Proof. exact (ev_2 good good_join P Q S). Qed.
Lemma evp_all (P : (G -> Z) -> Prop) : (forall p, P p) -> evp P.
Proof. exact (ev_all good [] P). Qed.
Lemma evp_list {X} (P : X -> (G -> Z) -> Prop) l : (forall x, In x l -> evp (P x)) -> evp (fun p => forall x, In x l -> P x p).
Proof.
  induction l as [|x l IH]; intros H; [apply evp_all; contradiction|].
  eapply evp_2; [exact (H x (or_introl eq_refl))|exact (IH (fun y Hy => H y (or_intror Hy)))|]. cbv beta. intros p A B y [<-|Hy]; auto.
Qed.
Lemma evp_range (P : Z -> (G -> Z) -> Prop) l u : (forall x, l <= x <= u -> evp (P x)) -> evp (fun p => forall x, l <= x <= u -> P x p).
Proof.
  intros H. eapply evp_1; [apply (evp_list (fun k => P (l + Z.of_nat k)) (seq 0 (Z.to_nat (u - l + 1))))|].
  - intros k Hk. apply in_seq in Hk. apply H. lia.
  - cbv beta. intros p X x Hx. specialize (X (Z.to_nat (x - l))). replace (l + Z.of_nat (Z.to_nat (x - l))) with x in X by lia. apply X. apply in_seq. lia.
Qed.

Lemma sign_kept e : evp (fun p => 0 < evZ p e <-> dlt dzero (evG e) = true).
Proof.
  exists [cf e]. intros p (H2 & H3). rewrite (evZ_form p e), (evG_form e). exact (H3 (cf e) (or_introl eq_refl)).
Qed.

Lemma lt_kept a b : evp (fun p => evZ p a < evZ p b <-> dlt (evG a) (evG b) = true).
Proof.
  eapply evp_1; [exact (sign_kept (ESub b a))|]. cbn [evZ evG]. intros p H. cbn [evZ evG] in H. rewrite (g_sub_pos HG) in H. rewrite <- H. lia.
Qed.

Lemma expr_lt a b : evp (fun p => @dlt Z (exact_ops (p done)) (evZ p a) (evZ p b) = @dlt (expr G) expr_ops a b).
Proof.
  eapply evp_1; [exact (lt_kept a b)|]. cbv beta. intros p H. cbn [dlt exact_ops expr_ops]. destruct (dlt (evG a) (evG b)); [apply Z.ltb_lt; tauto|apply Z.ltb_ge].
  apply Z.nlt_ge. intros X. apply H in X. discriminate.
Qed.
Lemma expr_le a b : evp (fun p => @dle Z (exact_ops (p done)) (evZ p a) (evZ p b) = @dle (expr G) expr_ops a b).
Proof.
  eapply evp_1; [exact (lt_kept b a)|]. cbv beta. intros p H. cbn [dle exact_ops expr_ops]. rewrite (og_le _ HG). destruct (dlt (evG b) (evG a)); cbn [negb]; [apply Z.leb_gt; tauto|apply Z.leb_le].
  apply Z.nlt_ge. intros X. apply H in X. discriminate.
Qed.
Lemma expr_eq a b : evp (fun p => @deq Z (exact_ops (p done)) (evZ p a) (evZ p b) = @deq (expr G) expr_ops a b).
Proof.
  eapply evp_2; [exact (lt_kept a b)|exact (lt_kept b a)|]. cbv beta. intros p H H'. cbn [deq exact_ops expr_ops].
  destruct (deq (evG a) (evG b)) eqn:E; [apply Z.eqb_eq|apply Z.eqb_neq].
  - apply (og_eq _ HG) in E. rewrite E, (og_irrefl _ HG) in H, H'.
    assert (~ evZ p a < evZ p b) by (intros X; apply H in X; discriminate). assert (~ evZ p b < evZ p a) by (intros X; apply H' in X; discriminate). lia.
  - intros X. destruct (og_total _ HG (evG a) (evG b)) as [Y|[Y|Y]]; [apply H in Y; lia|apply (og_eq _ HG) in Y; congruence|apply H' in Y; lia].
Qed.
End Expr.
