(** * Auxiliary splay trees stored in the heap *)
From Coq Require Import Permutation.
From Verif Require Import Base BaseLemmas Data LCT.
Local Open Scope Z_scope.

Inductive tree :=
| Lf
| Nd (l : tree) (x : nat) (v a : Z) (m : Z * option nat) (r : tree).

Fixpoint idx (t : tree) : list nat :=
  match t with Lf => [] | Nd l x _ _ _ r => idx l ++ x :: idx r end.

Definition root (t : tree) : option nat :=
  match t with Lf => None | Nd _ x _ _ _ _ => Some x end.

(** the heap [h] stores [t], whose root has father pointer [p] *)
Fixpoint rep (h : heap Z) (p : option nat) (t : tree) : Prop :=
  match t with
  | Lf => True
  | Nd l x v a m r =>
      nth_error h x = Some (mkNode p (root l) (root r) m v a) /\
      rep h (Some x) l /\ rep h (Some x) r
  end.

Inductive frame :=
| FL (x : nat) (v a : Z) (m : Z * option nat) (r : tree)   (* hole is the left child *)
| FR (l : tree) (x : nat) (v a : Z) (m : Z * option nat).  (* hole is the right child *)

Definition fx (f : frame) := match f with FL x _ _ _ _ => x | FR _ x _ _ _ => x end.

Definition plug1 (f : frame) (t : tree) : tree :=
  match f with
  | FL x v a m r => Nd t x v a m r
  | FR l x v a m => Nd l x v a m t
  end.

Fixpoint plug (k : list frame) (t : tree) : tree :=
  match k with [] => t | f :: k => plug k (plug1 f t) end.

Definition kpar (k : list frame) (p : option nat) : option nat :=
  match k with [] => p | f :: _ => Some (fx f) end.

Definition idx1 (f : frame) : list nat :=
  match f with FL x _ _ _ r => x :: idx r | FR l x _ _ _ => x :: idx l end.

Fixpoint idxk (k : list frame) : list nat :=
  match k with [] => [] | f :: k => idx1 f ++ idxk k end.

Definition rep1 (h : heap Z) (p : option nat) (f : frame) (c : option nat) : Prop :=
  match f with
  | FL x v a m r => nth_error h x = Some (mkNode p c (root r) m v a) /\ rep h (Some x) r
  | FR l x v a m => nth_error h x = Some (mkNode p (root l) c m v a) /\ rep h (Some x) l
  end.

Fixpoint repk (h : heap Z) (p : option nat) (k : list frame) (c : option nat) : Prop :=
  match k with
  | [] => True
  | f :: k => rep1 h (kpar k p) f c /\ repk h p k (Some (fx f))
  end.

Lemma root_plug1 f t : root (plug1 f t) = Some (fx f).
Proof. destruct f; reflexivity. Qed.

Lemma rep_plug1 h p f t :
  rep h p (plug1 f t) <-> rep h (Some (fx f)) t /\ rep1 h p f (root t).
Proof. destruct f; simpl; tauto. Qed.

Lemma rep_plug h p k t :
  rep h p (plug k t) <-> rep h (kpar k p) t /\ repk h p k (root t).
Proof.
  revert t; induction k as [|f k IH]; intros t; simpl; [tauto|].
  rewrite IH, rep_plug1, root_plug1. tauto.
Qed.

Lemma idx_plug1 f t : Permutation (idx (plug1 f t)) (idx1 f ++ idx t).
Proof.
  destruct f; simpl.
  - rewrite Permutation_app_comm. simpl. constructor. reflexivity.
  - rewrite <- Permutation_middle. reflexivity.
Qed.

Lemma idx_plug k t : Permutation (idx (plug k t)) (idxk k ++ idx t).
Proof.
  revert t; induction k as [|f k IH]; intros t; simpl; [reflexivity|].
  rewrite IH, idx_plug1. rewrite !app_assoc. apply Permutation_app_tail.
  apply Permutation_app_comm.
Qed.

Lemma plug_app k1 k2 t : plug (k1 ++ k2) t = plug k2 (plug k1 t).
Proof. revert t; induction k1 as [|f k1 IH]; intros t; simpl; auto. Qed.

Lemma root_in_idx t x : root t = Some x -> In x (idx t).
Proof.
  destruct t; simpl; [congruence|]. intros H; inversion H; subst.
  apply in_or_app; simpl; auto.
Qed.

(** ** Framing *)
Definition same_on (h h' : heap Z) (L : list nat) : Prop :=
  forall i, In i L -> nth_error h' i = nth_error h i.

Lemma rep_frame h h' p t : same_on h h' (idx t) -> rep h p t -> rep h' p t.
Proof.
  revert p; induction t as [|l IHl x v a m r IHr]; intros p HS; simpl; [auto|].
  intros (H1 & H2 & H3). repeat split.
  - rewrite HS; [exact H1|]. simpl. apply in_or_app; simpl; auto.
  - apply IHl; [|exact H2]. intros i Hi; apply HS; simpl; apply in_or_app; auto.
  - apply IHr; [|exact H3]. intros i Hi; apply HS; simpl; apply in_or_app; simpl; auto.
Qed.

Lemma rep1_frame h h' p f c : same_on h h' (idx1 f) -> rep1 h p f c -> rep1 h' p f c.
Proof.
  destruct f; simpl; intros HS [H1 H2]; split;
    try (rewrite HS; [exact H1 | simpl; auto]);
    (eapply rep_frame; [|exact H2]; intros i Hi; apply HS; simpl; auto).
Qed.

Lemma repk_frame h h' p k c : same_on h h' (idxk k) -> repk h p k c -> repk h' p k c.
Proof.
  revert c; induction k as [|f k IH]; intros c HS; simpl; [auto|].
  intros [H1 H2]; split.
  - eapply rep1_frame; [|exact H1]. intros i Hi; apply HS; simpl; apply in_or_app; auto.
  - apply IH; [|exact H2]. intros i Hi; apply HS; simpl; apply in_or_app; auto.
Qed.

Lemma rep_lt h p t i : rep h p t -> In i (idx t) -> (i < length h)%nat.
Proof.
  revert p; induction t as [|l IHl x v a m r IHr]; intros p; simpl; [tauto|].
  intros (H1 & H2 & H3) Hi. apply in_app_or in Hi. destruct Hi as [Hi|[<-|Hi]].
  - eapply IHl; eauto.
  - eapply nth_error_lt; eauto.
  - eapply IHr; eauto.
Qed.

(** ** Splitting a tree at one of its nodes *)
Lemma focus t x : In x (idx t) ->
  exists k l v a m r, t = plug k (Nd l x v a m r).
Proof.
  induction t as [|l IHl y v a m r IHr]; simpl; [tauto|].
  intros Hi. apply in_app_or in Hi. destruct Hi as [Hi|[->|Hi]].
  - destruct (IHl Hi) as (k & l' & v' & a' & m' & r' & ->).
    exists (k ++ [FL y v a m r]), l', v', a', m', r'. rewrite plug_app. reflexivity.
  - exists [], l, v, a, m, r. reflexivity.
  - destruct (IHr Hi) as (k & l' & v' & a' & m' & r' & ->).
    exists (k ++ [FR l y v a m]), l', v', a', m', r'. rewrite plug_app. reflexivity.
Qed.

(** ** Meaning: the in-order list of (node, actual value); [w] is the sum of
    the pending additions of the ancestors. *)
Fixpoint vals (w : Z) (t : tree) : list (nat * Z) :=
  match t with
  | Lf => []
  | Nd l x v a m r => vals (w + a) l ++ (x, v + w) :: vals (w + a) r
  end.

Lemma map_fst_vals w t : map fst (vals w t) = idx t.
Proof.
  revert w; induction t as [|l IHl x v a m r IHr]; intros w; simpl; [reflexivity|].
  rewrite map_app. simpl. rewrite IHl, IHr. reflexivity.
Qed.

(** leftmost minimum, i.e. the shallowest node of least value *)
Definition lm2 (a b : Z * option nat) : Z * option nat := if fst a <=? fst b then a else b.

Definition lmo (a b : option (Z * option nat)) : option (Z * option nat) :=
  match a, b with
  | None, _ => b
  | _, None => a
  | Some a, Some b => Some (lm2 a b)
  end.

Fixpoint lmin (l : list (nat * Z)) : option (Z * option nat) :=
  match l with
  | [] => None
  | (x, v) :: l => lmo (Some (v, Some x)) (lmin l)
  end.

Lemma lmo_assoc a b c : lmo a (lmo b c) = lmo (lmo a b) c.
Proof.
  destruct a as [a|], b as [b|], c as [c|]; simpl; try reflexivity.
  f_equal. unfold lm2.
  destruct (Z.leb_spec (fst b) (fst c)), (Z.leb_spec (fst a) (fst b));
    try destruct (Z.leb_spec (fst a) (fst c)); try reflexivity;
    try destruct (Z.leb_spec (fst a) (fst b)); try destruct (Z.leb_spec (fst b) (fst c)); try reflexivity; try lia.
Qed.

Lemma lmo_None_r a : lmo a None = a.
Proof. destruct a; reflexivity. Qed.

Lemma lmin_app l1 l2 : lmin (l1 ++ l2) = lmo (lmin l1) (lmin l2).
Proof.
  induction l1 as [|[x v] l1 IH]; [reflexivity|].
  cbn [app lmin]. rewrite IH. apply lmo_assoc.
Qed.

Definition addw (w : Z) (l : list (nat * Z)) := map (fun p => (fst p, snd p + w)) l.

Lemma addw_app w l1 l2 : addw w (l1 ++ l2) = addw w l1 ++ addw w l2.
Proof. apply map_app. Qed.

Lemma vals_addw w w' t : vals (w + w') t = addw w' (vals w t).
Proof.
  revert w; induction t as [|l IHl x v a m r IHr]; intros w; simpl; [reflexivity|].
  rewrite addw_app. simpl. unfold addw at 2; simpl. fold (addw w' (vals (w + a) r)).
  replace (w + w' + a) with (w + a + w') by lia. rewrite IHl, IHr.
  f_equal. f_equal. f_equal; lia.
Qed.

Lemma lmin_addw w l : lmin (addw w l) =
  match lmin l with None => None | Some m => Some (fst m + w, snd m) end.
Proof.
  induction l as [|[x v] l IH]; [reflexivity|].
  change (addw w ((x, v) :: l)) with ((x, v + w) :: addw w l).
  cbn [lmin]. rewrite IH. destruct (lmin l) as [[m1 m2]|]; simpl; [|reflexivity].
  unfold lm2; simpl. f_equal.
  destruct (Z.leb_spec v m1), (Z.leb_spec (v + w) (m1 + w)); simpl; try reflexivity; lia.
Qed.

(** every cached minimum is right (relative to the node's own subtree) *)
Fixpoint allmins (t : tree) : Prop :=
  match t with
  | Lf => True
  | Nd l x v a m r => allmins l /\ allmins r /\ lmin (vals 0 t) = Some m
  end.

(** as [allmins], but the root's own cache may be stale *)
Definition submins (t : tree) : Prop :=
  match t with
  | Lf => True
  | Nd l x v a m r => allmins l /\ allmins r
  end.

Lemma allmins_submins t : allmins t -> submins t.
Proof. destruct t; simpl; tauto. Qed.

(** functional counterpart of [update_add] *)
Definition addt (w : Z) (t : tree) : tree :=
  match t with
  | Lf => Lf
  | Nd l x v a m r => Nd l x (v + w) (a + w) (fst m + w, snd m) r
  end.

Lemma idx_addt w t : idx (addt w t) = idx t.
Proof. destruct t; reflexivity. Qed.
Lemma root_addt w t : root (addt w t) = root t.
Proof. destruct t; reflexivity. Qed.
Lemma addt_0 t : addt 0 t = t.
Proof. destruct t as [|l x v a [m1 m2] r]; simpl; [reflexivity|]. rewrite !Z.add_0_r. reflexivity. Qed.
Lemma addt_addt w w' t : addt w (addt w' t) = addt (w' + w) t.
Proof. destruct t as [|l x v a [m1 m2] r]; simpl; [reflexivity|]. rewrite !Z.add_assoc. reflexivity. Qed.

Lemma vals_addt w w' t : vals w (addt w' t) = vals (w + w') t.
Proof.
  destruct t as [|l x v a m r]; simpl; [reflexivity|].
  replace (w + (a + w')) with (w + w' + a) by lia.
  replace (v + w' + w) with (v + (w + w')) by lia. reflexivity.
Qed.

Lemma allmins_addt w t : allmins t -> allmins (addt w t).
Proof.
  destruct t as [|l x v a m r]; [auto|].
  intros (H1 & H2 & H3).
  change (allmins l /\ allmins r /\ lmin (vals 0 (addt w (Nd l x v a m r))) = Some (fst m + w, snd m)).
  repeat split; auto.
  rewrite vals_addt, vals_addw, lmin_addw, H3. reflexivity.
Qed.

(** functional counterpart of [push_down] *)
Definition pd (t : tree) : tree :=
  match t with
  | Lf => Lf
  | Nd l x v a m r => Nd (addt a l) x v 0 m (addt a r)
  end.

Lemma idx_pd t : idx (pd t) = idx t.
Proof. destruct t; simpl; [reflexivity|]. rewrite !idx_addt. reflexivity. Qed.

Lemma vals_pd w t : vals w (pd t) = vals w t.
Proof.
  destruct t as [|l x v a m r]; simpl; [reflexivity|].
  rewrite !vals_addt. rewrite Z.add_0_r. reflexivity.
Qed.

Lemma submins_pd t : submins t -> submins (pd t).
Proof. destruct t; simpl; [auto|]. intros [H1 H2]; split; apply allmins_addt; assumption. Qed.

Lemma allmins_pd t : allmins t -> allmins (pd t).
Proof.
  destruct t as [|l x v a m r]; [auto|]. intros (H1 & H2 & H3).
  change (allmins (addt a l) /\ allmins (addt a r) /\ lmin (vals 0 (pd (Nd l x v a m r))) = Some m).
  rewrite vals_pd. repeat split; auto using allmins_addt.
Qed.

(** functional counterpart of [push_up]'s computation *)
Definition pu (l : tree) (x : nat) (v : Z) (r : tree) : Z * option nat :=
  let m := (v, Some x) in
  let m := match l with Lf => m | Nd _ _ _ _ ml _ => if fst ml <=? fst m then ml else m end in
  match r with Lf => m | Nd _ _ _ _ mr _ => if fst mr <? fst m then mr else m end.

Lemma pu_spec l x v r m : allmins l -> allmins r ->
  lmin (vals 0 (Nd l x v 0 m r)) = Some (pu l x v r).
Proof.
  intros Hl Hr. cbn [vals]. rewrite !Z.add_0_r. rewrite lmin_app.
  change (lmin ((x, v) :: vals 0 r)) with (lmo (Some (v, Some x)) (lmin (vals 0 r))).
  assert (El : lmin (vals 0 l) = match l with Lf => None | Nd _ _ _ _ ml _ => Some ml end).
  { destruct l; [reflexivity|]. destruct Hl as (_ & _ & Hl). exact Hl. }
  assert (Er : lmin (vals 0 r) = match r with Lf => None | Nd _ _ _ _ mr _ => Some mr end).
  { destruct r; [reflexivity|]. destruct Hr as (_ & _ & Hr). exact Hr. }
  rewrite El, Er. rewrite lmo_assoc. unfold pu.
  destruct l as [|ll lx lv la ml lr], r as [|rl rx rv ra mr rr]; cbn [lmo]; unfold lm2; cbn [fst].
  - reflexivity.
  - destruct (Z.leb_spec v (fst mr)), (Z.ltb_spec (fst mr) v); try reflexivity; lia.
  - destruct (Z.leb_spec (fst ml) v); reflexivity.
  - destruct (Z.leb_spec (fst ml) v) as [A|A];
      [set (z := ml) | set (z := (v, Some x))];
      destruct (Z.leb_spec (fst z) (fst mr)), (Z.ltb_spec (fst mr) (fst z)); try reflexivity; lia.
Qed.

Lemma allmins_pu l x v r : allmins l -> allmins r -> allmins (Nd l x v 0 (pu l x v r) r).
Proof.
  intros Hl Hr. cbn [allmins]. repeat split; auto. apply pu_spec; auto.
Qed.
