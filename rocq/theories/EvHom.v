(** * One run followed by a family of runs

    A run on numbers of type [D] is followed by runs on numbers of type [E], one
    for each index [i], whose numbers are the images under [phi i].  The images
    respect the arithmetic for every index, and a comparison of two given numbers
    for every index that is good enough.  As a run makes finitely many
    comparisons, all runs of good enough indices end like the run on [D]. *)
From Coq Require Import FunctionalExtensionality.
From Verif Require Import Base BaseLemmas Data UniqueQueue LCT ProblemDefine Flow ProblemSolver GroupPre.
Local Open Scope Z_scope.

Definition rmap {A B} (f : A -> B) (m : res A) : res B := match m with Ok a => Ok (f a) | Err e => Err e end.

Section Hom.
Context {D E I T : Type} {opsD : DataOps D}.
Variable opsE : I -> DataOps E.
Variable phi : I -> D -> E.
Variable good : T -> I -> Prop.
Variable t0 : T.
Hypothesis good_join : forall t t', exists t'', forall i, good t'' i -> good t i /\ good t' i.
Hypothesis H0 : forall i, phi i dzero = @dzero E (opsE i).
Hypothesis H1 : forall i, phi i done = @done E (opsE i).
Hypothesis Hadd : forall i a b, phi i (dadd a b) = @dadd E (opsE i) (phi i a) (phi i b).
Hypothesis Hsub : forall i a b, phi i (dsub a b) = @dsub E (opsE i) (phi i a) (phi i b).
Hypothesis Hopp : forall i a, phi i (dopp a) = @dopp E (opsE i) (phi i a).
Hypothesis Hmul : forall i a w, phi i (dmuli a w) = @dmuli E (opsE i) (phi i a) w.

(** for every index that is good enough *)
Definition ev (P : I -> Prop) : Prop := exists t, forall i, good t i -> P i.

Hypothesis Hlt : forall a b, ev (fun i => @dlt E (opsE i) (phi i a) (phi i b) = dlt a b).
Hypothesis Hle : forall a b, ev (fun i => @dle E (opsE i) (phi i a) (phi i b) = dle a b).
Hypothesis Heq : forall a b, ev (fun i => @deq E (opsE i) (phi i a) (phi i b) = deq a b).

Lemma ev_all (P : I -> Prop) : (forall i, P i) -> ev P.
Proof. intros H. exists t0. auto. Qed.
Lemma ev_2 (P Q R : I -> Prop) : ev P -> ev Q -> (forall i, P i -> Q i -> R i) -> ev R.
Proof.
  intros [t H] [t' H'] HR. destruct (good_join t t') as [t'' Hj]. exists t''. intros i Hi. destruct (Hj i Hi). apply HR; auto.
Qed.
Lemma ev_1 (P R : I -> Prop) : ev P -> (forall i, P i -> R i) -> ev R.
Proof. intros [t H] HR. exists t. auto. Qed.

(** [m2] follows [m1] *)
Definition cm {A B} (f : I -> A -> B) (m1 : res A) (m2 : I -> res B) : Prop := ev (fun i => m2 i = rmap (f i) m1).

Definition same {A : Type} (_ : I) (x : A) : A := x.

Lemma cm_ok {A B} (f : I -> A -> B) a b : (forall i, b i = f i a) -> cm f (Ok a) (fun i => Ok (b i)).
Proof. intros H. apply ev_all. intros i. cbn [rmap]. rewrite H. reflexivity. Qed.
Lemma cm_okev {A B} (f : I -> A -> B) a b : ev (fun i => b i = f i a) -> cm f (Ok a) (fun i => Ok (b i)).
Proof. intros H. eapply ev_1; [exact H|]. cbv beta. intros i ->. reflexivity. Qed.
Lemma cm_err {A B} (f : I -> A -> B) e : cm f (Err e) (fun _ => Err e).
Proof. apply ev_all. reflexivity. Qed.
Lemma cm_same {A} (m : res A) : cm same m (fun _ => m).
Proof. apply ev_all. intros i. destruct m; reflexivity. Qed.
Lemma cm_bind {A B A' B'} (f : I -> A -> B) (g : I -> A' -> B') m1 m2 k1 k2 :
  cm f m1 m2 -> (forall a, m1 = Ok a -> cm g (k1 a) (fun i => k2 i (f i a))) ->
  cm g (bind m1 k1) (fun i => bind (m2 i) (k2 i)).
Proof.
  intros H1' H2. destruct m1 as [a|e].
  - eapply ev_2; [exact H1'|exact (H2 a eq_refl)|]. cbv beta. intros i -> H. exact H.
  - eapply ev_1; [exact H1'|]. cbv beta. intros i ->. reflexivity.
Qed.
Lemma cm_bs {A A' B'} (g : I -> A' -> B') (m : res A) k1 k2 :
  (forall a, m = Ok a -> cm g (k1 a) (fun i => k2 i a)) -> cm g (bind m k1) (fun i => bind m (k2 i)).
Proof. intros H. exact (cm_bind same g m (fun _ => m) k1 k2 (cm_same m) H). Qed.
Lemma cm_bsame {A A' B'} (g : I -> A' -> B') (m1 : res A) m2 k1 k2 :
  cm same m1 m2 -> (forall a, m1 = Ok a -> cm g (k1 a) (fun i => k2 i a)) -> cm g (bind m1 k1) (fun i => bind (m2 i) (k2 i)).
Proof. exact (cm_bind same g m1 m2 k1 k2). Qed.
Lemma cm_if {A B} (f : I -> A -> B) (b1 : bool) b2 m1 m2 m1' m2' :
  ev (fun i => b2 i = b1) -> cm f m1 m2 -> cm f m1' m2' ->
  cm f (if b1 then m1 else m1') (fun i => if b2 i : bool then m2 i else m2' i).
Proof. intros Hb H H'. destruct b1; eapply ev_2; [exact Hb|exact H| |exact Hb|exact H'|]; cbv beta; intros i -> Hm; exact Hm. Qed.
Lemma cm_ifs {A B} (f : I -> A -> B) (b : bool) m1 m2 m1' m2' :
  cm f m1 m2 -> cm f m1' m2' -> cm f (if b then m1 else m1') (fun i => if b then m2 i else m2' i).
Proof. intros H H'. destruct b; assumption. Qed.
Lemma cm_ext {A B} (f : I -> A -> B) m1 m2 m2' : (forall i, m2 i = m2' i) -> cm f m1 m2' -> cm f m1 m2.
Proof. intros H H'. eapply ev_1; [exact H'|]. cbv beta. intros i X. rewrite H. exact X. Qed.

Lemma vget_map {A B} (f : A -> B) l i : vget (map f l) i = rmap f (vget l i).
Proof. unfold vget. rewrite nth_error_map. destruct (nth_error l i); reflexivity. Qed.
Lemma upd_map {A B} (f : A -> B) l : forall i a, upd (map f l) i (f a) = map f (upd l i a).
Proof. induction l as [|x l IH]; intros [|i] a; cbn [upd map]; auto. rewrite IH. reflexivity. Qed.
Lemma cm_vget {A B} (f : I -> A -> B) l x : cm f (vget l x) (fun i => vget (map (f i) l) x).
Proof. apply ev_all. intros i. apply vget_map. Qed.
Lemma cm_vset {A B} (f : I -> A -> B) l x a : cm (fun i => map (f i)) (vset l x a) (fun i => vset (map (f i) l) x (f i a)).
Proof. apply ev_all. intros i. unfold vset. rewrite map_length, upd_map. destruct (x <? length l)%nat; reflexivity. Qed.
Lemma cm_vset' {A B} (f : I -> A -> B) l x a b : ev (fun i => b i = f i a) -> cm (fun i => map (f i)) (vset l x a) (fun i => vset (map (f i) l) x (b i)).
Proof. intros H. eapply ev_2; [exact (cm_vset f l x a)|exact H|]. cbv beta. intros i X ->. exact X. Qed.
Lemma cm_for_each {X A B} (f : I -> A -> B) (g1 : A -> X -> res A) g2 (l : list X) :
  (forall a x, cm f (g1 a x) (fun i => g2 i (f i a) x)) ->
  forall a, cm f (for_each l a g1) (fun i => for_each l (f i a) (g2 i)).
Proof.
  intros H. induction l as [|x l IH]; intros a; cbn [for_each]; [apply cm_ok; reflexivity|].
  apply (cm_bind f); [apply H|]. intros a' _. apply IH.
Qed.

(** ** Trees *)
Definition mpair (i : I) (m : D * option nat) : E * option nat := (phi i (fst m), snd m).
Definition mn (i : I) (x : node D) : node E := mkNode (n_fa x) (n_c0 x) (n_c1 x) (mpair i (n_min x)) (phi i (n_val x)) (phi i (n_add x)).
Definition mh (i : I) (h : heap D) : heap E := map (mn i) h.
Definition mhv {A B} (f : I -> A -> B) (i : I) (p : heap D * A) : heap E * B := (mh i (fst p), f i (snd p)).

Lemma cm_ld h x : cm mn (ld h x) (fun i => ld (mh i h) x).
Proof. apply cm_vget. Qed.
Lemma cm_modi h x f f' : (forall i n, f' i (mn i n) = mn i (f n)) -> cm mh (modi h x f) (fun i => modi (mh i h) x (f' i)).
Proof.
  intros H. unfold modi. apply (cm_bind mn); [apply cm_ld|]. intros n _. apply (cm_ext _ _ _ (fun i => vset (mh i h) x (mn i (f n)))); [intros i; rewrite H; reflexivity|].
  apply cm_vset.
Qed.

Ltac fields := cbn [mn mpair n_fa n_c0 n_c1 n_min n_val n_add fst snd].

Lemma phi_if_le a b (p q : D * option nat) : ev (fun i => (if @dle E (opsE i) (phi i a) (phi i b) then mpair i p else mpair i q) = mpair i (if dle a b then p else q)).
Proof. eapply ev_1; [exact (Hle a b)|]. cbv beta. intros i ->. destruct (dle a b); reflexivity. Qed.
Lemma phi_if_lt a b (p q : D * option nat) : ev (fun i => (if @dlt E (opsE i) (phi i a) (phi i b) then mpair i p else mpair i q) = mpair i (if dlt a b then p else q)).
Proof. eapply ev_1; [exact (Hlt a b)|]. cbv beta. intros i ->. destruct (dlt a b); reflexivity. Qed.

Lemma push_up_cm h x : cm mh (push_up h x) (fun i => @push_up E (opsE i) (mh i h) x).
Proof.
  unfold push_up. apply (cm_bind mn); [apply cm_ld|]. intros n _. fields.
  apply (cm_bind mpair).
  { destruct (n_c0 n) as [c|]; [|apply cm_ok; reflexivity]. apply (cm_bind mn); [apply cm_ld|]. intros nc _. fields.
    apply cm_okev. exact (phi_if_le (fst (n_min nc)) (n_val n) (n_min nc) (n_val n, Some x)). }
  intros m _. apply (cm_bind mpair).
  { destruct (n_c1 n) as [c|]; [|apply cm_ok; reflexivity]. apply (cm_bind mn); [apply cm_ld|]. intros nc _. fields.
    apply cm_okev. exact (phi_if_lt (fst (n_min nc)) (fst m) (n_min nc) m). }
  intros m' _. apply cm_modi. reflexivity.
Qed.

Lemma setc_cm h x p d : cm mh (setc h x p d) (fun i => setc (mh i h) x p d).
Proof.
  unfold setc. apply (cm_bind mh); [apply cm_modi; intros; destruct d; reflexivity|]. intros h' _.
  destruct p; [apply cm_modi; reflexivity|apply cm_ok; reflexivity].
Qed.

Lemma dir_cm h x : cm same (dir h x) (fun i => dir (mh i h) x).
Proof.
  unfold dir. apply (cm_bind mn); [apply cm_ld|]. intros n _. fields. destruct (n_fa n); [|apply cm_err].
  apply (cm_bind mn); [apply cm_ld|]. intros n' _. apply cm_ok. reflexivity.
Qed.
Lemma is_root_cm h x : cm same (is_root h x) (fun i => is_root (mh i h) x).
Proof.
  unfold is_root. apply (cm_bind mn); [apply cm_ld|]. intros n _. fields. destruct (n_fa n); [|apply cm_ok; reflexivity].
  apply (cm_bind mn); [apply cm_ld|]. intros n' _. apply cm_ok. reflexivity.
Qed.
Lemma update_add_cm h x w : cm mh (update_add h x w) (fun i => @update_add E (opsE i) (mh i h) x (phi i w)).
Proof. unfold update_add. apply cm_modi. intros i n. unfold mn, mpair. cbn [n_fa n_c0 n_c1 n_min n_val n_add fst snd]. rewrite !Hadd. reflexivity. Qed.

Lemma push_down_cm h x : cm mh (push_down h x) (fun i => @push_down E (opsE i) (mh i h) x).
Proof.
  unfold push_down. apply (cm_bind mn); [apply cm_ld|]. intros n _. fields.
  apply cm_if; [|apply (cm_bind mh)|apply cm_ok; reflexivity].
  - eapply ev_1; [exact (Heq (n_add n) dzero)|]. cbv beta. intros i. rewrite H0. intros ->. reflexivity.
  - destruct (n_c0 n); [apply update_add_cm|apply cm_ok; reflexivity].
  - intros h' _. apply (cm_bind mh); [destruct (n_c1 n); [apply update_add_cm|apply cm_ok; reflexivity]|].
    intros h'' _. apply cm_modi. intros i n'. rewrite <- H0. reflexivity.
Qed.

Lemma pdfr_cm fuel : forall h x, cm mh (push_down_from_root fuel h x) (fun i => @push_down_from_root E (opsE i) fuel (mh i h) x).
Proof.
  induction fuel as [|fuel IH]; intros h x; cbn [push_down_from_root]; [apply cm_err|].
  apply cm_bsame; [apply is_root_cm|]. intros r _. apply (cm_bind mh); [|intros h' _; apply push_down_cm].
  apply cm_ifs; [apply cm_ok; reflexivity|]. apply (cm_bind mn); [apply cm_ld|]. intros n _. fields.
  destruct (n_fa n); [apply IH|apply cm_err].
Qed.

Lemma rot_cm h x : cm mh (rot h x) (fun i => @rot E (opsE i) (mh i h) x).
Proof.
  unfold rot. apply (cm_bind mn); [apply cm_ld|]. intros n _. fields. destruct (n_fa n) as [f|]; [|apply cm_err].
  apply (cm_bind mn); [apply cm_ld|]. intros nf _. fields.
  apply cm_bsame; [apply dir_cm|]. intros c _.
  apply cm_bsame; [destruct (n_fa nf); [apply dir_cm|apply cm_ok; reflexivity]|]. intros cc _.
  apply (cm_bind mh). { apply (cm_ext _ _ _ (fun i => setc (mh i h) f (ch n (negb c)) c)); [intros i; destruct c; reflexivity|]. apply setc_cm. }
  intros h1 _. apply (cm_bind mh); [apply setc_cm|]. intros h2 _.
  apply (cm_bind mh); [|intros h3 _; apply push_up_cm].
  destruct (n_fa nf) as [g|]; [|apply cm_modi; reflexivity].
  apply (cm_bind mn); [apply cm_ld|]. intros ng _.
  apply (cm_ext _ _ _ (fun i => if ptr_eqb (ch ng cc) (Some f) then setc (mh i h2) g (Some x) cc else modi (mh i h2) x (set_fa_ (Some g)))).
  { intros i. destruct cc; reflexivity. }
  apply cm_ifs; [apply setc_cm|apply cm_modi; reflexivity].
Qed.

Lemma splay_loop_cm fuel : forall h x, cm mh (splay_loop fuel h x) (fun i => @splay_loop E (opsE i) fuel (mh i h) x).
Proof.
  induction fuel as [|fuel IH]; intros h x; cbn [splay_loop]; [apply cm_err|].
  apply cm_bsame; [apply is_root_cm|]. intros r _. apply cm_ifs; [apply cm_ok; reflexivity|].
  apply (cm_bind mn); [apply cm_ld|]. intros n _. fields. destruct (n_fa n) as [f|]; [|apply cm_err].
  apply cm_bsame; [apply is_root_cm|]. intros rf _. apply (cm_bind mh).
  - apply cm_ifs; [apply cm_ok; reflexivity|]. apply cm_bsame; [apply dir_cm|]. intros dx _.
    apply cm_bsame; [apply dir_cm|]. intros df _. apply cm_ifs; apply rot_cm.
  - intros h' _. apply (cm_bind mh); [apply rot_cm|]. intros h'' _. apply IH.
Qed.

Lemma splay_cm fuel h x : cm mh (splay fuel h x) (fun i => @splay E (opsE i) fuel (mh i h) x).
Proof.
  unfold splay. apply (cm_bind mh); [apply pdfr_cm|]. intros h' _. apply (cm_bind mh); [apply splay_loop_cm|]. intros h'' _. apply push_up_cm.
Qed.

Lemma access_loop_cm fuel0 fuel : forall h p q, cm mh (access_loop fuel0 fuel h p q) (fun i => @access_loop E (opsE i) fuel0 fuel (mh i h) p q).
Proof.
  induction fuel as [|fuel IH]; intros h p q; destruct p as [x|]; cbn [access_loop]; try (apply cm_ok; reflexivity); [apply cm_err|].
  apply (cm_bind mh); [apply splay_cm|]. intros h1 _. apply (cm_bind mh); [apply setc_cm|]. intros h2 _.
  apply (cm_bind mh); [apply push_up_cm|]. intros h3 _. apply (cm_bind mn); [apply cm_ld|]. intros n _. fields. apply IH.
Qed.

Lemma access_cm fuel h x : cm mh (access fuel h x) (fun i => @access E (opsE i) fuel (mh i h) x).
Proof. unfold access. apply (cm_bind mh); [apply access_loop_cm|]. intros h' _. apply splay_cm. Qed.

Lemma leftmost_cm fuel : forall h x, cm same (leftmost fuel h x) (fun i => leftmost fuel (mh i h) x).
Proof.
  induction fuel as [|fuel IH]; intros h x; cbn [leftmost]; [apply cm_err|].
  apply (cm_bind mn); [apply cm_ld|]. intros n _. fields. destruct (n_c0 n); [apply IH|apply cm_ok; reflexivity].
Qed.

Lemma find_root_cm fuel h x : cm (mhv same) (find_root fuel h x) (fun i => @find_root E (opsE i) fuel (mh i h) x).
Proof.
  unfold find_root. apply (cm_bind mh); [apply access_cm|]. intros h' _. apply cm_bsame; [apply leftmost_cm|]. intros r _. apply cm_ok. reflexivity.
Qed.

Lemma set_fa_cm fuel h x p : cm mh (set_fa fuel h x p) (fun i => @set_fa E (opsE i) fuel (mh i h) x p).
Proof.
  unfold set_fa. apply (cm_bind mh); [apply splay_cm|]. intros h' _. apply (cm_bind mn); [apply cm_ld|]. intros n _. fields.
  apply cm_bs. intros _ _. apply cm_modi. reflexivity.
Qed.

Lemma cut_cm fuel h x : cm mh (cut fuel h x) (fun i => @cut E (opsE i) fuel (mh i h) x).
Proof.
  unfold cut. apply (cm_bind mh); [apply access_cm|]. intros h' _. apply (cm_bind mn); [apply cm_ld|]. intros n _. fields.
  apply cm_bs. intros _ _. destruct (n_c0 n) as [c|]; [|apply cm_err].
  apply (cm_bind mh); [apply cm_modi; reflexivity|]. intros h1 _. apply (cm_bind mh); [apply cm_modi; reflexivity|]. intros h2 _. apply push_up_cm.
Qed.

Lemma get_val_cm fuel h x : cm (mhv phi) (get_val fuel h x) (fun i => @get_val E (opsE i) fuel (mh i h) x).
Proof.
  unfold get_val. apply cm_bsame; [apply is_root_cm|]. intros r _.
  apply (cm_bind mh); [apply cm_ifs; [apply cm_ok; reflexivity|apply access_cm]|]. intros h' _.
  apply (cm_bind mn); [apply cm_ld|]. intros n _. apply cm_ok. reflexivity.
Qed.

Lemma get_min_loop_cm fuel : forall h p r, cm (mhv mpair) (get_min_loop fuel h p r) (fun i => @get_min_loop E (opsE i) fuel (mh i h) p (mpair i r)).
Proof.
  induction fuel as [|fuel IH]; intros h p r; cbn [get_min_loop]; [apply cm_err|].
  apply (cm_bind mh); [apply push_down_cm|]. intros h' _. apply (cm_bind mn); [apply cm_ld|]. intros n _. fields.
  apply (cm_bind mpair).
  { destruct (n_c1 n) as [c|]; [|apply cm_ok; reflexivity]. apply (cm_bind mn); [apply cm_ld|]. intros nc _. fields.
    apply cm_okev. exact (phi_if_le (fst (n_min nc)) (fst r) (n_min nc) r). }
  intros r' _. destruct (n_c0 n) as [c|]; [|apply cm_ok; reflexivity].
  eapply ev_2; [exact (IH h' c (if dle (n_val n) (fst r') then (n_val n, Some p) else r'))|exact (phi_if_le (n_val n) (fst r') (n_val n, Some p) r')|].
  cbv beta. intros i X Y. unfold mpair in Y at 1. cbn [fst snd] in Y. cbn [mpair fst]. cbn zeta. rewrite <- X, <- Y. reflexivity.
Qed.

Lemma get_min_cm fuel h x : cm (mhv mpair) (get_min_wtrbnr fuel h x) (fun i => @get_min_wtrbnr E (opsE i) fuel (mh i h) x).
Proof.
  unfold get_min_wtrbnr. apply (cm_bind mh); [apply access_cm|]. intros h' _. apply (cm_bind mn); [apply cm_ld|]. intros n _. fields.
  apply (get_min_loop_cm fuel h' x (n_val n, Some x)).
Qed.

Lemma set_val_cm fuel h x v : cm mh (set_val fuel h x v) (fun i => @set_val E (opsE i) fuel (mh i h) x (phi i v)).
Proof.
  unfold set_val. apply cm_bsame; [apply is_root_cm|]. intros r _.
  apply (cm_bind mh); [apply cm_ifs; [apply cm_ok; reflexivity|apply access_cm]|]. intros h' _.
  apply (cm_bind mh); [apply cm_modi; reflexivity|]. intros h'' _. apply push_up_cm.
Qed.

Lemma add_path_cm fuel h x d : cm mh (add_val_way_to_root fuel h x d) (fun i => @add_val_way_to_root E (opsE i) fuel (mh i h) x (phi i d)).
Proof. unfold add_val_way_to_root. apply (cm_bind mh); [apply access_cm|]. intros h' _. apply update_add_cm. Qed.

(** ** Limits *)
Definition mfn (i : I) (f : Fn D) : Fn E := fun x => rmap (phi i) (f x).
Definition mlim (i : I) (o : OmegaLimit D) : OmegaLimit E := mkOm (o_l o) (o_u o) (mfn i (o_fn o)) (o_i o) (o_j o).
Definition mmu (i : I) (m : MuLimit D) : MuLimit E := mkMu (m_l m) (m_u m) (mfn i (m_fn m)).

Lemma cm_fn f x : cm phi (f x) (fun i => mfn i f x).
Proof. apply ev_all. reflexivity. Qed.

Lemma partition_cm fuel : forall l r p1 p2, (forall x, cm same (p1 x) (fun i => p2 i x)) ->
  cm same (partition_point fuel l r p1) (fun i => partition_point fuel l r (p2 i)).
Proof.
  induction fuel as [|fuel IH]; intros l r p1 p2 H; cbn [partition_point]; [apply cm_err|].
  apply cm_ifs; [apply cm_ok; reflexivity|]. apply cm_bs. intros d _. apply cm_bs. intros mid _.
  apply cm_bsame; [apply H|]. intros b _. apply cm_ifs; [|apply IH; exact H]. apply cm_bs. intros l' _. apply IH. exact H.
Qed.

Lemma decreasing_cm f x : cm same (decreasing_at f x) (fun i => @decreasing_at E (opsE i) (mfn i f) x).
Proof.
  unfold decreasing_at. apply (cm_bind phi); [apply cm_fn|]. intros a _. apply cm_bs. intros x1 _.
  apply (cm_bind phi); [apply cm_fn|]. intros b _. apply cm_okev. exact (Hlt b a).
Qed.

Lemma limit_eq i l u f (f' : Fn E) a b : (forall x, f' x = rmap (phi i) (f x)) -> mkOm l u f' a b = mlim i (mkOm l u f a b).
Proof. intros H. unfold mlim. cbn [o_l o_u o_fn o_i o_j]. f_equal. apply functional_extensionality. exact H. Qed.

Lemma pre_processing_cm fuel o : cm mlim (pre_processing fuel o) (fun i => @pre_processing E (opsE i) fuel (mlim i o)).
Proof.
  unfold pre_processing. cbn [mlim o_l o_u o_fn o_i o_j]. apply cm_bsame.
  - apply partition_cm. intros x. apply decreasing_cm.
  - intros m _. apply cm_ok. intros i. apply limit_eq. reflexivity.
Qed.

Lemma limit_min_cm fuel o : cm phi (limit_min fuel o) (fun i => @limit_min E (opsE i) fuel (mlim i o)).
Proof.
  unfold limit_min. cbn [mlim o_l o_u o_fn o_i o_j]. apply cm_bsame.
  - apply partition_cm. intros x. apply decreasing_cm.
  - intros m _. apply cm_fn.
Qed.

Lemma rmap_bind {A B C} (f : B -> C) (m : res A) (k : A -> res B) : rmap f (bind m k) = bind m (fun a => rmap f (k a)).
Proof. destruct m; reflexivity. Qed.

Lemma reverse_cm o : cm mlim (reverse o) (fun i => reverse (mlim i o)).
Proof.
  unfold reverse. cbn [mlim o_l o_u o_fn o_i o_j]. apply cm_bs. intros l _. apply cm_bs. intros u _. apply cm_ok. intros i. apply limit_eq.
  intros x. rewrite rmap_bind. reflexivity.
Qed.

Definition mlb {B} (i : I) (p : OmegaLimit D * B) : OmegaLimit E * B := (mlim i (fst p), snd p).

Lemma merge_cm o o' : cm mlb (merge o o') (fun i => @merge E (opsE i) (mlim i o) (mlim i o')).
Proof.
  unfold merge. cbn [mlim o_l o_u o_fn o_i o_j]. apply cm_bs. intros _ _. apply cm_bs. intros _ _. apply cm_ok. intros i. unfold mlb. cbn [fst snd].
  f_equal. apply limit_eq. intros x. unfold mfn. destruct (o_fn o x); [|reflexivity]. cbn [rmap bind]. destruct (o_fn o' x); [|reflexivity].
  cbn [rmap bind]. rewrite Hadd. reflexivity.
Qed.

(** ** Flow *)
Definition mf (i : I) (s : flow D) : flow E :=
  mkFlow (f_n s) (phi i (f_M s)) (f_eps s) (mh i (f_nodes s)) (map (phi i) (f_imb s)) (f_cur s) (f_uq s) (f_fa s)
         (map (mlim i) (f_edges s)) (map (phi i) (f_flows s)) (f_G s) (f_scal s).

Ltac ff := cbn [mf mlim f_n f_M f_eps f_nodes f_imb f_cur f_uq f_fa f_edges f_flows f_G f_scal o_l o_u o_fn o_i o_j with_eps with_nodes with_imb with_cur with_uq with_fa with_edges with_flows with_scal].
Ltac pick f := first [apply cm_bs|apply cm_bsame; [solve [apply f]|]|apply (cm_bind mlim); [solve [apply f]|]|apply (cm_bind phi); [solve [apply f]|]
  |apply (cm_bind mn); [solve [apply f]|] |apply (cm_bind mh); [solve [apply f]|]|apply (cm_bind mf); [solve [apply f]|]].
Ltac same := apply cm_bs; intros ? _; ff.
Ltac edge := apply (cm_bind mlim); [apply cm_vget|]; intros ? _; ff.
Ltac num := apply (cm_bind phi); [apply cm_vget|]; intros ? _; ff.
Ltac fin := apply cm_ok; reflexivity.

Lemma phi_lt0 v : ev (fun i => @dlt E (opsE i) (@dzero E (opsE i)) (phi i v) = dlt dzero v).
Proof. eapply ev_1; [exact (Hlt dzero v)|]. cbv beta. intros i. rewrite H0. exact (fun x => x). Qed.
Lemma phi_eq0 v : ev (fun i => @deq E (opsE i) (phi i v) (@dzero E (opsE i)) = deq v dzero).
Proof. eapply ev_1; [exact (Heq v dzero)|]. cbv beta. intros i. rewrite H0. exact (fun x => x). Qed.
Lemma phi_max a b : ev (fun i => @dmax E (opsE i) (phi i a) (phi i b) = phi i (dmax a b)).
Proof. eapply ev_1; [exact (Hlt a b)|]. cbv beta. intros i X. unfold dmax. rewrite X. destruct (dlt a b); reflexivity. Qed.
Lemma phi_max0 b : ev (fun i => @dmax E (opsE i) (@dzero E (opsE i)) (phi i b) = phi i (dmax dzero b)).
Proof. eapply ev_1; [exact (phi_max dzero b)|]. cbv beta. intros i. rewrite H0. exact (fun x => x). Qed.

Lemma q_cm s e : cm phi (q s e) (fun i => @q E (opsE i) (mf i s) e).
Proof.
  unfold q. ff. edge. same. same. same. same. same. num.
  apply cm_ifs; [apply cm_ok; intros i; rewrite Hsub; reflexivity|].
  apply cm_ifs; [apply cm_ok; intros i; rewrite H0; reflexivity|].
  apply (cm_bind phi); [apply cm_fn|]. intros u _. apply (cm_bind phi); [apply cm_fn|]. intros v _.
  apply cm_okev. eapply ev_1; [exact (phi_max0 (dsub (dsub u v) a5))|]. cbv beta. intros i <-. rewrite !Hsub. reflexivity.
Qed.

Lemma add_flow_cm s e d : cm mf (add_flow_of_edge s e d) (fun i => @add_flow_of_edge E (opsE i) (mf i s) e (phi i d)).
Proof.
  unfold add_flow_of_edge. ff. num. apply (cm_bind (fun i => map (phi i))).
  - apply cm_vset'. apply ev_all. intros i. rewrite Hadd. reflexivity.
  - intros fl _. num. apply (cm_bind (fun i => map (phi i))).
    + apply cm_vset'. apply ev_all. intros i. rewrite Hopp. reflexivity.
    + intros fl' _. fin.
Qed.

Lemma link_cm fuel s p : cm mf (link fuel s p) (fun i => @link E (opsE i) fuel (mf i s) p).
Proof.
  unfold link. ff. same. same. same. edge. same.
  apply (cm_bind phi); [apply (q_cm (with_fa s a3))|]. intros v _.
  apply (cm_bind mh); [apply set_val_cm|]. intros h _. apply (cm_bind mn); [apply cm_vget|]. intros _ _.
  apply (cm_bind mh); [apply set_fa_cm|]. intros h' _. fin.
Qed.

Lemma flow_cut_cm fuel s p : cm mf (flow_cut fuel s p) (fun i => @flow_cut E (opsE i) fuel (mf i s) p).
Proof.
  unfold flow_cut. ff. same. apply (cm_bind mh); [apply cut_cm|]. intros h _. same. same. same.
  apply (cm_bind phi); [apply (q_cm (with_nodes (with_fa s a) h))|]. intros v _.
  apply (cm_bind (mhv phi)); [apply get_val_cm|]. intros [h' v'] _. unfold mhv. cbn [fst snd].
  apply (cm_ext _ _ _ (fun i => @add_flow_of_edge E (opsE i) (mf i (with_nodes (with_nodes (with_fa s a) h) h')) a2 (phi i (dsub v v')))).
  - intros i. rewrite Hsub. reflexivity.
  - apply add_flow_cm.
Qed.

Lemma send_push_cm fuel s p r x : cm mf (send_push fuel s p r x) (fun i => @send_push E (opsE i) fuel (mf i s) p r (phi i x)).
Proof.
  unfold send_push. ff. apply (cm_bind mh).
  { apply (cm_ext _ _ _ (fun i => @add_val_way_to_root E (opsE i) fuel (mh i (f_nodes s)) p (phi i (dopp x)))); [intros i; rewrite Hopp; reflexivity|]. apply add_path_cm. }
  intros h _. num. apply (cm_bind (fun i => map (phi i))); [apply cm_vset'; apply ev_all; intros i; rewrite Hsub; reflexivity|]. intros im _.
  num. apply (cm_bind (fun i => map (phi i))); [apply cm_vset'; apply ev_all; intros i; rewrite Hadd; reflexivity|]. intros im' _.
  num. apply cm_if; [apply phi_lt0| |fin]. same. fin.
Qed.

Lemma send_loop_cm fuel0 fuel : forall s p r, cm mf (send_loop fuel0 fuel s p r) (fun i => @send_loop E (opsE i) fuel0 fuel (mf i s) p r).
Proof.
  induction fuel as [|fuel IH]; intros s p r; cbn [send_loop]; (apply cm_ifs; [fin|]); [apply cm_err|].
  apply (cm_bind (mhv mpair)); [apply get_min_cm|]. intros [h m] _. unfold mhv. cbn [fst snd mpair]. ff. num.
  apply cm_if; [apply Hlt|apply (send_push_cm fuel0 (with_nodes s h))|].
  apply (cm_bind mf); [apply (send_push_cm fuel0 (with_nodes s h))|]. intros s' _. destruct (snd m) as [r'|]; [|apply cm_err].
  apply (cm_bind mf); [apply flow_cut_cm|]. intros s'' _. apply IH.
Qed.

Lemma send_cm fuel s p : cm mf (send fuel s p) (fun i => @send E (opsE i) fuel (mf i s) p).
Proof.
  unfold send. apply (cm_bind (mhv same)); [apply find_root_cm|]. intros [h r] _. apply (send_loop_cm fuel fuel (with_nodes s h) p r).
Qed.

Lemma update_scaling_cm fuel s p : cm mf (update_scaling fuel s p) (fun i => @update_scaling E (opsE i) fuel (mf i s) p).
Proof.
  unfold update_scaling. ff. same. apply (cm_bind mf).
  - refine (cm_for_each mf _ (fun i s0 e_id => e <- vget (f_edges s0) e_id ;; let cut_p := o_j e in a0 <- vget (f_fa s0) cut_p ;;
       if ptr_eqb a0 (Some p) then @flow_cut E (opsE i) fuel s0 cut_p else Ok s0) a _ s).
    intros s' e. ff. edge. same. apply cm_ifs; [apply flow_cut_cm|fin].
  - intros s' _. ff. same. same. same. same. fin.
Qed.

Lemma choice_loop_cm fuel0 fuel : forall s p, cm mf (choice_loop fuel0 fuel s p) (fun i => @choice_loop E (opsE i) fuel0 fuel (mf i s) p).
Proof.
  induction fuel as [|fuel IH]; intros s p; cbn [choice_loop]; [apply cm_err|]. ff. same. same.
  apply cm_ifs; [|apply update_scaling_cm]. same. apply (cm_bind phi); [apply q_cm|]. intros v _.
  apply cm_if; [apply phi_lt0| |].
  - apply (cm_bind mf); [apply link_cm|]. intros s' _. apply send_cm.
  - same. apply (IH (with_cur s a2)).
Qed.

Lemma refine_loop_cm fuel0 fuel : forall s, cm mf (refine_loop fuel0 fuel s) (fun i => @refine_loop E (opsE i) fuel0 fuel (mf i s)).
Proof.
  induction fuel as [|fuel IH]; intros s; cbn [refine_loop]; ff; (apply cm_ifs; [fin|]); [apply cm_err|].
  same. apply (cm_bind mf); [apply choice_loop_cm|]. intros s' _. ff. same. num.
  apply (cm_bind mf); [|intros s'' _; apply IH]. apply cm_if; [apply phi_eq0| |fin]. same. fin.
Qed.

Lemma cut_all_cm fuel s : cm mf (cut_all fuel s) (fun i => @cut_all E (opsE i) fuel (mf i s)).
Proof.
  unfold cut_all. ff. refine (cm_for_each mf _ (fun i s0 k => a <- vget (f_fa s0) k ;; match a with None => Ok s0 | Some _ => @flow_cut E (opsE i) fuel s0 k end) _ _ s).
  intros s' k. ff. same. destruct a; [apply flow_cut_cm|fin].
Qed.

Lemma push_all_cm s : cm mf (push_all_admissible_edge s) (fun i => @push_all_admissible_edge E (opsE i) (mf i s)).
Proof.
  unfold push_all_admissible_edge. ff. apply (cm_ext _ _ _ (fun i => s0 <- for_each (seq 0 (length (f_edges s))) (mf i s) (fun s e_id =>
         e <- vget (f_edges s) e_id ;;
         v <- @q E (opsE i) s e_id ;;
         if @dlt E (opsE i) (@dzero E (opsE i)) v then
           a <- vget (f_imb s) (o_i e) ;;
           im <- vset (f_imb s) (o_i e) (@dsub E (opsE i) a v) ;;
           b <- vget im (o_j e) ;;
           im <- vset im (o_j e) (@dadd E (opsE i) b v) ;;
           @add_flow_of_edge E (opsE i) (with_imb s im) e_id v
         else Ok s) ;;
    for_each (seq 0 (f_n s0 + 1)) s0 (fun s k => a <- vget (f_imb s) k ;;
    if @dlt E (opsE i) (@dzero E (opsE i)) a then u <- uq_push (f_uq s) k ;; Ok (with_uq s u) else Ok s))).
  { intros i. ff. rewrite map_length. reflexivity. }
  apply (cm_bind mf).
  - refine (cm_for_each mf _ (fun i s e_id => e <- vget (f_edges s) e_id ;;
         v <- @q E (opsE i) s e_id ;;
         if @dlt E (opsE i) (@dzero E (opsE i)) v then
           a <- vget (f_imb s) (o_i e) ;;
           im <- vset (f_imb s) (o_i e) (@dsub E (opsE i) a v) ;;
           b <- vget im (o_j e) ;;
           im <- vset im (o_j e) (@dadd E (opsE i) b v) ;;
           @add_flow_of_edge E (opsE i) (with_imb s im) e_id v
         else Ok s) _ _ s).
    intros s' e. edge. apply (cm_bind phi); [apply q_cm|]. intros v _. apply cm_if; [apply phi_lt0| |fin]. ff. num.
    apply (cm_bind (fun i => map (phi i))); [apply cm_vset'; apply ev_all; intros i; rewrite Hsub; reflexivity|]. intros im _. num.
    apply (cm_bind (fun i => map (phi i))); [apply cm_vset'; apply ev_all; intros i; rewrite Hadd; reflexivity|]. intros im' _.
    apply (add_flow_cm (with_imb s' im')).
  - intros s' _. ff. refine (cm_for_each mf _ (fun i s k => a <- vget (f_imb s) k ;;
    if @dlt E (opsE i) (@dzero E (opsE i)) a then u <- uq_push (f_uq s) k ;; Ok (with_uq s u) else Ok s) _ _ s').
    intros s'' k. ff. num. apply cm_if; [apply phi_lt0| |fin]. same. fin.
Qed.

Lemma scaling_loop_cm fuel0 fuel : forall s, cm mf (scaling_loop fuel0 fuel s) (fun i => @scaling_loop E (opsE i) fuel0 fuel (mf i s)).
Proof.
  induction fuel as [|fuel IH]; intros s; cbn [scaling_loop]; ff; (apply cm_ifs; [fin|]); [apply cm_err|].
  apply (cm_bind mf).
  - unfold phase. apply (cm_bind mf); [apply (push_all_cm (initialization s))|]. intros s' _. unfold refine.
    apply (cm_bind mf); [apply refine_loop_cm|]. intros s'' _. apply cut_all_cm.
  - intros s' _. apply (IH (with_eps s' (Z.quot (f_eps s') 2))).
Qed.

Definition mfa (i : I) (p : flow D * D) : flow E * E := (mf i (fst p), phi i (snd p)).

Lemma tilt_eq i e x : @tilt E (opsE i) (mlim i e) (phi i x) = mlim i (tilt e x).
Proof.
  unfold tilt. cbn [mlim o_l o_u o_fn o_i o_j]. apply limit_eq. intros w. unfold mfn. destruct (o_fn e w); [|reflexivity]. cbn [rmap bind].
  rewrite Hsub, Hmul. reflexivity.
Qed.

Lemma sum_answer_cm fuel s : cm mfa (sum_answer fuel s) (fun i => @sum_answer E (opsE i) fuel (mf i s)).
Proof.
  unfold sum_answer. ff. apply (cm_ext _ _ _ (fun i => for_each (seq 0 (length (f_edges s))) (mfa i (s, dzero)) (fun '(s, answer) e_id =>
    e <- vget (f_edges s) e_id ;;
    x <- vget (f_flows s) e_id ;;
    let e' := @tilt E (opsE i) e x in
    es <- vset (f_edges s) e_id e' ;;
    let s := with_edges s es in
    m <- @limit_min E (opsE i) fuel e' ;;
    Ok (s, @dadd E (opsE i) answer m)))).
  { intros i. unfold mfa. cbn [fst snd]. rewrite map_length, H0. reflexivity. }
  refine (cm_for_each mfa _ (fun i '(s, answer) e_id =>
    e <- vget (f_edges s) e_id ;;
    x <- vget (f_flows s) e_id ;;
    let e' := @tilt E (opsE i) e x in
    es <- vset (f_edges s) e_id e' ;;
    let s := with_edges s es in
    m <- @limit_min E (opsE i) fuel e' ;;
    Ok (s, @dadd E (opsE i) answer m)) _ _ (s, dzero)).
  intros [s' a] e. unfold mfa. cbn [fst snd f_edges f_flows mf]. apply (cm_bind mlim); [apply cm_vget|]. intros o _.
  apply (cm_bind phi); [apply cm_vget|]. intros x _. cbn zeta. apply (cm_bind (fun i => map (mlim i))).
  { apply cm_vset'. apply ev_all. intros i. apply tilt_eq. }
  intros es _. apply (cm_bind phi).
  { apply (cm_ext _ _ _ (fun i => @limit_min E (opsE i) fuel (mlim i (tilt o x)))); [intros i; rewrite tilt_eq; reflexivity|]. apply limit_min_cm. }
  intros m _. apply cm_ok. intros i. cbn [fst snd]. rewrite Hadd. reflexivity.
Qed.

Lemma sum_even_cm fuel s : cm phi (sum_even fuel s) (fun i => @sum_even E (opsE i) fuel (mf i s)).
Proof.
  unfold sum_even. ff. apply (cm_ext _ _ _ (fun i => for_each (seq 0 (Nat.div2 (length (f_edges s)))) (phi i dzero) (fun a k =>
    e <- vget (map (mlim i) (f_edges s)) (2 * k) ;; x <- vget (map (phi i) (f_flows s)) (2 * k) ;;
    m <- @limit_min E (opsE i) fuel (@tilt E (opsE i) e x) ;; Ok (@dadd E (opsE i) a m)))).
  { intros i. rewrite map_length, H0. reflexivity. }
  refine (cm_for_each phi _ (fun i a k =>
    e <- vget (map (mlim i) (f_edges s)) (2 * k) ;; x <- vget (map (phi i) (f_flows s)) (2 * k) ;;
    m <- @limit_min E (opsE i) fuel (@tilt E (opsE i) e x) ;; Ok (@dadd E (opsE i) a m)) _ _ dzero).
  intros a k. apply (cm_bind mlim); [apply cm_vget|]. intros o _. apply (cm_bind phi); [apply cm_vget|]. intros x _. apply (cm_bind phi).
  { apply (cm_ext _ _ _ (fun i => @limit_min E (opsE i) fuel (mlim i (tilt o x)))); [intros i; rewrite tilt_eq; reflexivity|]. apply limit_min_cm. }
  intros m _. apply cm_ok. intros i. rewrite Hadd. reflexivity.
Qed.

Lemma double_edges_cm k : forall es, cm (fun i => map (mlim i)) (double_edges k es) (fun i => double_edges k (map (mlim i) es)).
Proof.
  induction k as [|k IH]; intros es; cbn [double_edges]; [fin|]. apply (cm_bind mlim); [apply cm_vget|]. intros e _.
  apply (cm_bind (fun i => map (mlim i))); [apply cm_vset|]. intros es1 _. apply (cm_bind (fun i => map (mlim i))); [apply cm_vset|]. intros es2 _.
  apply (cm_bind mlim); [apply reverse_cm|]. intros e' _. apply (cm_bind (fun i => map (mlim i))); [apply cm_vset|]. intros es3 _. apply IH.
Qed.

Lemma build_G_cm es G : cm same (build_G es G) (fun i => build_G (map (mlim i) es) G).
Proof.
  unfold build_G. apply (cm_ext _ _ _ (fun i => for_each (seq 0 (length es)) (same i G) (fun G e_id => e <- vget (map (mlim i) es) e_id ;; g <- vget G (o_i e) ;; vset G (o_i e) (g ++ [e_id])))).
  { intros i. rewrite map_length. reflexivity. }
  refine (cm_for_each same _ (fun i G e_id => e <- vget (map (mlim i) es) e_id ;; g <- vget G (o_i e) ;; vset G (o_i e) (g ++ [e_id])) _ _ G).
  intros G' e. apply (cm_ext _ _ _ (fun i => e0 <- vget (map (mlim i) es) e ;; g <- vget G' (o_i e0) ;; vset G' (o_i e0) (g ++ [e]))); [reflexivity|].
  apply (cm_bind mlim); [apply cm_vget|]. intros o _. cbn [mlim o_i]. apply cm_bs. intros g _. apply cm_same.
Qed.

Lemma flow_new_cm fuel n M U ls : cm mf (flow_new fuel n M U ls) (fun i => @flow_new E (opsE i) fuel n (phi i M) U (map (mlim i) ls)).
Proof.
  unfold flow_new. apply cm_bs. intros eps _. apply cm_bs. intros _ _. apply (cm_bind (fun i => map (mlim i))).
  { apply (cm_ext _ _ _ (fun i => double_edges (length ls) (map (mlim i) (ls ++ repeat OmegaLimit0 (length ls))))); [|apply double_edges_cm].
    intros i. rewrite map_length, map_app. f_equal. f_equal. generalize (length ls). induction n0 as [|k IH]; cbn [repeat map]; [reflexivity|]. rewrite <- IH. reflexivity. }
  intros es _. apply cm_bsame; [apply build_G_cm|]. intros G _. apply cm_ok. intros i. unfold mf. ff.
  assert (R : forall k, repeat (@dzero E (opsE i)) k = map (phi i) (repeat dzero k)).
  { induction k as [|k IH]; cbn [repeat map]; [reflexivity|]. rewrite H0, IH. reflexivity. }
  rewrite !R, map_length. f_equal. generalize (n + 1)%nat. clear - H0. induction n as [|k IH]; cbn [repeat mh map]; [reflexivity|].
  rewrite IH. f_equal. unfold mn, node0, mpair. cbn [n_fa n_c0 n_c1 n_min n_val n_add fst snd]. rewrite H0. reflexivity.
Qed.

(** ** Solver *)
Lemma check_mus_cm fuel n mus : forall k, cm same (check_mus fuel n mus k) (fun i => check_mus fuel n (map (mmu i) mus) k).
Proof.
  induction fuel as [|fuel IH]; intros k; cbn [check_mus]; (apply cm_ifs; [fin|]); [apply cm_err|].
  apply (cm_bind mmu); [apply cm_vget|]. intros m _. cbn [mmu m_l m_u]. apply cm_ifs; [apply IH|fin].
Qed.

Definition mopt {A B} (f : I -> A -> B) (i : I) (o : option A) : option B := option_map (f i) o.

Lemma check_omega_cm fuel n mus o : cm (mopt mlim) (check_omega fuel n mus o) (fun i => @check_omega E (opsE i) fuel n (map (mmu i) mus) (mlim i o)).
Proof.
  unfold check_omega. cbn [mlim o_l o_u o_fn o_i o_j]. do 4 (apply cm_ifs; [fin|]).
  apply (cm_bind mlim); [apply pre_processing_cm|]. intros o' _. cbn [mlim o_l o_u o_fn o_i o_j].
  apply (cm_bind mmu); [apply cm_vget|]. intros a _. apply (cm_bind mmu); [apply cm_vget|]. intros b _. cbn [mmu m_l m_u].
  apply cm_bs. intros l _. apply cm_ifs; fin.
Qed.

Lemma check_omegas_cm fuel n mus : forall oms, cm (mopt (fun i => map (mlim i))) (check_omegas fuel n mus oms)
  (fun i => @check_omegas E (opsE i) fuel n (map (mmu i) mus) (map (mlim i) oms)).
Proof.
  induction oms as [|o oms IH]; cbn [check_omegas map]; [fin|]. apply (cm_bind (mopt mlim)); [apply check_omega_cm|]. intros [o'|] _; cbn [mopt option_map]; [|fin].
  apply (cm_bind (mopt (fun i => map (mlim i)))); [apply IH|]. intros [l|] _; fin.
Qed.

Definition msol (i : I) (s : solver D) : solver E := mkSolver (s_n s) (map (mmu i) (s_mus s)) (map (mlim i) (s_oms s)).

Lemma solver_new_cm fuel n mus oms : cm msol (solver_new fuel n mus oms) (fun i => @solver_new E (opsE i) fuel n (map (mmu i) mus) (map (mlim i) oms)).
Proof.
  unfold solver_new. apply (cm_ext _ _ _ (fun i => if negb (Z.of_nat (length mus) =? (n + 1) mod (SIZE_MAX + 1)) then Ok invalid else
    b <- check_mus fuel n (map (mmu i) mus) 1 ;;
    if negb (b : bool) then Ok invalid
    else
      r <- @check_omegas E (opsE i) fuel n (map (mmu i) mus) (map (mlim i) oms) ;;
      match r with
      | None => Ok invalid
      | Some oms => Ok (mkSolver n (map (mmu i) mus) oms)
      end)); [intros i; rewrite map_length; reflexivity|].
  apply cm_ifs; [fin|]. apply cm_bsame; [apply check_mus_cm|]. intros b _. apply cm_ifs; [fin|].
  apply (cm_bind (mopt (fun i => map (mlim i)))); [apply check_omegas_cm|]. intros [l|] _; fin.
Qed.

Definition mmap (i : I) (m : @lmap D) : @lmap E := map (fun p => (fst p, mlim i (snd p))) m.

Lemma map_find_cm i m k : map_find (mmap i m) k = option_map (mlim i) (map_find m k).
Proof. induction m as [|[k' v] m IH]; cbn [mmap map map_find fst snd]; [reflexivity|]. destruct (key_eqb k' k); [reflexivity|exact IH]. Qed.
Lemma map_set_cm i m k v : map_set (mmap i m) k (mlim i v) = mmap i (map_set m k v).
Proof.
  induction m as [|[k' v'] m IH]; cbn [mmap map map_set fst snd]; [reflexivity|]. destruct (key_eqb k' k); [reflexivity|]. destruct (key_ltb k k'); [reflexivity|].
  cbn [map fst snd]. unfold mmap in IH. rewrite IH. reflexivity.
Qed.

Lemma merge_loop_cm : forall oms mp, cm (mopt mmap) (merge_loop oms mp) (fun i => @merge_loop E (opsE i) (map (mlim i) oms) (mmap i mp)).
Proof.
  induction oms as [|o oms IH]; intros mp; cbn [merge_loop map]; [fin|].
  apply (cm_bind mlim).
  { cbn [mlim o_i o_j]. apply cm_ifs; [apply reverse_cm|fin]. }
  intros o' _. cbn [mlim o_i o_j].
  eapply cm_ext; [intros i; rewrite map_find_cm; reflexivity|].
  destruct (map_find mp (o_i o', o_j o')) as [v|]; cbn [option_map].
  - apply (cm_bind mlb); [apply (merge_cm v o')|]. intros [w err] _. unfold mlb. cbn [fst snd]. apply cm_ifs; [fin|].
    eapply cm_ext; [intros i; rewrite map_set_cm; reflexivity|]. apply IH.
  - apply (cm_ext _ _ _ (fun i => @merge_loop E (opsE i) (map (mlim i) oms) (mmap i (map_set mp (o_i o', o_j o') o')))); [|apply IH].
    intros i. rewrite <- map_set_cm. reflexivity.
Qed.

Lemma merge_limits_cm s : cm (mopt (fun i => map (mlim i))) (merge_limits s) (fun i => @merge_limits E (opsE i) (msol i s)).
Proof.
  unfold merge_limits. cbn [msol s_n s_mus s_oms]. apply (cm_bind (mopt mmap)); [apply (merge_loop_cm (s_oms s) [])|].
  intros [mp|] _; cbn [mopt option_map]; [|fin]. apply (cm_bind (fun i => map (mlim i))).
  - refine (cm_for_each (fun i => map (mlim i)) _ (fun i ret k => m <- vget (map (mmu i) (s_mus s)) k ;; Ok (ret ++ [mkOm (m_l m) (m_u m) (m_fn m) k 0])) _ _ []).
    intros ret k. apply (cm_bind mmu); [apply cm_vget|]. intros m _. apply cm_ok. intros i. rewrite map_app. reflexivity.
  - intros ms _. apply cm_ok. intros i. cbn [mopt option_map]. unfold mmap. rewrite map_app, !map_map. reflexivity.
Qed.

Definition mcalc (i : I) (p : D * D * Z) : E * E * Z := (phi i (fst (fst p)), phi i (snd (fst p)), snd p).

Lemma calc_cm fuel : forall ls p, cm mcalc
  (for_each ls p (fun '(vmax, M, U) it => a <- o_fn it (o_l it) ;; b <- o_fn it (o_u it) ;; let vmax := dadd vmax (dmax a b) in
    mi <- limit_min fuel it ;; let M := dadd M (dsub (dmax a b) mi) in d <- ck (o_u it - o_l it) ;; Ok (vmax, M, Z.max U d)))
  (fun i => for_each (map (mlim i) ls) (mcalc i p) (fun '(vmax, M, U) it => a <- o_fn it (o_l it) ;; b <- o_fn it (o_u it) ;; let vmax := @dadd E (opsE i) vmax (@dmax E (opsE i) a b) in
    mi <- @limit_min E (opsE i) fuel it ;; let M := @dadd E (opsE i) M (@dsub E (opsE i) (@dmax E (opsE i) a b) mi) in d <- ck (o_u it - o_l it) ;; Ok (vmax, M, Z.max U d))).
Proof.
  induction ls as [|o ls IH]; intros [[v M] U]; cbn [for_each map]; [fin|].
  apply (cm_bind mcalc); [|intros p _; apply IH]. unfold mcalc at 1. cbn [fst snd mlim o_l o_u o_fn].
  apply (cm_bind phi); [apply cm_fn|]. intros a _. apply (cm_bind phi); [apply cm_fn|]. intros b _.
  apply (cm_bind phi); [apply limit_min_cm|]. intros mi _. cbn [fst snd mlim o_l o_u o_fn]. apply cm_bs. intros d _. apply cm_okev.
  eapply ev_1; [exact (phi_max a b)|]. cbv beta. intros i X. unfold mcalc. cbn [fst snd]. rewrite X, !Hadd, Hsub. reflexivity.
Qed.

Definition mtri (i : I) (p : D * D * D) : E * E * E := (phi i (fst (fst p)), phi i (snd (fst p)), phi i (snd p)).

Lemma pre_solve_cm fuel s : cm (mopt mtri) (pre_solve fuel s) (fun i => @pre_solve E (opsE i) fuel (msol i s)).
Proof.
  unfold pre_solve. cbn [msol s_n]. apply cm_ifs; [fin|]. apply (cm_bind (mopt (fun i => map (mlim i)))); [apply merge_limits_cm|].
  intros [ls|] _; cbn [mopt option_map]; [|fin]. apply (cm_bind mcalc).
  { unfold calc. eapply cm_ext; [|apply calc_cm]. intros i. unfold mcalc. cbn [fst snd]. rewrite H0, H1. reflexivity. }
  intros [[v M] U] _. unfold mcalc. cbn [fst snd]. apply (cm_bind mf); [apply flow_new_cm|]. intros fl _.
  apply (cm_bind mf); [apply scaling_loop_cm|]. intros fl' _. apply (cm_bind mfa); [apply sum_answer_cm|]. intros [fl2 a] _. unfold mfa. cbn [fst snd].
  apply (cm_bind phi); [apply sum_even_cm|]. intros h _. fin.
Qed.

Theorem pre_run_cm fuel n mus oms :
  cm (mopt mtri) (pre_run fuel n mus oms) (fun i => @pre_run E (opsE i) fuel n (map (mmu i) mus) (map (mlim i) oms)).
Proof. unfold pre_run. apply (cm_bind msol); [apply solver_new_cm|]. intros s _. apply pre_solve_cm. Qed.

End Hom.
