(** * Two number types, one run

    A run on numbers of type [D1] is followed by the same run on numbers of type
    [D2], as long as the numbers correspond ([R]) and the correspondence
    survives the additions and subtractions whose results pass the test [okd].
    On the left the functions with asserted sizes (LCTChecked, FlowChecked), on
    the right the plain model. *)
From Verif Require Import Base BaseLemmas Data UniqueQueue LCT LCTChecked ProblemDefine Flow FlowChecked.
Local Open Scope Z_scope.

(** ** Outcomes *)
Definition sim {A B} (P : A -> B -> Prop) (m1 : res A) (m2 : res B) : Prop :=
  forall a, m1 = Ok a -> exists b, m2 = Ok b /\ P a b.

Lemma sim_ok {A B} (P : A -> B -> Prop) a b : P a b -> sim P (Ok a) (Ok b).
Proof. intros H a' E. injection E as <-. eauto. Qed.

Lemma sim_err {A B} (P : A -> B -> Prop) e m : sim P (Err e) m.
Proof. intros a E; discriminate. Qed.

Lemma sim_eq {A} (m : res A) : sim eq m m.
Proof. intros a E. eauto. Qed.

Lemma sim_bind {A B A' B'} (P : A -> B -> Prop) (Q : A' -> B' -> Prop) m1 m2 k1 k2 :
  sim P m1 m2 -> (forall a b, P a b -> sim Q (k1 a) (k2 b)) -> sim Q (bind m1 k1) (bind m2 k2).
Proof.
  intros H1 H2 a E. apply bind_inv in E. destruct E as (a0 & E1 & E2).
  destruct (H1 _ E1) as (b0 & F1 & HP). rewrite F1. cbn [bind]. exact (H2 _ _ HP _ E2).
Qed.

Lemma sim_bind_eq {A A' B'} (Q : A' -> B' -> Prop) (m : res A) k1 k2 :
  (forall a, sim Q (k1 a) (k2 a)) -> sim Q (bind m k1) (bind m k2).
Proof. intros H. apply (sim_bind eq); [apply sim_eq|]. intros a b <-. apply H. Qed.

Lemma sim_assert {A B} (Q : A -> B -> Prop) b k1 m : sim Q (k1 tt) m -> sim Q (bind (assert_ b) k1) m.
Proof. intros H. destruct b; cbn [assert_ bind]; [exact H|apply sim_err]. Qed.

Lemma sim_ckd {D A B} (Q : A -> B -> Prop) (okd : D -> bool) z k1 m :
  (okd z = true -> sim Q (k1 z) m) -> sim Q (bind (ckd okd z) k1) m.
Proof. intros H. unfold ckd. destruct (okd z); cbn [bind]; [apply H; reflexivity|apply sim_err]. Qed.

Lemma sim_mono {A B} (P Q : A -> B -> Prop) m1 m2 : (forall a b, P a b -> Q a b) -> sim P m1 m2 -> sim Q m1 m2.
Proof. intros H H1 a E. destruct (H1 a E) as (b & F & HP). eauto. Qed.

Lemma Forall2_nth {A B} (P : A -> B -> Prop) l1 l2 : Forall2 P l1 l2 ->
  forall i a, nth_error l1 i = Some a -> exists b, nth_error l2 i = Some b /\ P a b.
Proof.
  induction 1 as [|x y l1 l2 HP _ IH]; intros [|i] a E; try discriminate; cbn in E |- *.
  - injection E as <-. eauto.
  - apply IH; exact E.
Qed.

Lemma Forall2_len {A B} (P : A -> B -> Prop) l1 l2 : Forall2 P l1 l2 -> length l1 = length l2.
Proof. induction 1; cbn; auto. Qed.

Lemma Forall2_upd {A B} (P : A -> B -> Prop) l1 l2 : Forall2 P l1 l2 ->
  forall i a b, P a b -> Forall2 P (upd l1 i a) (upd l2 i b).
Proof.
  induction 1 as [|x y l1 l2 HP HF IH]; intros [|i] a b Hab; cbn [upd]; constructor; auto.
Qed.

Lemma Forall2_repeat {A B} (P : A -> B -> Prop) a b n : P a b -> Forall2 P (repeat a n) (repeat b n).
Proof. intros H. induction n; cbn [repeat]; constructor; auto. Qed.

Lemma sim_vget {A B} (P : A -> B -> Prop) l1 l2 i : Forall2 P l1 l2 -> sim P (vget l1 i) (vget l2 i).
Proof.
  intros H a E. apply vget_inv in E. destruct (Forall2_nth _ _ _ H _ _ E) as (b & F & HP).
  exists b. split; [apply vget_ok; exact F|exact HP].
Qed.

Lemma sim_vset {A B} (P : A -> B -> Prop) l1 l2 i a b : Forall2 P l1 l2 -> P a b ->
  sim (Forall2 P) (vset l1 i a) (vset l2 i b).
Proof.
  intros H Hab. unfold vset. rewrite (Forall2_len _ _ _ H). destruct (i <? length l2)%nat; [|apply sim_err].
  apply sim_ok. apply Forall2_upd; assumption.
Qed.

Lemma sim_for_each {X A B} (P : A -> B -> Prop) (l : list X) f g :
  (forall a b x, P a b -> sim P (f a x) (g b x)) ->
  forall a b, P a b -> sim P (for_each l a f) (for_each l b g).
Proof.
  intros H. induction l as [|x l IH]; intros a b Hab; cbn [for_each]; [apply sim_ok; exact Hab|].
  apply (sim_bind P); [apply H; exact Hab|exact IH].
Qed.

(** ** Trees *)
Section Sim.
Context {D1 D2 : Type} {ops1 : DataOps D1} {ops2 : DataOps D2}.
Variable okd : D1 -> bool.
Variable R : D1 -> D2 -> Prop.
Hypothesis R0 : R dzero dzero.
Hypothesis Radd : forall a b a' b', R a b -> R a' b' -> okd (dadd a a') = true -> R (dadd a a') (dadd b b').
Hypothesis Rsub : forall a b a' b', R a b -> R a' b' -> okd (dsub a a') = true -> R (dsub a a') (dsub b b').
Hypothesis Ropp : forall a b, R a b -> R (dopp a) (dopp b).
Hypothesis Rlt : forall a b a' b', R a b -> R a' b' -> dlt a a' = dlt b b'.
Hypothesis Rle : forall a b a' b', R a b -> R a' b' -> dle a a' = dle b b'.
Hypothesis Req : forall a b a' b', R a b -> R a' b' -> deq a a' = deq b b'.

Inductive pairR : D1 * option nat -> D2 * option nat -> Prop :=
| pairR_i a b p : R a b -> pairR (a, p) (b, p).

Inductive nodeR : node D1 -> node D2 -> Prop :=
| nodeR_i f c0 c1 m m' v v' a a' : pairR m m' -> R v v' -> R a a' ->
    nodeR (mkNode f c0 c1 m v a) (mkNode f c0 c1 m' v' a').

Definition heapR := Forall2 nodeR.

Inductive hvR {A B} (P : A -> B -> Prop) : heap D1 * A -> heap D2 * B -> Prop :=
| hvR_i h h' a b : heapR h h' -> P a b -> hvR P (h, a) (h', b).

Lemma sim_ld h h' x : heapR h h' -> sim nodeR (ld h x) (ld h' x).
Proof. apply sim_vget. Qed.

Lemma sim_modi h h' x f f' : heapR h h' -> (forall a b, nodeR a b -> nodeR (f a) (f' b)) ->
  sim heapR (modi h x f) (modi h' x f').
Proof.
  intros H Hf. unfold modi. apply (sim_bind nodeR); [apply sim_ld; exact H|].
  intros a b Hab. apply sim_vset; auto.
Qed.

Lemma set_fa_R p a b : nodeR a b -> nodeR (set_fa_ p a) (set_fa_ p b).
Proof. intros []. constructor; auto. Qed.
Lemma set_min_R m m' a b : pairR m m' -> nodeR a b -> nodeR (set_min_ m a) (set_min_ m' b).
Proof. intros Hm []. constructor; auto. Qed.
Lemma set_val_R v v' a b : R v v' -> nodeR a b -> nodeR (set_val_ v a) (set_val_ v' b).
Proof. intros Hm []. constructor; auto. Qed.
Lemma set_add_R v v' a b : R v v' -> nodeR a b -> nodeR (set_add_ v a) (set_add_ v' b).
Proof. intros Hm []. constructor; auto. Qed.
Lemma set_ch_R d p a b : nodeR a b -> nodeR (set_ch_ d p a) (set_ch_ d p b).
Proof. intros []. destruct d; constructor; auto. Qed.
Lemma if_R (c : bool) m m' n n' : pairR m m' -> pairR n n' -> pairR (if c then m else n) (if c then m' else n').
Proof. destruct c; auto. Qed.

Lemma is_root_sim h h' x : heapR h h' -> sim eq (LCT.is_root h x) (LCT.is_root h' x).
Proof.
  intros H. unfold LCT.is_root. apply (sim_bind nodeR); [apply sim_ld; exact H|].
  intros _ _ [f ? ? ? ? ? ? ? ? _ _ _]. cbn [n_fa]. destruct f as [f|]; [|apply sim_ok; reflexivity].
  apply (sim_bind nodeR); [apply sim_ld; exact H|]. intros _ _ []. apply sim_ok. reflexivity.
Qed.

Lemma dir_sim h h' x : heapR h h' -> sim eq (dir h x) (dir h' x).
Proof.
  intros H. unfold dir. apply (sim_bind nodeR); [apply sim_ld; exact H|].
  intros _ _ [f ? ? ? ? ? ? ? ? _ _ _]. cbn [n_fa]. destruct f as [f|]; [|apply sim_err].
  apply (sim_bind nodeR); [apply sim_ld; exact H|]. intros _ _ []. apply sim_ok. reflexivity.
Qed.

Lemma push_up_sim h h' x : heapR h h' -> sim heapR (push_up h x) (push_up h' x).
Proof.
  intros H. unfold push_up. apply (sim_bind nodeR); [apply sim_ld; exact H|].
  intros _ _ [f c0 c1 m m' v v' a a' Hm Hv Ha]. cbn [n_val n_c0 n_c1].
  apply (sim_bind pairR).
  { destruct c0 as [c|]; [|apply sim_ok; constructor; exact Hv].
    apply (sim_bind nodeR); [apply sim_ld; exact H|].
    intros _ _ [? ? ? mm mm' ? ? ? ? Hmm]. cbn [n_min fst]. apply sim_ok.
    destruct Hmm as [z z' p Hz]. cbn [fst]. rewrite (Rle _ _ _ _ Hz Hv). apply if_R; constructor; assumption. }
  intros r r' Hr. apply (sim_bind pairR).
  { destruct c1 as [c|]; [|apply sim_ok; exact Hr].
    apply (sim_bind nodeR); [apply sim_ld; exact H|].
    intros _ _ [? ? ? mm mm' ? ? ? ? Hmm]. cbn [n_min fst]. apply sim_ok.
    destruct Hmm as [z z' p Hz]. destruct Hr as [y y' p' Hy]. cbn [fst]. rewrite (Rlt _ _ _ _ Hz Hy).
    apply if_R; constructor; assumption. }
  intros r2 r2' Hr2. apply sim_modi; [exact H|]. intros; apply set_min_R; assumption.
Qed.

Lemma setc_sim h h' x p d : heapR h h' -> sim heapR (setc h x p d) (setc h' x p d).
Proof.
  intros H. unfold setc. apply (sim_bind heapR); [apply sim_modi; [exact H|intros; apply set_ch_R; assumption]|].
  intros h1 h1' H1. destruct p as [c|]; [|apply sim_ok; exact H1].
  apply sim_modi; [exact H1|intros; apply set_fa_R; assumption].
Qed.

Lemma update_add_sim h h' x w w' : heapR h h' -> R w w' -> sim heapR (update_add_chk okd h x w) (update_add h' x w').
Proof.
  intros H Hw. unfold update_add_chk, update_add, modi. apply (sim_bind nodeR); [apply sim_ld; exact H|].
  intros _ _ [f c0 c1 m m' v v' a a' Hm Hv Ha]. destruct Hm as [z z' p Hz]. cbn [n_min n_val n_add n_fa n_c0 n_c1 fst snd].
  apply sim_ckd; intros E1. apply sim_ckd; intros E2. apply sim_ckd; intros E3.
  apply sim_vset; [exact H|]. constructor; [constructor|..]; apply Radd; assumption.
Qed.

Lemma push_down_sim h h' x : heapR h h' -> sim heapR (push_down_chk okd h x) (push_down h' x).
Proof.
  intros H. unfold push_down_chk, push_down. apply (sim_bind nodeR); [apply sim_ld; exact H|].
  intros _ _ [f c0 c1 m m' v v' a a' Hm Hv Ha]. cbn [n_add n_c0 n_c1]. rewrite (Req _ _ _ _ Ha R0).
  destruct (negb (deq a' dzero)); [|apply sim_ok; exact H].
  apply (sim_bind heapR).
  { destruct c0; [apply update_add_sim; assumption|apply sim_ok; exact H]. }
  intros h1 h1' H1. apply (sim_bind heapR).
  { destruct c1; [apply update_add_sim; assumption|apply sim_ok; exact H1]. }
  intros h2 h2' H2. apply sim_modi; [exact H2|]. intros; apply set_add_R; assumption.
Qed.

Lemma pdfr_sim fuel : forall h h' x, heapR h h' -> sim heapR (pdfr_chk okd fuel h x) (push_down_from_root fuel h' x).
Proof.
  induction fuel as [|fuel IH]; intros h h' x H; [apply sim_err|]. cbn [pdfr_chk push_down_from_root].
  apply (sim_bind eq); [apply is_root_sim; exact H|]. intros r ? <-.
  apply (sim_bind heapR); [|intros; apply push_down_sim; assumption].
  destruct r; [apply sim_ok; exact H|]. apply (sim_bind nodeR); [apply sim_ld; exact H|].
  intros _ _ [f ? ? ? ? ? ? ? ? _ _ _]. cbn [n_fa]. destruct f; [|apply sim_err]. apply IH; exact H.
Qed.

Lemma rot_sim h h' x : heapR h h' -> sim heapR (rot h x) (rot h' x).
Proof.
  intros H. unfold rot. apply (sim_bind nodeR); [apply sim_ld; exact H|].
  intros _ _ [f c0 c1 m m' v v' a a' _ _ _]. cbn [n_fa]. destruct f as [f|]; [|apply sim_err].
  apply (sim_bind nodeR); [apply sim_ld; exact H|]. intros _ _ [ff ? ? ? ? ? ? ? ? _ _ _]. cbn [n_fa]. cbv zeta.
  apply (sim_bind eq); [apply dir_sim; exact H|]. intros c ? <-.
  apply (sim_bind eq). { destruct ff; [apply dir_sim; exact H|apply sim_eq]. } intros cc ? <-.
  apply (sim_bind heapR); [apply setc_sim; exact H|]. intros h1 h1' H1.
  apply (sim_bind heapR); [apply setc_sim; exact H1|]. intros h2 h2' H2.
  apply (sim_bind heapR); [|intros; apply push_up_sim; assumption].
  destruct ff as [g|]; [|apply sim_modi; [exact H2|intros; apply set_fa_R; assumption]].
  apply (sim_bind nodeR); [apply sim_ld; exact H2|]. intros ng ng' Hng.
  assert (E : ch ng cc = ch ng' cc) by (destruct Hng; reflexivity). rewrite E.
  destruct (ptr_eqb _ _); [apply setc_sim; exact H2|apply sim_modi; [exact H2|intros; apply set_fa_R; assumption]].
Qed.

Lemma splay_loop_sim fuel : forall h h' x, heapR h h' -> sim heapR (splay_loop fuel h x) (splay_loop fuel h' x).
Proof.
  induction fuel as [|fuel IH]; intros h h' x H; [apply sim_err|]. cbn [splay_loop].
  apply (sim_bind eq); [apply is_root_sim; exact H|]. intros r ? <-.
  destruct r; [apply sim_ok; exact H|].
  apply (sim_bind nodeR); [apply sim_ld; exact H|]. intros _ _ [f ? ? ? ? ? ? ? ? _ _ _]. cbn [n_fa]. destruct f as [f|]; [|apply sim_err].
  apply (sim_bind eq); [apply is_root_sim; exact H|]. intros rf ? <-.
  apply (sim_bind heapR).
  { destruct rf; [apply sim_ok; exact H|].
    apply (sim_bind eq); [apply dir_sim; exact H|]. intros dx ? <-.
    apply (sim_bind eq); [apply dir_sim; exact H|]. intros df ? <-.
    destruct (Bool.eqb dx df); apply rot_sim; exact H. }
  intros h1 h1' H1. apply (sim_bind heapR); [apply rot_sim; exact H1|]. intros; apply IH; assumption.
Qed.

Lemma splay_sim fuel h h' x : heapR h h' -> sim heapR (splay_chk okd fuel h x) (splay fuel h' x).
Proof.
  intros H. unfold splay_chk, splay. apply (sim_bind heapR); [apply pdfr_sim; exact H|]. intros h1 h1' H1.
  apply (sim_bind heapR); [apply splay_loop_sim; exact H1|]. intros; apply push_up_sim; assumption.
Qed.

Lemma access_loop_sim fuel0 fuel : forall h h' p q, heapR h h' ->
  sim heapR (access_loop_chk okd fuel0 fuel h p q) (access_loop fuel0 fuel h' p q).
Proof.
  induction fuel as [|fuel IH]; intros h h' p q H; destruct p as [x|]; cbn [access_loop_chk access_loop];
    try (apply sim_ok; exact H); [apply sim_err|].
  apply (sim_bind heapR); [apply splay_sim; exact H|]. intros h1 h1' H1.
  apply (sim_bind heapR); [apply setc_sim; exact H1|]. intros h2 h2' H2.
  apply (sim_bind heapR); [apply push_up_sim; exact H2|]. intros h3 h3' H3.
  apply (sim_bind nodeR); [apply sim_ld; exact H3|]. intros _ _ []. cbn [n_fa]. apply IH; exact H3.
Qed.

Lemma access_sim fuel h h' x : heapR h h' -> sim heapR (access_chk okd fuel h x) (access fuel h' x).
Proof.
  intros H. unfold access_chk, access. apply (sim_bind heapR); [apply access_loop_sim; exact H|].
  intros; apply splay_sim; assumption.
Qed.

Lemma leftmost_sim fuel : forall h h' x, heapR h h' -> sim eq (leftmost fuel h x) (leftmost fuel h' x).
Proof.
  induction fuel as [|fuel IH]; intros h h' x H; [apply sim_err|]. cbn [leftmost].
  apply (sim_bind nodeR); [apply sim_ld; exact H|]. intros _ _ [f c0 ? ? ? ? ? ? ? _ _ _]. cbn [n_c0].
  destruct c0; [apply IH; exact H|apply sim_eq].
Qed.

Lemma find_root_sim fuel h h' x : heapR h h' -> sim (hvR eq) (find_root_chk okd fuel h x) (find_root fuel h' x).
Proof.
  intros H. unfold find_root_chk, find_root. apply (sim_bind heapR); [apply access_sim; exact H|]. intros h1 h1' H1.
  apply (sim_bind eq); [apply leftmost_sim; exact H1|]. intros r ? <-. apply sim_ok. constructor; auto.
Qed.

Lemma set_fa_sim fuel h h' x p : heapR h h' -> sim heapR (set_fa_chk okd fuel h x p) (set_fa fuel h' x p).
Proof.
  intros H. unfold set_fa_chk, set_fa. apply (sim_bind heapR); [apply splay_sim; exact H|]. intros h1 h1' H1.
  apply (sim_bind nodeR); [apply sim_ld; exact H1|]. intros _ _ []. cbn [n_fa]. apply sim_bind_eq. intros _.
  apply sim_modi; [exact H1|intros; apply set_fa_R; assumption].
Qed.

Lemma cut_sim fuel h h' x : heapR h h' -> sim heapR (cut_chk okd fuel h x) (cut fuel h' x).
Proof.
  intros H. unfold cut_chk, cut. apply (sim_bind heapR); [apply access_sim; exact H|]. intros h1 h1' H1.
  apply (sim_bind nodeR); [apply sim_ld; exact H1|]. intros _ _ [f c0 ? ? ? ? ? ? ? _ _ _]. cbn [n_c0]. apply sim_bind_eq. intros _.
  destruct c0 as [c|]; [|apply sim_err].
  apply (sim_bind heapR); [apply sim_modi; [exact H1|intros; apply set_fa_R; assumption]|]. intros h2 h2' H2.
  apply (sim_bind heapR); [apply sim_modi; [exact H2|intros; apply set_ch_R; assumption]|].
  intros; apply push_up_sim; assumption.
Qed.

Lemma get_val_sim fuel h h' x : heapR h h' -> sim (hvR R) (get_val_chk okd fuel h x) (get_val fuel h' x).
Proof.
  intros H. unfold get_val_chk, get_val. apply (sim_bind eq); [apply is_root_sim; exact H|]. intros r ? <-.
  apply (sim_bind heapR). { destruct r; [apply sim_ok; exact H|apply access_sim; exact H]. } intros h1 h1' H1.
  apply (sim_bind nodeR); [apply sim_ld; exact H1|]. intros _ _ []. apply sim_ok. constructor; auto.
Qed.

Lemma get_min_loop_sim fuel : forall h h' x r r', heapR h h' -> pairR r r' ->
  sim (hvR pairR) (get_min_loop_chk okd fuel h x r) (get_min_loop fuel h' x r').
Proof.
  induction fuel as [|fuel IH]; intros h h' x r r' H Hr; [apply sim_err|]. cbn [get_min_loop_chk get_min_loop].
  apply (sim_bind heapR); [apply push_down_sim; exact H|]. intros h1 h1' H1.
  apply (sim_bind nodeR); [apply sim_ld; exact H1|]. intros _ _ [f c0 c1 m m' v v' a a' _ Hv _]. cbn [n_c0 n_c1 n_val].
  apply (sim_bind pairR).
  { destruct c1 as [c|]; [|apply sim_ok; exact Hr].
    apply (sim_bind nodeR); [apply sim_ld; exact H1|].
    intros _ _ [? ? ? mm mm' ? ? ? ? Hmm _ _]. cbn [n_min]. apply sim_ok.
    destruct Hmm as [z z' p Hz]. destruct Hr as [y y' p' Hy]. cbn [fst]. rewrite (Rle _ _ _ _ Hz Hy).
    apply if_R; constructor; assumption. }
  intros s s' Hs. destruct c0 as [c|]; [|apply sim_ok; constructor; assumption]. cbv zeta. apply IH; [exact H1|].
  assert (E : dle v (fst s) = dle v' (fst s')) by (destruct Hs; apply Rle; assumption). rewrite E.
  apply if_R; [constructor; exact Hv|exact Hs].
Qed.

Lemma get_min_sim fuel h h' x : heapR h h' ->
  sim (hvR pairR) (get_min_wtrbnr_chk okd fuel h x) (get_min_wtrbnr fuel h' x).
Proof.
  intros H. unfold get_min_wtrbnr_chk, get_min_wtrbnr. apply (sim_bind heapR); [apply access_sim; exact H|]. intros h1 h1' H1.
  apply (sim_bind nodeR); [apply sim_ld; exact H1|]. intros _ _ []. apply get_min_loop_sim; [exact H1|constructor; assumption].
Qed.

Lemma set_val_sim fuel h h' x v v' : heapR h h' -> R v v' -> sim heapR (set_val_chk okd fuel h x v) (set_val fuel h' x v').
Proof.
  intros H Hv. unfold set_val_chk, set_val. apply (sim_bind eq); [apply is_root_sim; exact H|]. intros r ? <-.
  apply (sim_bind heapR). { destruct r; [apply sim_ok; exact H|apply access_sim; exact H]. } intros h1 h1' H1.
  apply (sim_bind heapR); [apply sim_modi; [exact H1|intros; apply set_val_R; assumption]|].
  intros; apply push_up_sim; assumption.
Qed.

Lemma add_path_sim fuel h h' x d d' : heapR h h' -> R d d' ->
  sim heapR (add_val_way_to_root_chk okd fuel h x d) (add_val_way_to_root fuel h' x d').
Proof.
  intros H Hd. unfold add_val_way_to_root_chk, add_val_way_to_root.
  apply (sim_bind heapR); [apply access_sim; exact H|]. intros; apply update_add_sim; assumption.
Qed.

(** ** Flow *)
Inductive limR : OmegaLimit D1 -> OmegaLimit D2 -> Prop :=
| limR_i l u f f' i j : l <= u -> (forall x, l <= x <= u -> sim R (f x) (f' x)) -> limR (mkOm l u f i j) (mkOm l u f' i j).

Inductive flowR : flow D1 -> flow D2 -> Prop :=
| flowR_i n M M' eps h h' im im' cur uq fa es es' fl fl' G sc :
    R M M' -> heapR h h' -> Forall2 R im im' -> Forall2 limR es es' -> Forall2 R fl fl' ->
    flowR (mkFlow n M eps h im cur uq fa es fl G sc) (mkFlow n M' eps h' im' cur uq fa es' fl' G sc).

Ltac fields := cbn [f_n f_M f_eps f_nodes f_imb f_cur f_uq f_fa f_edges f_flows f_G f_scal
  with_eps with_nodes with_imb with_cur with_uq with_fa with_edges with_flows with_scal o_l o_u o_fn o_i o_j].

Lemma dmax_R a b a' b' : R a b -> R a' b' -> R (dmax a a') (dmax b b').
Proof. intros H H'. unfold dmax. rewrite (Rlt _ _ _ _ H H'). destruct (dlt b b'); assumption. Qed.

Lemma q_sim s s' e : flowR s s' -> sim R (q_chk okd s e) (q s' e).
Proof.
  intros H. destruct H as [n M M' eps h h' im im' cur uq fa es es' fl fl' G sc HM Hh Him Hes Hfl].
  unfold q_chk, q. fields. apply (sim_bind limR); [apply sim_vget; exact Hes|].
  intros _ _ [l u f f' i j Hlu Hf]. fields.
  apply sim_bind_eq; intros pi. apply sim_bind_eq; intros pj. apply sim_bind_eq; intros d.
  apply sim_bind_eq; intros t. apply (sim_bind (fun a b => a = b /\ a = t + 1)).
  { intros a E. apply ck_inv in E as E'. destruct E' as [-> _]. eauto. }
  intros t1 ? [<- ->]. apply (sim_bind R); [apply sim_vget; exact Hfl|]. intros x x' Hx.
  destruct (u <? t + 1) eqn:E1.
  { intros a E. apply ckd_inv in E. destruct E as [-> E]. eexists. split; [reflexivity|]. apply Rsub; assumption. }
  destruct (t <? l) eqn:E2; [apply sim_ok; exact R0|].
  apply Z.ltb_ge in E1. apply Z.ltb_ge in E2.
  apply (sim_bind R); [apply Hf; lia|]. intros a a' Ha. apply (sim_bind R); [apply Hf; lia|]. intros b b' Hb.
  apply sim_ckd; intros F1. apply sim_ckd; intros F2. apply sim_ok. apply dmax_R; [exact R0|].
  apply Rsub; [apply Rsub; assumption| |]; assumption.
Qed.

Lemma add_flow_sim s s' e d d' : flowR s s' -> R d d' -> sim flowR (add_flow_chk okd s e d) (add_flow_of_edge s' e d').
Proof.
  intros H Hd. destruct H as [n M M' eps h h' im im' cur uq fa es es' fl fl' G sc HM Hh Him Hes Hfl].
  unfold add_flow_chk, add_flow_of_edge. fields.
  apply (sim_bind R); [apply sim_vget; exact Hfl|]. intros x x' Hx. apply sim_ckd; intros E.
  apply (sim_bind (Forall2 R)); [apply sim_vset; [exact Hfl|apply Radd; assumption]|]. intros f1 f1' H1.
  apply (sim_bind R); [apply sim_vget; exact H1|]. intros y y' Hy.
  apply (sim_bind (Forall2 R)); [apply sim_vset; [exact H1|apply Ropp; exact Hy]|]. intros f2 f2' H2.
  apply sim_ok. constructor; assumption.
Qed.

Lemma link_sim fuel s s' p : flowR s s' -> sim flowR (link_chk okd fuel s p) (link fuel s' p).
Proof.
  intros H. unfold link_chk. intros s2 E. apply bind_inv in E. destruct E as (b & _ & E). revert s2 E.
  match goal with |- forall s2, ?m = Ok s2 -> exists b, ?m2 = Ok b /\ flowR s2 b => change (sim flowR m m2) end.
  apply sim_assert. unfold link.
  destruct H as [n M M' eps h h' im im' cur uq fa es es' fl fl' G sc HM Hh Him Hes Hfl]. fields.
  apply sim_bind_eq; intros g. apply sim_bind_eq; intros c. apply sim_bind_eq; intros e_id.
  apply (sim_bind limR); [apply sim_vget; exact Hes|]. intros _ _ [l u f f' i j Hlu Hf]. fields.
  apply sim_bind_eq; intros fa2. cbv zeta. fields.
  apply (sim_bind R); [apply q_sim; constructor; assumption|]. intros v v' Hv.
  apply (sim_bind heapR); [apply set_val_sim; assumption|]. intros h1 h1' H1.
  apply (sim_bind nodeR); [apply sim_vget; exact Hh|]. intros _ _ _.
  apply (sim_bind heapR); [apply set_fa_sim; exact H1|]. intros h2 h2' H2.
  apply sim_ok. constructor; assumption.
Qed.

Lemma flow_cut_sim fuel s s' p : flowR s s' -> sim flowR (flow_cut_chk okd fuel s p) (flow_cut fuel s' p).
Proof.
  intros H. unfold flow_cut_chk, flow_cut. apply sim_assert.
  destruct H as [n M M' eps h h' im im' cur uq fa es es' fl fl' G sc HM Hh Him Hes Hfl]. fields.
  apply sim_bind_eq; intros fa2. cbv zeta. fields.
  apply (sim_bind heapR); [apply cut_sim; exact Hh|]. intros h1 h1' H1. fields.
  apply sim_bind_eq; intros g. apply sim_bind_eq; intros c. apply sim_bind_eq; intros e_id.
  apply (sim_bind R); [apply q_sim; constructor; assumption|]. intros a a' Ha.
  apply (sim_bind (hvR R)); [apply get_val_sim; exact H1|]. intros _ _ [h2 h2' v v' H2 Hv]. fields.
  apply sim_ckd; intros E. apply add_flow_sim; [constructor; assumption|apply Rsub; assumption].
Qed.

Lemma uq_push_sim s s' x : flowR s s' ->
  sim flowR (u <- uq_push (f_uq s) x ;; Ok (with_uq s u)) (u <- uq_push (f_uq s') x ;; Ok (with_uq s' u)).
Proof.
  intros [n M M' eps h h' im im' cur uq fa es es' fl fl' G sc HM Hh Him Hes Hfl]. fields.
  apply sim_bind_eq; intros u. apply sim_ok. constructor; assumption.
Qed.

Lemma send_push_sim fuel s s' p r x x' : flowR s s' -> R x x' ->
  sim flowR (send_push_chk okd fuel s p r x) (send_push fuel s' p r x').
Proof.
  intros H Hx. unfold send_push_chk, send_push.
  destruct H as [n M M' eps h h' im im' cur uq fa es es' fl fl' G sc HM Hh Him Hes Hfl]. fields.
  apply (sim_bind heapR); [apply add_path_sim; [exact Hh|apply Ropp; exact Hx]|]. intros h1 h1' H1. cbv zeta. fields.
  apply (sim_bind R); [apply sim_vget; exact Him|]. intros a a' Ha. apply sim_ckd; intros E1.
  apply (sim_bind (Forall2 R)); [apply sim_vset; [exact Him|apply Rsub; assumption]|]. intros i1 i1' Hi1.
  apply (sim_bind R); [apply sim_vget; exact Hi1|]. intros b b' Hb. apply sim_ckd; intros E2.
  apply (sim_bind (Forall2 R)); [apply sim_vset; [exact Hi1|apply Radd; assumption]|]. intros i2 i2' Hi2.
  apply (sim_bind R); [apply sim_vget; exact Hi2|]. intros c c' Hc. rewrite (Rlt _ _ _ _ R0 Hc).
  destruct (dlt dzero c'); [|apply sim_ok; constructor; assumption].
  apply sim_bind_eq; intros u. apply sim_ok. constructor; assumption.
Qed.

Lemma send_loop_sim fuel0 : forall fuel s s' p r, flowR s s' ->
  sim flowR (send_loop_chk okd fuel0 fuel s p r) (send_loop fuel0 fuel s' p r).
Proof.
  induction fuel as [|fuel IH]; intros s s' p r H; cbn [send_loop_chk send_loop]; destruct (Nat.eqb p r);
    try (apply sim_ok; exact H); [apply sim_err|].
  apply sim_assert. apply sim_assert.
  destruct H as [n M M' eps h h' im im' cur uq fa es es' fl fl' G sc HM Hh Him Hes Hfl]. fields.
  apply (sim_bind (hvR pairR)); [apply get_min_sim; exact Hh|]. intros _ _ [h1 h1' _ _ H1 [m m' w Hm]]. fields.
  apply (sim_bind R); [apply sim_vget; exact Him|]. intros a a' Ha. cbn [fst snd]. rewrite (Rlt _ _ _ _ Ha Hm).
  destruct (dlt a' m'); [apply send_push_sim; [constructor; assumption|exact Ha]|].
  apply (sim_bind flowR); [apply send_push_sim; [constructor; assumption|exact Hm]|]. intros s1 s1' Hs1.
  destruct w as [w|]; [|apply sim_err].
  apply (sim_bind flowR); [apply flow_cut_sim; exact Hs1|]. intros; apply IH; assumption.
Qed.

Lemma send_sim fuel s s' p : flowR s s' -> sim flowR (send_chk okd fuel s p) (send fuel s' p).
Proof.
  intros H. unfold send_chk, send.
  destruct H as [n M M' eps h h' im im' cur uq fa es es' fl fl' G sc HM Hh Him Hes Hfl]. fields.
  apply (sim_bind (hvR eq)); [apply find_root_sim; exact Hh|]. intros _ _ [h1 h1' r ? H1 <-]. fields.
  apply send_loop_sim. constructor; assumption.
Qed.

Lemma update_scaling_sim fuel s s' p : flowR s s' -> sim flowR (update_scaling_chk okd fuel s p) (update_scaling fuel s' p).
Proof.
  intros H. unfold update_scaling_chk, update_scaling.
  assert (EG : f_G s = f_G s') by (destruct H; reflexivity). rewrite EG. apply sim_bind_eq; intros g.
  apply (sim_bind flowR).
  { apply sim_for_each; [|exact H]. intros t t' e Ht.
    assert (Ht0 := Ht).
    destruct Ht0 as [n M M' eps h h' im im' cur uq fa es es' fl fl' G sc HM Hh Him Hes Hfl]. fields.
    apply (sim_bind limR); [apply sim_vget; exact Hes|]. intros _ _ [l u f f' i j Hlu Hf]. fields. cbv zeta.
    apply sim_bind_eq; intros a. destruct (ptr_eqb a (Some p)); [apply flow_cut_sim; exact Ht|apply sim_ok; exact Ht]. }
  intros t t' Ht.
  destruct Ht as [n M M' eps h h' im im' cur uq fa es es' fl fl' G sc HM Hh Him Hes Hfl]. fields.
  apply sim_bind_eq; intros a. apply sim_bind_eq; intros a'. apply sim_bind_eq; intros sc2. apply sim_bind_eq; intros cu.
  apply sim_ok. constructor; assumption.
Qed.

Lemma choice_loop_sim fuel0 : forall fuel s s' p, flowR s s' ->
  sim flowR (choice_loop_chk okd fuel0 fuel s p) (choice_loop fuel0 fuel s' p).
Proof.
  induction fuel as [|fuel IH]; intros s s' p H; [apply sim_err|]. cbn [choice_loop_chk choice_loop].
  assert (EG : f_G s = f_G s') by (destruct H; reflexivity). assert (EC : f_cur s = f_cur s') by (destruct H; reflexivity).
  rewrite EG, EC. apply sim_bind_eq; intros c. apply sim_bind_eq; intros g.
  destruct (c <? length g)%nat; [|apply update_scaling_sim; exact H].
  apply sim_bind_eq; intros e. apply (sim_bind R); [apply q_sim; exact H|]. intros v v' Hv. rewrite (Rlt _ _ _ _ R0 Hv).
  destruct (dlt dzero v').
  - apply (sim_bind flowR); [apply link_sim; exact H|]. intros; apply send_sim; assumption.
  - apply sim_bind_eq; intros cu. apply IH. destruct H. constructor; assumption.
Qed.

Lemma refine_loop_sim fuel0 : forall fuel s s', flowR s s' ->
  sim flowR (refine_loop_chk okd fuel0 fuel s) (refine_loop fuel0 fuel s').
Proof.
  induction fuel as [|fuel IH]; intros s s' H; cbn [refine_loop_chk refine_loop];
    assert (EQ : f_uq s = f_uq s') by (destruct H; reflexivity); rewrite EQ; destruct (uq_empty (f_uq s'));
    try (apply sim_ok; exact H); [apply sim_err|].
  apply sim_assert. apply sim_bind_eq; intros p.
  apply (sim_bind flowR); [apply choice_loop_sim; exact H|]. intros s1 s1' H1.
  assert (EQ1 : f_uq s1 = f_uq s1') by (destruct H1; reflexivity). rewrite EQ1. apply sim_bind_eq; intros p2.
  apply (sim_bind R); [apply sim_vget; destruct H1; assumption|]. intros a a' Ha. rewrite (Req _ _ _ _ Ha R0).
  apply (sim_bind flowR); [|intros; apply IH; assumption].
  destruct (deq a' dzero); [|apply sim_ok; exact H1].
  apply sim_bind_eq; intros u. apply sim_ok. destruct H1. constructor; assumption.
Qed.

Lemma cut_all_sim fuel s s' : flowR s s' -> sim flowR (cut_all_chk okd fuel s) (cut_all fuel s').
Proof.
  intros H. unfold cut_all_chk, cut_all. assert (EN : f_n s = f_n s') by (destruct H; reflexivity). rewrite EN.
  apply sim_for_each; [|exact H]. intros t t' i Ht. assert (EF : f_fa t = f_fa t') by (destruct Ht; reflexivity). rewrite EF.
  apply sim_bind_eq; intros a. destruct a; [apply flow_cut_sim; exact Ht|apply sim_ok; exact Ht].
Qed.

Lemma push_all_sim s s' : flowR s s' -> sim flowR (push_all_chk okd s) (push_all_admissible_edge s').
Proof.
  intros H. unfold push_all_chk, push_all_admissible_edge.
  assert (EL : length (f_edges s) = length (f_edges s')) by (destruct H; cbn [f_edges]; eapply Forall2_len; eassumption).
  rewrite EL. apply (sim_bind flowR).
  { apply sim_for_each; [|exact H]. intros t t' e Ht.
    apply (sim_bind limR); [apply sim_vget; destruct Ht; assumption|]. intros _ _ [l u f f' i j Hlu Hf]. fields.
    apply (sim_bind R); [apply q_sim; exact Ht|]. intros v v' Hv. rewrite (Rlt _ _ _ _ R0 Hv).
    destruct (dlt dzero v'); [|apply sim_ok; exact Ht].
    destruct Ht as [n M M' eps h h' im im' cur uq fa es es' fl fl' G sc HM Hh Him Hes Hfl]. fields.
    apply (sim_bind R); [apply sim_vget; exact Him|]. intros a a' Ha. apply sim_ckd; intros E1.
    apply (sim_bind (Forall2 R)); [apply sim_vset; [exact Him|apply Rsub; assumption]|]. intros i1 i1' Hi1.
    apply (sim_bind R); [apply sim_vget; exact Hi1|]. intros b b' Hb. apply sim_ckd; intros E2.
    apply (sim_bind (Forall2 R)); [apply sim_vset; [exact Hi1|apply Radd; assumption]|]. intros i2 i2' Hi2.
    apply add_flow_sim; [constructor; assumption|exact Hv]. }
  intros s1 s1' H1. assert (EN : f_n s1 = f_n s1') by (destruct H1; reflexivity). rewrite EN.
  apply sim_for_each; [|exact H1]. intros t t' i Ht.
  apply (sim_bind R); [apply sim_vget; destruct Ht; assumption|]. intros a a' Ha. rewrite (Rlt _ _ _ _ R0 Ha).
  destruct (dlt dzero a'); [apply uq_push_sim; exact Ht|apply sim_ok; exact Ht].
Qed.

Lemma phase_sim fuel s s' : flowR s s' -> sim flowR (phase_chk okd fuel s) (phase fuel s').
Proof.
  intros H. unfold phase_chk, phase. cbv zeta.
  assert (HI : flowR (initialization s) (initialization s')) by (destruct H; constructor; assumption).
  apply (sim_bind flowR); [apply push_all_sim; exact HI|]. intros s1 s1' H1.
  unfold refine_chk, refine. apply (sim_bind flowR); [apply refine_loop_sim; exact H1|].
  intros; apply cut_all_sim; assumption.
Qed.

Lemma scaling_loop_sim fuel0 : forall fuel s s', flowR s s' ->
  sim flowR (scaling_loop_chk okd fuel0 fuel s) (scaling_loop fuel0 fuel s').
Proof.
  induction fuel as [|fuel IH]; intros s s' H; cbn [scaling_loop_chk scaling_loop];
    assert (EE : f_eps s = f_eps s') by (destruct H; reflexivity); rewrite EE; destruct (f_eps s' <? 2);
    try (apply sim_ok; exact H); [apply sim_err|].
  apply (sim_bind flowR); [apply phase_sim; exact H|]. intros s1 s1' H1.
  apply IH. destruct H1. constructor; assumption.
Qed.

End Sim.
