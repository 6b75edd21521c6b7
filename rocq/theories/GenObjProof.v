(** * Graph objects: the settings are those asked for, and the past has no influence *)
From Verif Require Import Base BaseLemmas Generator GenMore GenSpec GenMoreSpec GenObj GenObjSpec.
Local Open Scope Z_scope.

Definition settings (g : gen_graph) := (g_node g, g_side g, g_direction g, g_multiply g, g_self_loop g, g_connect g).

(** the settings are kept *)
Definition keeps (g : gen_graph) (m : res (gen_graph * rng)) : Prop := forall g' s', m = Ok (g', s') -> settings g' = settings g.

Lemma keeps_err g e : keeps g (Err e).
Proof. intros g' s' H. discriminate. Qed.
Lemma keeps_bind {A} g (m : res A) k : (forall a, keeps g (k a)) -> keeps g (bind m k).
Proof. intros H. destruct m; [apply H|apply keeps_err]. Qed.
Lemma keeps_then g m (k : gen_graph * rng -> res (gen_graph * rng)) : keeps g m -> (forall a s, settings a = settings g -> keeps g (k (a, s))) -> keeps g (bind m k).
Proof. intros Hm H. destruct m as [[a s]|]; [apply H; apply (Hm a s); reflexivity|apply keeps_err]. Qed.
Lemma keeps_then3 g (m : res (Z * gen_graph * rng)) k :
  (forall a b s, m = Ok (a, b, s) -> settings b = settings g) -> (forall a b s, settings b = settings g -> keeps g (k (a, b, s))) -> keeps g (bind m k).
Proof. intros Hm H. destruct m as [[[a b] s]|]; [apply H; eapply Hm; reflexivity|apply keeps_err]. Qed.
Lemma keeps_ok g a s : settings a = settings g -> keeps g (Ok (a, s)).
Proof. intros H g' s' E. inversion E; subst. exact H. Qed.
Lemma keeps_other g g' m : settings g' = settings g -> keeps g' m -> keeps g m.
Proof. intros H Hm a s E. rewrite <- H. eapply Hm; eauto. Qed.
Lemma settings_edges g a b : settings (with_edges g a b) = settings g.
Proof. reflexivity. Qed.

Lemma add_edge_keeps fuel g u v s : keeps g (gen_add_edge fuel g u v s).
Proof. unfold gen_add_edge. apply keeps_bind. intros [edge s']. apply keeps_ok. reflexivity. Qed.
Lemma add_edge_keeps' fuel g0 g u v s : settings g = settings g0 -> keeps g0 (gen_add_edge fuel g u v s).
Proof. intro H. eapply keeps_other; [exact H|apply add_edge_keeps]. Qed.
Lemma for_each_keeps {X} g (l : list X) f : (forall a s x, settings a = settings g -> keeps g (f (a, s) x)) ->
  forall a s, settings a = settings g -> keeps g (for_each l (a, s) f).
Proof.
  intro H. induction l as [|x l IH]; intros a s Ha; cbn [for_each]; [apply keeps_ok; exact Ha|]. apply keeps_then; [apply H; exact Ha|]. exact IH.
Qed.
Lemma gen_loop_keeps fuel : forall k m g0 g s, settings g = settings g0 -> keeps g0 (gen_loop fuel k m g s).
Proof.
  induction k as [|k IH]; intros m g0 g s H; cbn [gen_loop]; destruct (m =? 0); try (apply keeps_ok; exact H); [apply keeps_err|].
  apply keeps_bind; intro m'. apply keeps_bind; intros [[u v] s1]. apply keeps_then; [apply add_edge_keeps'; exact H|]. intros a s2 Ha. apply IH. exact Ha.
Qed.
Lemma add_drawn_keeps draw fuel : forall k m g0 g s, settings g = settings g0 -> keeps g0 (add_drawn draw fuel k m g s).
Proof.
  induction k as [|k IH]; intros m g0 g s H; cbn [add_drawn]; destruct (m =? 0); try (apply keeps_ok; exact H); [apply keeps_err|].
  apply keeps_bind; intro m'. apply keeps_bind; intros [[u v] s1]. apply keeps_then; [apply add_edge_keeps'; exact H|]. intros a s2 Ha. apply IH. exact Ha.
Qed.

Ltac fin := apply keeps_bind; intros [? ?]; apply keeps_ok.

Lemma graph_keeps fuel g s : keeps g (gen_graph_run fuel g s).
Proof.
  unfold gen_graph_run. cbv zeta. apply keeps_then3.
  - intros a b s'. destruct (g_connect _); [|intro E; inversion E; reflexivity]. intro E. apply bind_inv in E as (? & _ & E). apply bind_inv in E as (? & _ & E). apply bind_inv in E as ([? ?] & _ & E). inversion E. reflexivity.
  - intros m g1 s1 H1. apply keeps_then; [apply gen_loop_keeps; exact H1|]. intros g2 s2 H2. fin. exact H2.
Qed.
Lemma bipartite_keeps fuel g left s : keeps g (bipartite_run fuel g left s).
Proof.
  unfold bipartite_run. cbv zeta. apply keeps_bind; intro m. apply keeps_bind; intros [left' s1]. apply keeps_bind; intro right. apply keeps_bind; intro p. apply keeps_bind; intros [p' s2].
  apply keeps_then3.
  - intros a b s'. destruct (g_connect _); [|intro E; inversion E; reflexivity]. intro E. apply bind_inv in E as (? & _ & E). apply bind_inv in E as (? & _ & E). apply bind_inv in E as ([g1 s3] & E1 & E). apply bind_inv in E as ([g2 s4] & E2 & E).
    inversion E; subst. assert (H1 : settings g1 = settings g).
    { revert E1. refine (for_each_keeps g _ _ _ _ _ _ g1 s3); [|reflexivity]. intros a9 s9 y Ha. apply keeps_bind; intro. apply keeps_bind; intro. apply keeps_then; [apply add_edge_keeps'; exact Ha|].
      intros a' s'' Ha'. apply keeps_bind; intro. apply add_edge_keeps'. exact Ha'. }
    revert E2. refine (for_each_keeps g _ _ _ _ _ _ b s'); [|exact H1]. intros a9 s9 y Ha. apply keeps_bind; intros [v s5]. apply keeps_bind; intro. apply add_edge_keeps'. exact Ha.
  - intros a b s' Hb. apply keeps_then; [apply add_drawn_keeps; exact Hb|]. intros g2 s3 H2. fin. exact H2.
Qed.
Lemma dag_keeps fuel g s : keeps g (dag_run fuel g s).
Proof.
  unfold dag_run. cbv zeta. apply keeps_bind; intro p. apply keeps_bind; intro m. apply keeps_bind; intros [p' s1]. apply keeps_then3.
  - intros a b s'. destruct (g_connect _); [|intro E; inversion E; reflexivity]. intro E. apply bind_inv in E as (? & _ & E). apply bind_inv in E as (? & _ & E). apply bind_inv in E as ([g1 s3] & E1 & E).
    inversion E; subst. revert E1. refine (for_each_keeps g _ _ _ _ _ _ b s'); [|reflexivity]. intros a s'' y Ha. apply keeps_bind; intros [v s5]. apply keeps_bind; intro. apply keeps_bind; intro. apply add_edge_keeps'. exact Ha.
  - intros a b s' Hb. apply add_drawn_keeps; exact Hb.
Qed.
Lemma cycle_from_keeps fuel g a s : keeps g (cycle_from fuel g a s).
Proof.
  unfold cycle_from. cbv zeta. apply keeps_then.
  - apply for_each_keeps; [|reflexivity]. intros b s' y Hb. apply keeps_bind; intro. apply keeps_bind; intro. apply add_edge_keeps'. exact Hb.
  - intros b s' Hb. apply keeps_bind; intro. apply keeps_bind; intro. destruct (_ && _); [apply add_edge_keeps'; exact Hb|apply keeps_ok; exact Hb].
Qed.
Lemma cycle_keeps fuel g s : keeps g (cycle_run fuel g s).
Proof.
  unfold cycle_run. apply keeps_bind; intro p. apply keeps_bind; intros [p' s1]. apply keeps_then; [apply cycle_from_keeps|]. intros b s' Hb. fin. exact Hb.
Qed.
Lemma wheel_from_keeps fuel g v p s : keeps g (wheel_from fuel g v p s).
Proof.
  unfold wheel_from. cbv zeta. apply keeps_bind; intros [c s1]. apply keeps_then; [apply for_each_keeps; [|reflexivity]; intros; apply add_edge_keeps'; assumption|].
  intros b s' Hb. fin. exact Hb.
Qed.
Lemma wheel_on_keeps fuel g p s : keeps g (wheel_on fuel g p s).
Proof. unfold wheel_on. apply keeps_bind; intros [[|v p'] s1]; [apply keeps_err|apply wheel_from_keeps]. Qed.
Lemma wheel_keeps fuel g s : keeps g (wheel_run fuel g s).
Proof. unfold wheel_run. apply keeps_bind; intro p. apply keeps_bind; intros [[|v p'] s1]; [apply keeps_err|apply wheel_from_keeps]. Qed.
Lemma pseudo_keeps round out fuel g size s : keeps g (pseudo_run round out fuel g size s).
Proof.
  unfold pseudo_run. cbv zeta. apply keeps_bind; intros [size' s1]. apply keeps_bind; intro p. apply keeps_bind; intros [p' s2]. apply keeps_bind; intro. apply keeps_bind; intros [c s3].
  apply keeps_then; [apply for_each_keeps; [|reflexivity]; intros b s' y Hb; apply keeps_bind; intros [f s4]; apply keeps_bind; intro; apply keeps_bind; intro; destruct out; apply add_edge_keeps'; exact Hb|].
  intros b s' Hb. fin. exact Hb.
Qed.
Lemma grid_keeps fuel g s : keeps g (grid_run fuel g s).
Proof.
  unfold grid_run. cbv zeta. apply keeps_bind; intro p. apply keeps_bind; intros [[m row] s1]. apply keeps_bind; intro. apply keeps_bind; intro. apply keeps_bind; intro. apply keeps_bind; intros [p' s2].
  apply keeps_then.
  - apply for_each_keeps; [|reflexivity]. intros b s' y Hb. apply keeps_then.
    + apply for_each_keeps; [|exact Hb]. intros b' s'' z Hb'. apply keeps_bind; intro. destruct (_ <=? _); [apply keeps_ok; exact Hb'|]. apply keeps_bind; intro. apply keeps_bind; intro.
      destruct (Z.rem y 2 =? 0); apply add_edge_keeps'; exact Hb'.
    + intros b' s'' Hb'. apply keeps_bind; intro. apply keeps_bind; intro. destruct (_ && _); [|apply keeps_ok; exact Hb']. apply keeps_bind; intro. apply keeps_bind; intro. apply add_edge_keeps'; exact Hb'.
  - intros b s' Hb. apply keeps_then; [apply add_drawn_keeps; exact Hb|]. intros b' s'' Hb'. fin. exact Hb'.
Qed.
(** Cactus brings [side] into range *)
Lemma cactus_keeps fuel g s g' s' : cactus_run fuel g s = Ok (g', s') -> settings g' = settings (set_side (g_side g') g).
Proof.
  unfold cactus_run. cbv zeta. intro E.
  repeat (let x := fresh "x" in apply bind_inv in E as (x & _ & E); try (match type of x with (_ * _)%type => destruct x end)). inversion E; subst. reflexivity.
Qed.

(** what the past of an object is: edges and the map *)
Lemma gen_past c fuel k g a b s : generates k = true -> call c fuel k (with_edges g a b, s) = call c fuel k (g, s).
Proof. destruct g. destruct k; intro H; try discriminate H; destruct c; reflexivity. Qed.

Definition same_settings (c : gclass) (g g' : gen_graph) : Prop :=
  match c with CCactus => settings g = settings (set_side (g_side g) g') | _ => settings g = settings g' end.
Lemma gen_keeps c fuel k g s g' s' : has c k = true -> generates k = true -> call c fuel k (g, s) = Ok (g', s') -> same_settings c g' g.
Proof.
  intros HH HG. assert (K : c <> CCactus -> keeps g (call c fuel k (g, s))).
  { intro NC. destruct k; try discriminate HG; destruct c; try discriminate HH; try congruence; cbn [call own_gen];
    first [apply graph_keeps | apply bipartite_keeps | apply dag_keeps | apply cycle_keeps | apply wheel_keeps | apply grid_keeps | apply pseudo_keeps
      | apply cycle_from_keeps | apply wheel_on_keeps | apply wheel_from_keeps]. }
  unfold same_settings. destruct c; try (apply K; discriminate). destruct k; try discriminate; cbn [call own_gen]; apply cactus_keeps.
Qed.

(** as asked, but the side of a cactus may be another *)
Lemma settings_eq g g' : settings g = settings g' -> g = with_edges g' (g_edge g) (g_e g).
Proof. destruct g, g'. unfold settings, with_edges. cbn. intro H. inversion H. reflexivity. Qed.

Lemma construct_asked c n m g : construct c n m = Ok g -> g = as_asked c n m [].
Proof.
  destruct c; cbn [construct]; intro H; try (inversion H; reflexivity). apply bind_inv in H as (d & D1 & H). apply bind_inv in H as (d' & D2 & H). inversion H.
  apply ck_inv in D1 as [-> _]. apply ck_inv in D2 as [-> _]. reflexivity.
Qed.
Lemma snoc_fold {A B} (f : A -> B -> A) l x a : fold_left f (l ++ [x]) a = f (fold_left f l a) x.
Proof. rewrite fold_left_app. reflexivity. Qed.

Lemma calls_snoc c fuel l k st : calls c fuel (l ++ [k]) st = bind (calls c fuel l st) (call c fuel k).
Proof.
  unfold calls. revert st. induction l as [|x l IH]; intro st; cbn [app for_each].
  - cbn [bind]. destruct (call c fuel k st); reflexivity.
  - destruct (call c fuel x st); cbn [bind]; [apply IH|reflexivity].
Qed.

Lemma set_step c k g n m l s g' s' fuel : generates k = false -> same_settings c g (as_asked c n m l) ->
  call c fuel k (g, s) = Ok (g', s') -> same_settings c g' (as_asked c n m (l ++ [k])).
Proof.
  intros HG HS. unfold as_asked, asked_node, asked_side, asked_direction, asked_multiply, asked_loop, asked_connect in *. rewrite ?snoc_fold.
  destruct g as [n0 m0 ed ee d0 mu0 sl0 co0].
  destruct k; try discriminate HG; cbn [call]; unfold call_set_node, call_set_side, call_set_direction, call_set_multiply, call_set_self_loop, call_set_connect; intro E;
    destruct c; cbn [bind] in E; try (apply bind_inv in E as (? & E1 & E); apply bind_inv in E1 as (? & D1 & E1); apply bind_inv in E1 as (? & D2 & E1);
      apply ck_inv in D1 as [-> _]; apply ck_inv in D2 as [-> _]; inversion E1; subst; clear E1);
    inversion E; subst; clear E; unfold same_settings, settings in *; cbn in *; inversion HS; subst; reflexivity.
Qed.
Lemma gen_step c k n m l : generates k = true -> as_asked c n m (l ++ [k]) = as_asked c n m l.
Proof.
  intro HG. unfold as_asked, asked_node, asked_side, asked_direction, asked_multiply, asked_loop, asked_connect. rewrite ?snoc_fold. destruct k; try discriminate HG; reflexivity.
Qed.
Lemma same_settings_trans c g1 g2 g3 : same_settings c g1 g2 -> same_settings c g2 g3 -> same_settings c g1 g3.
Proof.
  unfold same_settings. destruct c; try congruence. destruct g1, g2, g3. unfold settings. cbn. intros H1 H2. inversion H1; inversion H2; subst. reflexivity.
Qed.

Theorem settings_asked c fuel n m l g0 s0 g s : forallb (has c) l = true -> construct c n m = Ok g0 -> calls c fuel l (g0, s0) = Ok (g, s) ->
  same_settings c g (as_asked c n m l).
Proof.
  intros HH HC. revert g s. induction l as [|k l IH] using rev_ind; intros g s H.
  - unfold calls in H. cbn [for_each] in H. inversion H; subst. rewrite (construct_asked _ _ _ _ HC). unfold same_settings. destruct c; reflexivity.
  - rewrite forallb_app in HH. apply andb_prop in HH as [H1 H2]. cbn [forallb] in H2. rewrite Bool.andb_true_r in H2. rewrite calls_snoc in H. apply bind_inv in H as ([g1 s1] & E1 & E2).
    specialize (IH H1 g1 s1 E1). destruct (generates k) eqn:G.
    + rewrite gen_step by exact G. eapply same_settings_trans; [exact (gen_keeps _ _ _ _ _ _ _ H2 G E2)|exact IH].
    + eapply set_step; eauto.
Qed.

(** ** in the words of the theorems *)
Theorem object_settings c fuel n m l g0 s0 g s : forallb (has c) l = true -> construct c n m = Ok g0 -> calls c fuel l (g0, s0) = Ok (g, s) ->
  g_node g = asked_node n l /\ (c <> CCactus -> g_side g = or_else (forced_side c (asked_node n l)) (asked_side m l)) /\
  g_direction g = or_else (forced_direction c) (asked_direction l) /\ g_multiply g = or_else (forced_multiply c) (asked_multiply l) /\
  g_self_loop g = or_else (forced_loop c) (asked_loop l) /\ g_connect g = or_else (forced_connect c) (asked_connect l).
Proof.
  intros H1 H2 H3. assert (H := settings_asked _ _ _ _ _ _ _ _ _ H1 H2 H3). clear - H. destruct g. unfold same_settings, settings in H.
  destruct c; cbn in *; inversion H; subst; repeat split; congruence.
Qed.
Theorem object_past c fuel n m l k g0 s0 g s : c <> CCactus -> forallb (has c) l = true -> construct c n m = Ok g0 -> calls c fuel l (g0, s0) = Ok (g, s) ->
  generates k = true -> call c fuel k (g, s) = call c fuel k (as_asked c n m l, s).
Proof.
  intros NC H1 H2 H3 HG. assert (H := settings_asked _ _ _ _ _ _ _ _ _ H1 H2 H3).
  assert (H' : settings g = settings (as_asked c n m l)) by (unfold same_settings in H; destruct c; congruence). rewrite (settings_eq _ _ H'). apply gen_past. exact HG.
Qed.
Theorem cactus_past fuel n m l k g0 s0 g s : forallb (has CCactus) l = true -> construct CCactus n m = Ok g0 -> calls CCactus fuel l (g0, s0) = Ok (g, s) ->
  generates k = true -> call CCactus fuel k (g, s) = call CCactus fuel k (set_side (g_side g) (as_asked CCactus n m l), s).
Proof.
  intros H1 H2 H3 HG. assert (H := settings_asked _ _ _ _ _ _ _ _ _ H1 H2 H3). cbn [same_settings] in H. rewrite (settings_eq _ _ H) at 1. apply gen_past. exact HG.
Qed.

(** ** consequences for single classes *)
From Verif Require Import GenRng GenGraphProof GenShapes GenMoreThm GenExample.

Theorem cycle_object fuel n m l g0 s0 g s : forallb (has CCycle) l = true -> construct CCycle n m = Ok g0 -> calls CCycle fuel l (g0, s0) = Ok (g, s) ->
  3 <= asked_node n l <= INT_MAX -> rng_fuel fuel ->
  exists g' s', call CCycle fuel (Gen (-1)) (g, s) = Ok (g', s') /\ simple_connected (asked_node n l) (g_edge g') /\
    exists p, all_nodes (asked_node n l) p /\ drawn_as (asked_direction l) (g_edge g') (ring_edges p).
Proof.
  intros H1 H2 H3 HN HF. rewrite (object_past CCycle fuel n m l (Gen (-1)) g0 s0 g s ltac:(discriminate) H1 H2 H3 eq_refl). cbn [call own_gen].
  destruct (cycle_graph fuel (as_asked CCycle n m l) s HN eq_refl eq_refl HF) as (g' & s' & E & _ & SC & P). exists g', s'. split; [exact E|]. split; [exact SC|exact P].
Qed.
Theorem dag_object fuel n m l g0 s0 g s : forallb (has CDag) l = true -> construct CDag n m = Ok g0 -> calls CDag fuel l (g0, s0) = Ok (g, s) ->
  1 <= asked_node n l <= INT_MAX -> 0 <= asked_side m l <= INT_MAX -> (asked_multiply l = false -> asked_node n l * (asked_node n l - 1) <= INT_MAX) ->
  drawable (asked_multiply l) (asked_node n l) -> rng_fuel fuel ->
  exists g' s', call CDag fuel (Gen (-1)) (g, s) = Ok (g', s') /\ nodes_in (asked_node n l) (g_edge g') /\ acyclic (g_edge g').
Proof.
  intros H1 H2 H3 HN HM HO HD HF. rewrite (object_past CDag fuel n m l (Gen (-1)) g0 s0 g s ltac:(discriminate) H1 H2 H3 eq_refl). cbn [call own_gen].
  destruct (dag_all fuel (as_asked CDag n m l) s HN HM eq_refl eq_refl HO HD HF) as (g' & s' & E & _ & A & B & _). exists g', s'. auto.
Qed.
Theorem pseudo_by_graph fuel n m l g0 s0 g s : forallb (has CPseudo) l = true -> construct CPseudo n m = Ok g0 -> calls CPseudo fuel l (g0, s0) = Ok (g, s) ->
  3 <= asked_node n l <= INT_MAX -> drawable false (asked_node n l) -> rng_fuel fuel ->
  exists g' s', call CPseudo fuel GenByGraph (g, s) = Ok (g', s') /\ Z.of_nat (length (g_edge g')) = asked_node n l /\ simple_connected (asked_node n l) (g_edge g').
Proof.
  intros H1 H2 H3 HN HD HF. rewrite (object_past CPseudo fuel n m l GenByGraph g0 s0 g s ltac:(discriminate) H1 H2 H3 eq_refl). cbn [call own_gen].
  set (a := as_asked CPseudo n m l). destruct (gen_graph_ends fuel a s) as (g' & s' & E); [cbn; lia|cbn; lia|reflexivity|reflexivity|exact HD|exact HF|].
  destruct (gen_graph_safe fuel a s) as [(g1 & s1 & E1 & L & NI & NL & NR & CO)|E1]; [cbn; lia|cbn; lia| |congruence].
  exists g1, s1. split; [exact E1|]. split.
  - rewrite L. unfold edges_wanted, simple_max, a, as_asked. cbn [g_multiply g_connect g_side g_node g_self_loop g_direction or_else forced_multiply forced_connect forced_side forced_loop forced_direction].
    assert (asked_node n l <= asked_node n l * (asked_node n l - 1) / 2) by (apply Z.div_le_lower_bound; nia). lia.
  - split; [exact NI|]. split; [exact (NL eq_refl)|]. split; [exact (NR eq_refl)|exact (CO eq_refl)].
Qed.

Lemma by_base_refutes :
  (exists n m g0 fuel s g s', construct CBipartite n m = Ok g0 /\ call CBipartite fuel GenByGraph (g0, s) = Ok (g, s') /\ forall A, ~ two_sides A (g_edge g)) /\
  (exists n m g0 fuel s g s', construct CPseudoIn n m = Ok g0 /\ call CPseudoIn fuel GenByGraph (g0, s) = Ok (g, s') /\ ~ NoDup (map fst (g_edge g))) /\
  (exists n m g0 fuel s g s', construct CPseudoIn n m = Ok g0 /\ call CPseudoIn fuel (GenByPseudo (-1)) (g0, s) = Ok (g, s') /\ ~ NoDup (map fst (g_edge g))).
Proof.
  split; [|split].
  - exists 3, 3. eexists. exists 1000%nat, 1. do 2 eexists. split; [reflexivity|]. split; [vm_compute; reflexivity|]. intros A H. cbn [g_edge] in H. unfold two_sides in H.
    pose proof (H 1 2 ltac:(cbn; auto)). pose proof (H 0 1 ltac:(cbn; auto)). pose proof (H 0 2 ltac:(cbn; auto)). tauto.
  - exists 3, 3. eexists. exists 1000%nat, 1. do 2 eexists. split; [reflexivity|]. split; [vm_compute; reflexivity|]. cbn. intro H.
    repeat match goal with H : NoDup (_ :: _) |- _ => inversion H; clear H; subst end. cbn in *. tauto.
  - exists 3, 3. eexists. exists 1000%nat, 1. do 2 eexists. split; [reflexivity|]. split; [vm_compute; reflexivity|]. cbn. intro H.
    repeat match goal with H : NoDup (_ :: _) |- _ => inversion H; clear H; subst end. cbn in *. tauto.
Qed.
Lemma cactus_remembers : exists g0 fuel s g s' g1 s1 g2 s2, construct CCactus 3 100 = Ok g0 /\
  calls CCactus fuel [Gen (-1); SetNode 9] (g0, s) = Ok (g, s') /\
  call CCactus fuel (Gen (-1)) (g, s') = Ok (g1, s1) /\ call CCactus fuel (Gen (-1)) (as_asked CCactus 3 100 [Gen (-1); SetNode 9], s') = Ok (g2, s2) /\
  length (g_edge g1) = 7%nat /\ length (g_edge g2) = 12%nat.
Proof.
  eexists. exists 1000%nat, 1. do 6 eexists. split; [reflexivity|]. split; [vm_compute; reflexivity|]. split; [vm_compute; reflexivity|]. split; [vm_compute; reflexivity|]. split; reflexivity.
Qed.
