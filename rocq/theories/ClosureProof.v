(** * How deep the function objects of the solver are nested *)
From Verif Require Import Base BaseLemmas Data ProblemDefine Flow FlowFrame ProblemSolver Throw EvalSpec Closure.
Local Open Scope Z_scope.

Section Proof.
Context {D : Type} {ops : DataOps D}.
Variable mus : list (MuLimit D).
Variable oms : list (OmegaLimit D).
Notation plain := (plain mus oms).
Notation run := (run mus oms).

Definition fm {A B} (f : A -> B) (m : res A) : res B := x <- m ;; Ok (f x).
Lemma fm_bind {A B C A'} (f : B -> C) (g : A -> A') (m : res A) (m' : res A') k k' :
  m' = fm g m -> (forall a, k' (g a) = fm f (k a)) -> bind m' k' = fm f (bind m k).
Proof. intros -> H. unfold fm in *. destruct m as [a|e]; cbn [bind]; [apply H|reflexivity]. Qed.
Lemma fm_same {A B C} (f : B -> C) (m : res A) k k' : (forall a, k' a = fm f (k a)) -> bind m k' = fm f (bind m k).
Proof. intro H. apply (fm_bind f (fun a => a)); [|exact H]. unfold fm. destruct m; reflexivity. Qed.

(** ** The terms describe the functions *)
Lemma pre_plain fuel o : pre_processing fuel (plain o) = fm plain (pre_processing_c mus oms fuel o).
Proof. unfold pre_processing, pre_processing_c. apply fm_same. reflexivity. Qed.
Lemma reverse_plain o : reverse (plain o) = fm plain (reverse_c o).
Proof. unfold reverse, reverse_c. apply fm_same; intro. apply fm_same; intro. reflexivity. Qed.
Lemma merge_plain o p : merge (plain o) (plain p) = fm (fun r => (plain (fst r), snd r)) (merge_c o p).
Proof. unfold merge, merge_c. apply fm_same; intro. apply fm_same; intro. reflexivity. Qed.
Lemma check_omega_plain fuel n o : check_omega fuel n mus (plain o) = fm (option_map plain) (check_omega_c mus oms fuel n o).
Proof.
  unfold check_omega, check_omega_c. cbn [Closure.plain o_i o_j o_l o_u]. do 4 (destruct (_ : bool); [reflexivity|]).
  apply (fm_bind _ plain); [apply pre_plain|]. intro it. cbn [Closure.plain o_i o_j o_u o_fn]. do 3 (apply fm_same; intro). destruct (_ <=? _); reflexivity.
Qed.
Lemma check_omegas_plain fuel n os : check_omegas fuel n mus (map plain os) = fm (option_map (map plain)) (check_omegas_c mus oms fuel n os).
Proof.
  induction os as [|o os IH]; cbn [map check_omegas check_omegas_c]; [reflexivity|]. apply (fm_bind _ (option_map plain)); [apply check_omega_plain|].
  intros [it|]; cbn [option_map]; [|reflexivity]. apply (fm_bind _ (option_map (map plain))); [exact IH|]. intros [l|]; reflexivity.
Qed.
Lemma given_plain : map plain (given 0 oms) = oms.
Proof.
  assert (X : forall suf pre, oms = pre ++ suf -> map plain (given (length pre) suf) = suf).
  { induction suf as [|[l u f i j] suf IH]; intros pre E; cbn [given map o_l o_u o_i o_j]; [reflexivity|]. f_equal.
    - unfold Closure.plain. cbn [c_l c_u c_fn c_i c_j Closure.run user]. rewrite E, nth_error_app2, Nat.sub_diag by lia. reflexivity.
    - specialize (IH (pre ++ [mkOm l u f i j])). rewrite app_length, <- app_assoc in IH. cbn [length app] in IH. rewrite Nat.add_1_r in IH. apply IH, E. }
  exact (X oms [] eq_refl).
Qed.
Definition solver_of (n : Z) (r : option (list (climit D))) : solver D :=
  match r with None => invalid | Some os => mkSolver n mus (map plain os) end.
Lemma solver_new_plain fuel n : solver_new fuel n mus oms = fm (solver_of n) (solver_new_c mus oms fuel n).
Proof.
  unfold solver_new, solver_new_c. destruct (negb _); [reflexivity|]. apply fm_same; intros [|]; [|reflexivity]. cbn [negb].
  rewrite <- given_plain at 1. rewrite check_omegas_plain. destruct (check_omegas_c _ _ _ _ _) as [[l|]|]; reflexivity.
Qed.
Definition plain_map (m : @cmap D) : lmap := map (fun kv => (fst kv, plain (snd kv))) m.
Lemma find_plain m k : map_find (plain_map m) k = option_map plain (find_c m k).
Proof. induction m as [|[k' v] m IH]; cbn; [reflexivity|]. destruct (key_eqb k' k); [reflexivity|exact IH]. Qed.
Lemma set_plain m k v : map_set (plain_map m) k (plain v) = plain_map (set_c m k v).
Proof.
  induction m as [|[k' v'] m IH]; cbn [plain_map map set_c map_set fst snd]; [reflexivity|]. fold (plain_map m).
  destruct (key_eqb k' k); [reflexivity|]. destruct (key_ltb k k'); [reflexivity|]. cbn [map fst snd]. rewrite IH. reflexivity.
Qed.
Lemma merge_loop_plain os : forall m, merge_loop (map plain os) (plain_map m) = fm (option_map plain_map) (merge_loop_c os m).
Proof.
  induction os as [|o os IH]; intro m; cbn [map merge_loop merge_loop_c]; [reflexivity|]. apply (fm_bind _ plain).
  { cbn [Closure.plain o_i o_j]. destruct (_ <? _)%nat; [apply reverse_plain|reflexivity]. }
  intro it. cbn [Closure.plain o_i o_j]. rewrite find_plain. destruct (find_c m _) as [a|]; cbn [option_map].
  - apply (fm_bind _ (fun r => (plain (fst r), snd r))); [apply merge_plain|]. intros [o' [|]]; cbn [fst snd]; [reflexivity|]. rewrite set_plain. apply IH.
  - fold (plain it). rewrite set_plain. apply IH.
Qed.
Lemma mus_plain l : forall ret,
  for_each l (map plain ret) (fun ret i => m <- vget mus i ;; Ok (ret ++ [mkOm (m_l m) (m_u m) (m_fn m) i 0])) =
  fm (map plain) (for_each l ret (fun ret i => m <- vget mus i ;; Ok (ret ++ [mkC (m_l m) (m_u m) (CUser (OfMu i)) i 0]))).
Proof.
  induction l as [|i l IH]; intro ret; cbn [for_each]; [reflexivity|]. apply (fm_bind _ (map plain)); [|exact IH].
  unfold vget. destruct (nth_error mus i) as [m|] eqn:E; cbn [bind]; [|reflexivity]. unfold fm. cbn [bind]. rewrite map_app. cbn [map]. unfold Closure.plain at 3.
  cbn [c_l c_u c_fn c_i c_j Closure.run user]. rewrite E. reflexivity.
Qed.
Lemma merge_limits_plain n os : merge_limits (mkSolver n mus (map plain os)) = fm (option_map (map plain)) (merge_limits_c mus n os).
Proof.
  unfold merge_limits, merge_limits_c. cbn [s_n s_mus s_oms]. apply (fm_bind _ (option_map plain_map)); [apply (merge_loop_plain os [])|]. intros [m|]; cbn [option_map]; [|reflexivity].
  apply (fm_bind _ (map plain)); [apply (mus_plain _ [])|]. intro ms. unfold fm. cbn [bind option_map]. rewrite map_app. unfold plain_map. rewrite !map_map. reflexivity.
Qed.
Lemma vget_map {A B} (f : A -> B) l i : vget (map f l) i = fm f (vget l i).
Proof. unfold vget, fm. rewrite nth_error_map. destruct (nth_error l i); reflexivity. Qed.
Lemma upd_map {A B} (f : A -> B) l : forall i a, upd (map f l) i (f a) = map f (upd l i a).
Proof. induction l as [|x l IH]; intros [|i] a; cbn; try reflexivity. f_equal. apply IH. Qed.
Lemma vset_map {A B} (f : A -> B) l i a : vset (map f l) i (f a) = fm (map f) (vset l i a).
Proof. unfold vset, fm. rewrite map_length. destruct (i <? length l)%nat; cbn [bind]; [rewrite upd_map|]; reflexivity. Qed.
Lemma double_plain k : forall es, double_edges k (map plain es) = fm (map plain) (double_edges_c k es).
Proof.
  induction k as [|k IH]; intro es; cbn [double_edges double_edges_c]; [reflexivity|]. apply (fm_bind _ plain); [apply vget_map|]. intro e.
  apply (fm_bind _ (map plain)); [apply vset_map|]. intro. apply (fm_bind _ (map plain)); [apply vset_map|]. intro.
  apply (fm_bind _ plain); [apply reverse_plain|]. intro. apply (fm_bind _ (map plain)); [apply vset_map|]. apply IH.
Qed.
Lemma flow_new_edges fuel n M U cs fl : flow_new fuel n M U (map plain cs) = Ok fl ->
  exists es, edges_c cs = Ok es /\ f_edges fl = map plain es /\ length (f_flows fl) = length es.
Proof.
  unfold flow_new. intro H. apply bind_inv in H. destruct H as (eps & _ & H). apply bind_inv in H. destruct H as (? & _ & H).
  rewrite map_length in H. replace (repeat OmegaLimit0 (length cs)) with (map plain (repeat (mkC 0 0 CEmpty 0 0) (length cs))) in H
    by (clear; induction (length cs) as [|k IH]; cbn [repeat map]; [reflexivity|]; rewrite IH; reflexivity).
  rewrite <- map_app, double_plain in H. fold (edges_c cs) in H. destruct (edges_c cs) as [es|]; cbn [fm bind] in H; [|discriminate].
  apply bind_inv in H. destruct H as (G & _ & H). inversion H. exists es. split; [reflexivity|]. cbn [f_edges f_flows]. rewrite repeat_length, map_length. auto.
Qed.

(** ** Nesting *)
Definition low (k : nat) (c : climit D) : Prop := (nesting (c_fn c) <= k)%nat.
Definition ends (c : climit D) : nat * nat := (c_i c, c_j c).
Definition joined (i j : nat) (e : nat * nat) : bool :=
  (Nat.eqb (fst e) i && Nat.eqb (snd e) j) || (Nat.eqb (fst e) j && Nat.eqb (snd e) i).
Definition cnt (l : list (nat * nat)) (i j : nat) : nat := length (filter (joined i j) l).

Lemma given_facts os : forall k, map ends (given k os) = map (fun o => (o_i o, o_j o)) os /\ Forall (low 1) (given k os).
Proof. induction os as [|o os IH]; intro k; cbn [given map]; [auto|]. destruct (IH (S k)) as [-> H]. split; [reflexivity|]. constructor; [|exact H]. unfold low. cbn. lia. Qed.
Lemma check_facts fuel n os : forall l, Forall (low 1) os -> check_omegas_c mus oms fuel n os = Ok (Some l) -> map ends l = map ends os /\ Forall (low 2) l.
Proof.
  induction os as [|o os IH]; intros l HL H; cbn [check_omegas_c] in H; [inversion H; subst; auto|]. inversion HL as [|? ? HL1 HL2]; subst. apply bind_inv in H. destruct H as ([it|] & H1 & H); [|discriminate].
  apply bind_inv in H. destruct H as ([l1|] & H2 & H); [|discriminate]. inversion H; subst. destruct (IH l1 HL2 H2) as [E1 E2]. cbn [map].
  assert (X : ends it = ends o /\ low 2 it).
  { unfold check_omega_c in H1. repeat (destruct (_ : bool) in H1; [discriminate|]). apply bind_inv in H1. destruct H1 as (p & Hp & H1).
    unfold pre_processing_c in Hp. apply bind_inv in Hp. destruct Hp as (mp & _ & Hp). inversion Hp; subst p. clear Hp. cbn [c_i c_j c_u c_fn] in H1.
    apply bind_inv in H1. destruct H1 as (a & _ & H1). apply bind_inv in H1. destruct H1 as (b & _ & H1). apply bind_inv in H1. destruct H1 as (l0 & _ & H1).
    destruct (l0 <=? _); inversion H1; subst it. split; [reflexivity|]. unfold low in *. cbn [c_fn nesting]. lia. }
  destruct X as [X1 X2]. rewrite X1, E1. auto.
Qed.

(** an entry of the map after the omega limits with ends [done] *)
Definition entry_ok (done : list (nat * nat)) (kv : (nat * nat) * climit D) : Prop :=
  ends (snd kv) = fst kv /\ low (cnt done (fst (fst kv)) (snd (fst kv)) + 2) (snd kv) /\ (1 <= cnt done (fst (fst kv)) (snd (fst kv)))%nat.
Lemma cnt_app a b i j : cnt (a ++ b) i j = (cnt a i j + cnt b i j)%nat.
Proof. unfold cnt. rewrite filter_app, app_length. reflexivity. Qed.
Lemma entry_more done x kv : entry_ok done kv -> entry_ok (done ++ [x]) kv.
Proof. intros (A & B & C). unfold entry_ok, low in *. rewrite cnt_app. split; [exact A|lia]. Qed.
Lemma set_ok done m k v : Forall (entry_ok done) m -> entry_ok done (k, v) -> Forall (entry_ok done) (set_c m k v).
Proof.
  intros H HV. induction H as [|[k' v'] m H1 H IH]; cbn [set_c]; [constructor; auto|]. destruct (key_eqb k' k); [constructor; auto|].
  destruct (key_ltb k k'); constructor; auto.
Qed.
Lemma find_ok done m k v : Forall (entry_ok done) m -> find_c m k = Some v -> entry_ok done (k, v).
Proof.
  intro H. induction H as [|[k' v'] m H1 H IH]; cbn [find_c]; [discriminate|]. destruct (key_eqb k' k) eqn:E; [|exact IH]. intro X. inversion X; subst.
  unfold key_eqb in E. apply andb_prop in E. destruct E as [E1 E2]. apply Nat.eqb_eq in E1, E2. destruct k', k; cbn in *; subst. exact H1.
Qed.
Lemma joined_self e : joined (fst e) (snd e) e = true.
Proof. unfold joined. rewrite !Nat.eqb_refl. reflexivity. Qed.
Lemma joined_swap e : joined (snd e) (fst e) e = true.
Proof. unfold joined. rewrite !Nat.eqb_refl. apply orb_true_r. Qed.
Lemma merge_loop_low os : forall done m m', Forall (low 2) os -> Forall (entry_ok done) m -> merge_loop_c os m = Ok (Some m') ->
  Forall (entry_ok (done ++ map ends os)) m'.
Proof.
  induction os as [|o os IH]; intros done m m' HL HM H; cbn [merge_loop_c map] in *; [inversion H; subst; rewrite app_nil_r; exact HM|].
  inversion HL as [|? ? HL1 HL2]; subst. apply bind_inv in H. destruct H as (it & Hi & H). cbv zeta in H.
  assert (X : low 3 it /\ cnt [ends o] (c_i it) (c_j it) = 1%nat).
  { unfold cnt. destruct (c_i o <? c_j o)%nat.
    - unfold reverse_c in Hi. apply bind_inv in Hi. destruct Hi as (? & _ & Hi). apply bind_inv in Hi. destruct Hi as (? & _ & Hi). inversion Hi; subst it. cbn [c_i c_j c_fn].
      split; [unfold low in *; cbn [c_fn nesting]; lia|]. assert (J := joined_swap (ends o)). unfold ends in J |- *. cbn [fst snd] in J. cbn [filter]. rewrite J. reflexivity.
    - inversion Hi; subst it. split; [unfold low in *; lia|]. assert (J := joined_self (ends o)). unfold ends in J |- *. cbn [fst snd] in J. cbn [filter]. rewrite J. reflexivity. }
  destruct X as [X1 X2]. assert (HM' : Forall (entry_ok (done ++ [ends o])) m) by (eapply Forall_impl; [intros ?; apply entry_more|exact HM]).
  replace (done ++ ends o :: map ends os) with ((done ++ [ends o]) ++ map ends os) by (rewrite <- app_assoc; reflexivity).
  destruct (find_c m (c_i it, c_j it)) as [a|] eqn:EF.
  - apply bind_inv in H. destruct H as ([o' err] & Hm & H). destruct err; [discriminate|]. refine (IH _ _ _ HL2 _ H). apply set_ok; [exact HM'|].
    destruct (find_ok done m _ a HM EF) as (A1 & A2 & A3). cbn [fst snd] in A1, A2, A3. unfold merge_c in Hm. apply bind_inv in Hm. destruct Hm as (? & _ & Hm). apply bind_inv in Hm. destruct Hm as (? & _ & Hm).
    inversion Hm; subst o'. unfold entry_ok. cbn [fst snd]. rewrite cnt_app, X2. split; [exact A1|]. unfold low in *. cbn [c_fn nesting]. lia.
  - refine (IH _ _ _ HL2 _ H). apply set_ok; [exact HM'|]. unfold entry_ok. cbn [fst snd]. rewrite cnt_app, X2. split; [reflexivity|]. unfold low in *. lia.
Qed.
Lemma cnt_parallel i j : cnt (map (fun o => (o_i o, o_j o)) oms) i j = parallel oms i j.
Proof. unfold cnt, parallel. induction oms as [|o l IH]; cbn [map filter]; [reflexivity|]. unfold joined at 1, joins at 1. cbn [fst snd]. destruct (_ || _); cbn [length]; rewrite IH; reflexivity. Qed.
Lemma mus_low l : forall ret ms, Forall (low 2) ret ->
  for_each l ret (fun ret i => m <- vget mus i ;; Ok (ret ++ [mkC (m_l m) (m_u m) (CUser (OfMu i)) i 0])) = Ok ms -> Forall (low 2) ms.
Proof.
  induction l as [|i l IH]; intros ret ms HR H; cbn [for_each] in H; [inversion H; subst; exact HR|]. apply bind_inv in H. destruct H as (r & Hr & H). apply bind_inv in Hr. destruct Hr as (m & _ & Hr).
  inversion Hr; subst r. refine (IH _ _ _ H). apply Forall_app. split; [exact HR|]. constructor; [unfold low; cbn; lia|constructor].
Qed.
Lemma limits_low fuel n os cs : solver_new_c mus oms fuel n = Ok (Some os) -> merge_limits_c mus n os = Ok (Some cs) ->
  Forall (fun c => low (parallel oms (c_i c) (c_j c) + 2) c) cs.
Proof.
  intros H1 H2. unfold solver_new_c in H1. destruct (negb _); [discriminate|]. apply bind_inv in H1. destruct H1 as (b & _ & H1). destruct b; [|discriminate]. cbn [negb] in H1.
  destruct (given_facts oms 0) as [G1 G2]. destruct (check_facts fuel n _ os G2 H1) as [E1 E2]. rewrite G1 in E1.
  unfold merge_limits_c in H2. apply bind_inv in H2. destruct H2 as ([m|] & Hm & H2); [|discriminate]. apply bind_inv in H2. destruct H2 as (ms & Hms & H2). inversion H2; subst cs.
  apply Forall_app. split.
  - assert (X := merge_loop_low os [] [] m E2 (Forall_nil _) Hm). cbn [app] in X. rewrite E1 in X. clear - X. induction X as [|[[i j] v] m (A & B & _) X IH]; cbn [map]; constructor; [|exact IH].
    cbn [fst snd] in *. rewrite cnt_parallel in B. unfold ends in A. inversion A; subst. exact B.
  - eapply Forall_impl; [|eapply mus_low; [|exact Hms]; constructor]. unfold low. intros; lia.
Qed.
Lemma upd_forall {A} (P : A -> Prop) l : forall i a, Forall P l -> P a -> Forall P (upd l i a).
Proof. induction l as [|x l IH]; intros [|i] a H Ha; cbn [upd]; inversion H; subst; constructor; auto. Qed.
Lemma vset_forall {A} (P : A -> Prop) l i a l' : Forall P l -> P a -> vset l i a = Ok l' -> Forall P l'.
Proof. unfold vset. intros H Ha E. destruct (i <? length l)%nat; [|discriminate]. inversion E; subst. apply upd_forall; assumption. Qed.

(** positions below [m] hold limits of nesting at most [k], the others of one more *)
Definition half (m k : nat) (l : list (climit D)) : Prop :=
  forall p c, nth_error l p = Some c -> (nesting (c_fn c) <= if (p <? m)%nat then k else S k)%nat.
Lemma half_set m m' k l p c l' : half m k l -> (m' <= m)%nat -> (nesting (c_fn c) <= S k)%nat -> (p < m' -> nesting (c_fn c) <= k)%nat -> vset l p c = Ok l' -> half m' k l'.
Proof.
  intros H Hm H1 H2 E q e Hq. unfold vset in E. destruct (p <? length l)%nat eqn:EL; [|discriminate]. inversion E; subst l'. apply Nat.ltb_lt in EL. destruct (Nat.eq_dec q p) as [->|Hn].
  - rewrite (nth_error_upd_eq l p c) in Hq by exact EL. inversion Hq; subst e. destruct (Nat.ltb_spec p m'); auto.
  - rewrite (nth_error_upd_neq l p q c) in Hq by congruence. specialize (H q e Hq). destruct (Nat.ltb_spec q m), (Nat.ltb_spec q m'); lia.
Qed.
Lemma double_half k : forall m h es es', (k <= m)%nat -> half m h es -> double_edges_c k es = Ok es' -> Forall (low (S h)) es'.
Proof.
  induction k as [|k IH]; intros m h es es' Hm HH H; cbn [double_edges_c] in H.
  - inversion H; subst. apply Forall_forall. intros c Hc. apply In_nth_error in Hc. destruct Hc as [p Hp]. specialize (HH p c Hp). unfold low. destruct (p <? m)%nat; lia.
  - cbv zeta in H. apply bind_inv in H. destruct H as (e & He & H). apply vget_inv in He. assert (Ne : (nesting (c_fn e) <= h)%nat) by (specialize (HH k e He); destruct (Nat.ltb_spec k m); lia).
    apply bind_inv in H. destruct H as (e1 & H1 & H). apply bind_inv in H. destruct H as (e2 & H2 & H). apply bind_inv in H. destruct H as (r & Hr & H). apply bind_inv in H. destruct H as (e3 & H3 & H).
    assert (Nr : (nesting (c_fn r) <= S h)%nat).
    { unfold reverse_c in Hr. apply bind_inv in Hr. destruct Hr as (? & _ & Hr). apply bind_inv in Hr. destruct Hr as (? & _ & Hr). inversion Hr; subst r. cbn [c_fn nesting]. lia. }
    assert (X1 : half k h e1) by (refine (half_set _ k _ _ _ _ _ HH _ _ _ H1); lia).
    assert (X2 : half k h e2) by (refine (half_set _ k _ _ _ _ _ X1 _ _ _ H2); lia).
    assert (X3 : half k h e3) by (refine (half_set _ k _ _ _ _ _ X2 _ _ _ H3); lia).
    exact (IH k h e3 es' (le_n _) X3 H).
Qed.
Lemma edges_low h cs es : Forall (low h) cs -> edges_c cs = Ok es -> Forall (low (S h)) es.
Proof.
  intros H E. unfold edges_c in E. refine (double_half _ (length cs) h _ _ (le_n _) _ E). intros p c Hp. rewrite Forall_forall in H. destruct (Nat.ltb_spec p (length cs)).
  - rewrite nth_error_app1 in Hp by lia. apply nth_error_In in Hp. exact (H c Hp).
  - rewrite nth_error_app2 in Hp by lia. apply nth_error_In, repeat_spec in Hp. subst c. cbn. lia.
Qed.
Lemma tilted_low h es xs : Forall (low h) es -> Forall (low (S h)) (tilted_c es xs).
Proof.
  intro H. revert xs. unfold tilted_c. induction H as [|e es He H IH]; intros [|x xs]; cbn [combine map]; constructor; [|apply IH]. unfold low in *. cbn [fst snd tilt_c c_fn nesting]. lia.
Qed.

(** ** The edges after [min_cost] *)
Lemma scaling_edges fuel0 fuel : forall s s' : flow D, scaling_loop fuel0 fuel s = Ok s' -> f_edges s' = f_edges s.
Proof.
  induction fuel as [|fuel IH]; intros s s' H; cbn [scaling_loop] in H; destruct (f_eps s <? 2); try discriminate; try (injection H as <-; reflexivity).
  apply bind_inv in H. destruct H as (s1 & H1 & H). apply IH in H. rewrite H. cbn [with_eps f_edges]. exact (ev_edges _ _ (phase_evolve _ _ _ H1)).
Qed.
Lemma upd_app {A} (p : list A) x l a : upd (p ++ x :: l) (length p) a = p ++ a :: l.
Proof. induction p as [|y p IH]; cbn; [reflexivity|]. f_equal. exact IH. Qed.
Lemma combine_snoc {A B} (l : list A) (l' : list B) a b : length l = length l' -> combine (l ++ [a]) (l' ++ [b]) = combine l l' ++ [(a, b)].
Proof. revert l'. induction l as [|x l IH]; intros [|y l'] H; try discriminate; [reflexivity|]. cbn. f_equal. apply IH. auto. Qed.
Lemma sum_edges fuel (rest : list (climit D)) : forall (old : list (climit D)) xs ys s a s' a',
  length xs = length old -> f_flows s = xs ++ ys -> f_edges s = map plain (tilted_c old xs ++ rest) ->
  for_each (seq (length old) (length rest)) (s, a) (fun '(s, answer) e_id =>
    e <- vget (f_edges s) e_id ;;
    x <- vget (f_flows s) e_id ;;
    let e' := tilt e x in
    es <- vset (f_edges s) e_id e' ;;
    let s := with_edges s es in
    m <- limit_min fuel e' ;;
    Ok (s, dadd answer m)) = Ok (s', a') ->
  f_edges s' = map plain (tilted_c (old ++ rest) (f_flows s)).
Proof.
  induction rest as [|e rest IH]; intros old xs ys s a s' a' HL HF HE H; cbn [length seq for_each] in H.
  - inversion H; subst s' a'. rewrite app_nil_r in *. rewrite HE. f_equal. unfold tilted_c. f_equal. rewrite HF. clear - HL. revert xs HL. induction old as [|o old IH]; intros [|x xs] H; try discriminate; [reflexivity|].
    cbn. f_equal. apply IH. auto.
  - apply bind_inv in H. destruct H as ([s1 a1] & H1 & H). cbv beta iota in H1. apply bind_inv in H1. destruct H1 as (e0 & He & H1). apply bind_inv in H1. destruct H1 as (x & Hx & H1). cbv zeta in H1.
    apply bind_inv in H1. destruct H1 as (es & Hs & H1). apply bind_inv in H1. destruct H1 as (m & _ & H1). inversion H1; subst s1 a1. clear H1.
    assert (LT : length (tilted_c old xs) = length old) by (unfold tilted_c; rewrite map_length, combine_length; lia).
    apply vget_inv in He. rewrite HE, nth_error_map, nth_error_app2, LT, Nat.sub_diag in He by lia. cbn [nth_error option_map] in He. inversion He; subst e0. clear He.
    apply vget_inv in Hx. rewrite HF, nth_error_app2, HL, Nat.sub_diag in Hx by lia. destruct ys as [|y ys]; [discriminate|]. cbn [nth_error] in Hx. inversion Hx; subst y. clear Hx.
    unfold vset in Hs. destruct (_ <? _)%nat; [|discriminate]. inversion Hs; subst es. clear Hs.
    change (tilt (plain e) x) with (plain (tilt_c e x)) in H. rewrite HE, upd_map, <- LT, upd_app, LT in H.
    specialize (IH (old ++ [e]) (xs ++ [x]) ys (with_edges s (map plain (tilted_c old xs ++ tilt_c e x :: rest))) (dadd a m) s' a'). cbn [with_edges f_edges f_flows] in IH.
    rewrite <- (app_assoc old) in IH. apply IH; clear IH.
    + rewrite !app_length. cbn. lia.
    + rewrite HF, <- app_assoc. reflexivity.
    + f_equal. unfold tilted_c. rewrite combine_snoc by (symmetry; exact HL). rewrite map_app, <- app_assoc. reflexivity.
    + rewrite app_length. cbn [length]. rewrite Nat.add_1_r. exact H.
Qed.
Lemma min_cost_edges fuel s s' v es : f_edges s = map plain es -> min_cost fuel s = Ok (s', v) ->
  exists xs, f_edges s' = map plain (tilted_c es xs).
Proof.
  intros HE H. unfold min_cost in H. apply bind_inv in H. destruct H as (s1 & H1 & H). apply bind_inv in H. destruct H as ([s2 a] & H2 & H). inversion H; subst s2 v.
  apply scaling_edges in H1. exists (f_flows s1). unfold sum_answer in H2. rewrite H1, HE, map_length in H2.
  apply (sum_edges fuel es [] [] (f_flows s1) s1 dzero s' a eq_refl eq_refl); [rewrite H1, HE; reflexivity|exact H2].
Qed.

(** ** All together *)
Theorem nesting_ok fuel n s limits d :
  (forall i j, (parallel oms i j <= d)%nat) ->
  solver_new fuel n mus oms = Ok s -> merge_limits s = Ok (Some limits) ->
  exists os cs, solver_new_c mus oms fuel n = Ok (Some os) /\ merge_limits_c mus n os = Ok (Some cs) /\
    limits = map plain cs /\ Forall (fun c => (nesting (c_fn c) <= d + 2)%nat) cs /\
    forall m M U fl, flow_new fuel m M U limits = Ok fl ->
      exists es, edges_c cs = Ok es /\ f_edges fl = map plain es /\ Forall (fun c => (nesting (c_fn c) <= d + 3)%nat) es /\
        forall fl' v, min_cost fuel fl = Ok (fl', v) ->
          exists xs, f_edges fl' = map plain (tilted_c es xs) /\ Forall (fun c => (nesting (c_fn c) <= d + 4)%nat) (tilted_c es xs).
Proof.
  intros HD H1 H2. rewrite solver_new_plain in H1. destruct (solver_new_c mus oms fuel n) as [[os|]|] eqn:E1; cbn [fm bind solver_of] in H1; inversion H1; subst s; [|discriminate].
  rewrite merge_limits_plain in H2. destruct (merge_limits_c mus n os) as [[cs|]|] eqn:E2; cbn [fm bind option_map] in H2; inversion H2; subst limits.
  assert (L : Forall (low (d + 2)) cs).
  { eapply Forall_impl; [|exact (limits_low fuel n os cs E1 E2)]. intros c Hc. unfold low in *. specialize (HD (c_i c) (c_j c)). lia. }
  exists os, cs. split; [reflexivity|]. split; [exact E2|]. split; [reflexivity|]. split; [exact L|]. intros m M U fl HF. destruct (flow_new_edges _ _ _ _ _ _ HF) as (es & X1 & X2 & _).
  assert (L2 := edges_low _ _ _ L X1). exists es. split; [exact X1|]. split; [exact X2|]. split; [eapply Forall_impl; [|exact L2]; unfold low; intros; lia|].
  intros fl' v HM. destruct (min_cost_edges fuel fl fl' v es X2 HM) as (xs & X3). exists xs. split; [exact X3|].
  eapply Forall_impl; [|exact (tilted_low _ _ xs L2)]. unfold low. intros; lia.
Qed.
End Proof.
