(** * The bound on the number of iterations does not matter

    The loops of the model take a number [fuel] of iterations and give up with
    [OutOfFuel].  Every other outcome is the same for every larger number. *)
From Verif Require Import Base Data UniqueQueue LCT ProblemDefine Flow ProblemSolver Oracles CostScaling Generator TestSuite.
Local Open Scope Z_scope.

(** [m2] is the outcome of the same computation with more iterations *)
Definition later {A} (m1 m2 : res A) : Prop := m1 = Err OutOfFuel \/ m1 = m2.

Lemma later_refl {A} (m : res A) : later m m.
Proof. right; reflexivity. Qed.

Lemma later_out {A} (m : res A) : later (Err OutOfFuel) m.
Proof. left; reflexivity. Qed.

Lemma later_trans {A} (m1 m2 m3 : res A) : later m1 m2 -> later m2 m3 -> later m1 m3.
Proof. intros [->| ->] H; [apply later_out|exact H]. Qed.

Lemma later_bind {A B} (m1 m2 : res A) (k1 k2 : A -> res B) :
  later m1 m2 -> (forall a, later (k1 a) (k2 a)) -> later (bind m1 k1) (bind m2 k2).
Proof. intros [->| ->] H; [apply later_out|]. destruct m2; cbn [bind]; [apply H|apply later_refl]. Qed.

Lemma later_for_each {A S} (l : list A) (b1 b2 : S -> A -> res S) :
  (forall st x, later (b1 st x) (b2 st x)) -> forall st, later (for_each l st b1) (for_each l st b2).
Proof.
  intros H. induction l as [|x l IH]; intro st; cbn [for_each]; [apply later_refl|].
  apply later_bind; [apply H|]. intro a. apply IH.
Qed.

Ltac later_step :=
  match goal with
  | H : forall _, _ |- later _ _ => solve [apply H; auto with arith]
  | |- later ?a ?a => apply later_refl
  | |- later (Err OutOfFuel) _ => apply later_out
  | |- later (bind _ _) (bind _ _) => apply later_bind; [|intro]
  | |- later (for_each ?l ?a _) (for_each ?l ?a _) => apply later_for_each; intros
  | |- later (if ?b then _ else _) _ => destruct b
  | |- later (match ?x with _ => _ end) _ => destruct x
  | |- later (match ?x with _ => _ end _) _ => destruct x
  end.
Ltac later_tac := cbv zeta; repeat (later_step; cbv beta zeta iota).

Lemma partition_point_later f1 f2 : (f1 <= f2)%nat -> forall l r pred, later (partition_point f1 l r pred) (partition_point f2 l r pred).
Proof.
  revert f2. induction f1 as [|f1 IH]; intros f2 Hf l r pred; [apply later_out|]. destruct f2 as [|f2]; [lia|]. assert (IH' := IH f2 ltac:(lia)).
  cbn [partition_point]. later_tac.
Qed.

(** ** ProblemDefine *)
Section Limits.
Context {D : Type} {ops : DataOps D}.
Context {f1 f2 : nat} (Hf : (f1 <= f2)%nat).

Lemma pre_processing_later (o : OmegaLimit D) : later (pre_processing f1 o) (pre_processing f2 o).
Proof. assert (H := partition_point_later f1 f2 Hf). unfold pre_processing. later_tac. Qed.

Lemma limit_min_later (o : OmegaLimit D) : later (limit_min f1 o) (limit_min f2 o).
Proof. assert (H := partition_point_later f1 f2 Hf). unfold limit_min. later_tac. Qed.

End Limits.

(** [k1 <= k2] bounds the loop itself, [f1 <= f2] what it calls *)
(** ** LCT *)
Section Solver.
Context {D : Type} {ops : DataOps D}.

Lemma push_down_from_root_later : forall k1 k2, (k1 <= k2)%nat -> forall (h : heap D) x, later (push_down_from_root k1 h x) (push_down_from_root k2 h x).
Proof.
  induction k1 as [|k1 IH]; intros k2 Hk h x; [apply later_out|]. destruct k2 as [|k2]; [lia|]. assert (IH' := IH k2 ltac:(lia)). clear IH.
  cbn [push_down_from_root]. later_tac.
Qed.

Lemma splay_loop_later : forall k1 k2, (k1 <= k2)%nat -> forall (h : heap D) x, later (splay_loop k1 h x) (splay_loop k2 h x).
Proof.
  induction k1 as [|k1 IH]; intros k2 Hk h x; [apply later_out|]. destruct k2 as [|k2]; [lia|]. assert (IH' := IH k2 ltac:(lia)). clear IH.
  cbn [splay_loop]. later_tac.
Qed.

Lemma leftmost_later : forall k1 k2, (k1 <= k2)%nat -> forall (h : heap D) x, later (leftmost k1 h x) (leftmost k2 h x).
Proof.
  induction k1 as [|k1 IH]; intros k2 Hk h x; [apply later_out|]. destruct k2 as [|k2]; [lia|]. assert (IH' := IH k2 ltac:(lia)). clear IH.
  cbn [leftmost]. later_tac.
Qed.

Lemma get_min_loop_later : forall k1 k2, (k1 <= k2)%nat -> forall (h : heap D) x ret, later (get_min_loop k1 h x ret) (get_min_loop k2 h x ret).
Proof.
  induction k1 as [|k1 IH]; intros k2 Hk h x ret; [apply later_out|]. destruct k2 as [|k2]; [lia|]. assert (IH' := IH k2 ltac:(lia)). clear IH.
  cbn [get_min_loop]. later_tac.
Qed.

Context {f1 f2 : nat} (Hf : (f1 <= f2)%nat).

Lemma splay_later (h : heap D) x : later (splay f1 h x) (splay f2 h x).
Proof. assert (H1 := push_down_from_root_later f1 f2 Hf). assert (H2 := splay_loop_later f1 f2 Hf). unfold splay. later_tac. Qed.

Lemma access_loop_later : forall k1 k2, (k1 <= k2)%nat -> forall (h : heap D) p q, later (access_loop f1 k1 h p q) (access_loop f2 k2 h p q).
Proof.
  assert (H1 := splay_later).
  induction k1 as [|k1 IH]; intros k2 Hk h p q; [destruct k2, p; cbn [access_loop]; later_tac|]. destruct k2 as [|k2]; [lia|]. assert (IH' := IH k2 ltac:(lia)). clear IH.
  cbn [access_loop]. later_tac.
Qed.

Lemma access_later (h : heap D) x : later (access f1 h x) (access f2 h x).
Proof. assert (H1 := access_loop_later f1 f2 Hf). assert (H2 := splay_later). unfold access. later_tac. Qed.

Lemma find_root_later (h : heap D) x : later (find_root f1 h x) (find_root f2 h x).
Proof. assert (H1 := access_later). assert (H2 := leftmost_later f1 f2 Hf). unfold find_root. later_tac. Qed.

Lemma set_fa_later (h : heap D) x p : later (set_fa f1 h x p) (set_fa f2 h x p).
Proof. assert (H1 := splay_later). unfold set_fa. later_tac. Qed.

Lemma cut_later (h : heap D) x : later (cut f1 h x) (cut f2 h x).
Proof. assert (H1 := access_later). unfold cut. later_tac. Qed.

Lemma get_val_later (h : heap D) x : later (get_val f1 h x) (get_val f2 h x).
Proof. assert (H1 := access_later). unfold get_val. later_tac. Qed.

Lemma get_min_wtrbnr_later (h : heap D) x : later (get_min_wtrbnr f1 h x) (get_min_wtrbnr f2 h x).
Proof. assert (H1 := access_later). assert (H2 := get_min_loop_later f1 f2 Hf). unfold get_min_wtrbnr. later_tac. Qed.

Lemma set_val_later (h : heap D) x v : later (set_val f1 h x v) (set_val f2 h x v).
Proof. assert (H1 := access_later). unfold set_val. later_tac. Qed.

Lemma add_val_later (h : heap D) x v : later (add_val_way_to_root f1 h x v) (add_val_way_to_root f2 h x v).
Proof. assert (H1 := access_later). unfold add_val_way_to_root. later_tac. Qed.

(** ** Flow *)
Lemma eps_loop_later : forall k1 k2, (k1 <= k2)%nat -> forall n U e, later (eps_loop k1 n U e) (eps_loop k2 n U e).
Proof.
  clear. induction k1 as [|k1 IH]; intros k2 Hk n U e; [apply later_out|]. destruct k2 as [|k2]; [lia|]. assert (IH' := IH k2 ltac:(lia)). clear IH.
  cbn [eps_loop]. later_tac.
Qed.

Lemma flow_new_later n M U (limits : list (OmegaLimit D)) : later (flow_new f1 n M U limits) (flow_new f2 n M U limits).
Proof. assert (H1 := eps_loop_later f1 f2 Hf). unfold flow_new. later_tac. Qed.

Lemma link_later (s : flow D) p : later (link f1 s p) (link f2 s p).
Proof. assert (H1 := set_val_later). assert (H2 := set_fa_later). unfold link. later_tac. Qed.

Lemma flow_cut_later (s : flow D) p : later (flow_cut f1 s p) (flow_cut f2 s p).
Proof. assert (H1 := cut_later). assert (H2 := get_val_later). unfold flow_cut. later_tac. Qed.

Lemma send_push_later (s : flow D) p r x : later (send_push f1 s p r x) (send_push f2 s p r x).
Proof. assert (H1 := add_val_later). unfold send_push. later_tac. Qed.

Lemma send_loop_later : forall k1 k2, (k1 <= k2)%nat -> forall (s : flow D) p r, later (send_loop f1 k1 s p r) (send_loop f2 k2 s p r).
Proof.
  assert (H1 := get_min_wtrbnr_later). assert (H2 := send_push_later). assert (H3 := flow_cut_later).
  induction k1 as [|k1 IH]; intros k2 Hk s p r; [destruct k2; cbn [send_loop]; later_tac|]. destruct k2 as [|k2]; [lia|]. assert (IH' := IH k2 ltac:(lia)). clear IH.
  cbn [send_loop]. later_tac.
Qed.

Lemma send_later (s : flow D) p : later (send f1 s p) (send f2 s p).
Proof. assert (H1 := find_root_later). assert (H2 := send_loop_later f1 f2 Hf). unfold send. later_tac. Qed.

Lemma update_scaling_later (s : flow D) p : later (update_scaling f1 s p) (update_scaling f2 s p).
Proof. assert (H1 := flow_cut_later). unfold update_scaling. later_tac. Qed.

Lemma choice_loop_later : forall k1 k2, (k1 <= k2)%nat -> forall (s : flow D) p, later (choice_loop f1 k1 s p) (choice_loop f2 k2 s p).
Proof.
  assert (H1 := link_later). assert (H2 := send_later). assert (H3 := update_scaling_later).
  induction k1 as [|k1 IH]; intros k2 Hk s p; [apply later_out|]. destruct k2 as [|k2]; [lia|]. assert (IH' := IH k2 ltac:(lia)). clear IH.
  cbn [choice_loop]. later_tac.
Qed.

Lemma choice_operator_later (s : flow D) p : later (choice_operator f1 s p) (choice_operator f2 s p).
Proof. exact (choice_loop_later f1 f2 Hf s p). Qed.

Lemma refine_loop_later : forall k1 k2, (k1 <= k2)%nat -> forall (s : flow D), later (Flow.refine_loop f1 k1 s) (Flow.refine_loop f2 k2 s).
Proof.
  assert (H1 := choice_operator_later).
  induction k1 as [|k1 IH]; intros k2 Hk s; [destruct k2; cbn [Flow.refine_loop]; later_tac|]. destruct k2 as [|k2]; [lia|]. assert (IH' := IH k2 ltac:(lia)). clear IH.
  cbn [Flow.refine_loop]. later_tac.
Qed.

Lemma cut_all_later (s : flow D) : later (cut_all f1 s) (cut_all f2 s).
Proof. assert (H1 := flow_cut_later). unfold cut_all. later_tac. Qed.

Lemma flow_refine_later (s : flow D) : later (Flow.refine f1 s) (Flow.refine f2 s).
Proof. assert (H1 := refine_loop_later f1 f2 Hf). assert (H2 := cut_all_later). unfold Flow.refine. later_tac. Qed.

Lemma phase_later (s : flow D) : later (phase f1 s) (phase f2 s).
Proof. assert (H1 := flow_refine_later). unfold phase. later_tac. Qed.

Lemma scaling_loop_later : forall k1 k2, (k1 <= k2)%nat -> forall (s : flow D), later (scaling_loop f1 k1 s) (scaling_loop f2 k2 s).
Proof.
  assert (H1 := phase_later).
  induction k1 as [|k1 IH]; intros k2 Hk s; [destruct k2; cbn [scaling_loop]; later_tac|]. destruct k2 as [|k2]; [lia|]. assert (IH' := IH k2 ltac:(lia)). clear IH.
  cbn [scaling_loop]. later_tac.
Qed.

Lemma sum_answer_later (s : flow D) : later (sum_answer f1 s) (sum_answer f2 s).
Proof. assert (H1 := @limit_min_later D ops f1 f2 Hf). unfold sum_answer. later_tac. Qed.

Lemma min_cost_later (s : flow D) : later (min_cost f1 s) (min_cost f2 s).
Proof. assert (H1 := scaling_loop_later f1 f2 Hf). assert (H2 := sum_answer_later). unfold min_cost. later_tac. Qed.

(** ** ProblemSolver *)
Lemma check_mus_later : forall k1 k2, (k1 <= k2)%nat -> forall n (mus : list (MuLimit D)) i, later (check_mus k1 n mus i) (check_mus k2 n mus i).
Proof.
  clear. induction k1 as [|k1 IH]; intros k2 Hk n mus i; [destruct k2; cbn [check_mus]; later_tac|]. destruct k2 as [|k2]; [lia|]. assert (IH' := IH k2 ltac:(lia)). clear IH.
  cbn [check_mus]. later_tac.
Qed.

Lemma check_omega_later n (mus : list (MuLimit D)) it : later (check_omega f1 n mus it) (check_omega f2 n mus it).
Proof. assert (H1 := @pre_processing_later D ops f1 f2 Hf). unfold check_omega. later_tac. Qed.

Lemma check_omegas_later n (mus : list (MuLimit D)) oms : later (check_omegas f1 n mus oms) (check_omegas f2 n mus oms).
Proof. assert (H1 := check_omega_later). induction oms as [|it oms IH]; cbn [check_omegas]; later_tac; exact IH || later_tac. Qed.

Lemma solver_new_later n (mus : list (MuLimit D)) oms : later (solver_new f1 n mus oms) (solver_new f2 n mus oms).
Proof. assert (H1 := check_mus_later f1 f2 Hf). assert (H2 := check_omegas_later). unfold solver_new. later_tac. Qed.

Lemma calc_later (limits : list (OmegaLimit D)) : later (calc f1 limits) (calc f2 limits).
Proof. assert (H1 := @limit_min_later D ops f1 f2 Hf). unfold calc. later_tac. Qed.

Lemma solve_later (s : solver D) : later (solve f1 s) (solve f2 s).
Proof. assert (H1 := calc_later). assert (H2 := flow_new_later). assert (H3 := min_cost_later). unfold solve. later_tac. Qed.

Lemma run_solver_later n (mus : list (MuLimit D)) oms : later (run_solver f1 n mus oms) (run_solver f2 n mus oms).
Proof. assert (H1 := solver_new_later). assert (H2 := solve_later). unfold run_solver. later_tac. Qed.

End Solver.

(** ** Oracles and CostScaling *)
(** functions to be minimised may themselves contain loops *)
Definition fn_later {D} (f g : Fn D) : Prop := forall x, later (f x) (g x).

Section Others.
Context {D : Type} {ops : DataOps D}.

Lemma ternary_loop_later : forall k1 k2, (k1 <= k2)%nat -> forall (f g : Fn D), fn_later f g -> forall l r, later (ternary_loop k1 f l r) (ternary_loop k2 g l r).
Proof.
  induction k1 as [|k1 IH]; intros k2 Hk f g Hfg l r; [destruct k2; cbn [ternary_loop]; later_tac|]. destruct k2 as [|k2]; [lia|].
  assert (IH' := IH k2 ltac:(lia) f g Hfg). clear IH. unfold fn_later in Hfg. cbn [ternary_loop]. later_tac.
Qed.

Lemma bf_range_later : forall k1 k2, (k1 <= k2)%nat ->
  forall (rec1 rec2 : list Z -> D -> option D -> res (list Z * option D)), (forall v now ret, later (rec1 v now ret) (rec2 v now ret)) ->
  forall m p i v now ret, later (bf_range k1 rec1 m p i v now ret) (bf_range k2 rec2 m p i v now ret).
Proof.
  induction k1 as [|k1 IH]; intros k2 Hk rec1 rec2 Hr m p i v now ret; [destruct k2; cbn [bf_range]; later_tac|]. destruct k2 as [|k2]; [lia|].
  assert (IH' := IH k2 ltac:(lia) rec1 rec2 Hr). clear IH. cbn [bf_range]. later_tac.
Qed.

Lemma saturate_later : forall k1 k2, (k1 <= k2)%nat -> forall (p : list D) u i edge exc, later (saturate k1 p u i edge exc) (saturate k2 p u i edge exc).
Proof.
  induction k1 as [|k1 IH]; intros k2 Hk p u i edge exc; [destruct k2; cbn [saturate]; later_tac|]. destruct k2 as [|k2]; [lia|].
  assert (IH' := IH k2 ltac:(lia)). clear IH. cbn [saturate]. later_tac.
Qed.

Lemma scan_later : forall k1 k2, (k1 <= k2)%nat -> forall u (s : refine_st D), later (scan k1 u s) (scan k2 u s).
Proof.
  induction k1 as [|k1 IH]; intros k2 Hk u s; [destruct k2; cbn [scan]; later_tac|]. destruct k2 as [|k2]; [lia|].
  assert (IH' := IH k2 ltac:(lia)). clear IH. cbn [scan]. later_tac.
Qed.

Lemma bij_later (f g : Fn D) l r x : fn_later f g -> later (bij f l r x) (bij g l r x).
Proof. intro H. unfold fn_later in H. unfold bij. later_tac. Qed.

Lemma add_hinges_later : forall k1 k2, (k1 <= k2)%nat -> forall (f g : Fn D), fn_later f g ->
  forall l r u v j edge, later (add_hinges k1 f l r u v j edge) (add_hinges k2 g l r u v j edge).
Proof.
  induction k1 as [|k1 IH]; intros k2 Hk f g Hfg l r u v j edge; [destruct k2; cbn [add_hinges]; later_tac|]. destruct k2 as [|k2]; [lia|].
  assert (IH' := IH k2 ltac:(lia) f g Hfg). clear IH. assert (H := fun l r x => bij_later f g l r x Hfg). cbn [add_hinges]. later_tac.
Qed.

Context {f1 f2 : nat} (Hf : (f1 <= f2)%nat).

Lemma function_min_later (f g : Fn D) l r : fn_later f g -> later (function_min f1 f l r) (function_min f2 g l r).
Proof. intro Hfg. assert (H1 := ternary_loop_later f1 f2 Hf f g Hfg). unfold fn_later in Hfg. unfold function_min. later_tac. Qed.

Lemma bf_dfs_later (mus : list (MuLimit D)) oms k : forall p v now ret, later (bf_dfs f1 mus oms k p v now ret) (bf_dfs f2 mus oms k p v now ret).
Proof.
  induction k as [|k IH]; intros p v now ret; cbn [bf_dfs]; later_tac.
  apply (bf_range_later f1 f2 Hf). intros. apply IH.
Qed.

Lemma bf_prepare_later (oms : list (OmegaLimit D)) : later (bf_prepare f1 oms) (bf_prepare f2 oms).
Proof. assert (H1 := @pre_processing_later D ops f1 f2 Hf). induction oms as [|it oms IH]; cbn [bf_prepare]; later_tac; exact IH || later_tac. Qed.

Lemma bf_solve_later n (mus : list (MuLimit D)) oms : later (bf_solve f1 n mus oms) (bf_solve f2 n mus oms).
Proof. assert (H1 := bf_prepare_later). assert (H2 := bf_dfs_later). unfold bf_solve. later_tac. Qed.

Lemma saturate_all_later (cs : scaling D) : later (saturate_all f1 cs) (saturate_all f2 cs).
Proof. assert (H1 := saturate_later f1 f2 Hf). unfold saturate_all. later_tac. Qed.

Lemma modify_later eps head u (s : refine_st D) : later (modify f1 eps head u s) (modify f2 eps head u s).
Proof. assert (H1 := scan_later f1 f2 Hf). unfold modify. later_tac. Qed.

Lemma cs_refine_loop_later : forall k1 k2, (k1 <= k2)%nat -> forall eps N head (s : refine_st D),
  later (CostScaling.refine_loop f1 k1 eps N head s) (CostScaling.refine_loop f2 k2 eps N head s).
Proof.
  assert (H1 := modify_later).
  induction k1 as [|k1 IH]; intros k2 Hk eps N head s; [destruct k2; cbn [CostScaling.refine_loop]; later_tac|]. destruct k2 as [|k2]; [lia|].
  assert (IH' := IH k2 ltac:(lia)). clear IH. cbn [CostScaling.refine_loop]. later_tac.
Qed.

Lemma cs_refine_later (cs : scaling D) : later (CostScaling.refine f1 cs) (CostScaling.refine f2 cs).
Proof. assert (H1 := saturate_all_later). assert (H2 := cs_refine_loop_later f1 f2 Hf). unfold CostScaling.refine. later_tac. Qed.

Lemma scale_loop_later : forall k1 k2, (k1 <= k2)%nat -> forall (cs : scaling D), later (scale_loop f1 k1 cs) (scale_loop f2 k2 cs).
Proof.
  assert (H1 := cs_refine_later).
  induction k1 as [|k1 IH]; intros k2 Hk cs; [destruct k2; cbn [scale_loop]; later_tac|]. destruct k2 as [|k2]; [lia|].
  assert (IH' := IH k2 ltac:(lia)). clear IH. cbn [scale_loop]. later_tac.
Qed.

Lemma cs_min_cost_later n (arcs : list (InputEdge D)) : later (cs_min_cost f1 n arcs) (cs_min_cost f2 n arcs).
Proof. assert (H1 := scale_loop_later f1 f2 Hf). unfold cs_min_cost. later_tac. Qed.

(** the functions of the second solver contain loops: outcomes up to [R] *)
Definition later_up {A} (R : A -> A -> Prop) (m1 m2 : res A) : Prop :=
  m1 = Err OutOfFuel \/ (exists e, m1 = Err e /\ m2 = Err e) \/ (exists a b, m1 = Ok a /\ m2 = Ok b /\ R a b).

Lemma later_up_of {A} (R : A -> A -> Prop) m1 m2 : (forall a, R a a) -> later m1 m2 -> later_up R m1 m2.
Proof. intros HR [->| ->]; [left; reflexivity|]. right. destruct m2 as [a|e]; [right; exists a, a; auto|left; eauto]. Qed.

Lemma later_up_bind {A B} (R : A -> A -> Prop) (Q : B -> B -> Prop) m1 m2 k1 k2 :
  later_up R m1 m2 -> (forall a b, R a b -> later_up Q (k1 a) (k2 b)) -> later_up Q (bind m1 k1) (bind m2 k2).
Proof.
  intros [->|[(e & -> & ->)|(a & b & -> & -> & H)]] HK; cbn [bind]; [left; reflexivity|right; left; eauto|apply HK; exact H].
Qed.

Lemma later_bind_up {A B} (Q : B -> B -> Prop) (m1 m2 : res A) k1 k2 :
  later m1 m2 -> (forall a, later_up Q (k1 a) (k2 a)) -> later_up Q (bind m1 k1) (bind m2 k2).
Proof. intros H HK. apply (later_up_bind eq); [apply later_up_of; auto|]. intros a b <-. apply HK. Qed.

Lemma later_up_eq {A B} (R : A -> A -> Prop) (m1 m2 : res A) (k1 k2 : A -> res B) :
  later_up R m1 m2 -> (forall a b, R a b -> later (k1 a) (k2 b)) -> later (bind m1 k1) (bind m2 k2).
Proof.
  intros [->|[(e & -> & ->)|(a & b & -> & -> & H)]] HK; cbn [bind]; [apply later_out|apply later_refl|apply HK; exact H].
Qed.

Definition triple_later (a b : Fn D * Z * Z) : Prop := fn_later (fst (fst a)) (fst (fst b)) /\ snd (fst a) = snd (fst b) /\ snd a = snd b.
Definition collected_later (a b : option collected) : Prop :=
  match a, b with
  | Some (e, fs, mx), Some (e', fs', mx') => e = e' /\ Forall2 triple_later fs fs' /\ mx = mx'
  | None, None => True
  | _, _ => False
  end.

Lemma fn_later_refl (f : Fn D) : fn_later f f.
Proof. intro x. apply later_refl. Qed.

Lemma fn_later_best e : fn_later (best_above f1 e) (best_above f2 e).
Proof. intro x. unfold best_above. apply function_min_later, fn_later_refl. Qed.

Lemma collect_nodes_later (mus : list (MuLimit D)) is : forall e fs fs' mx, Forall2 triple_later fs fs' ->
  later_up collected_later (collect_nodes f1 mus is (e, fs, mx)) (collect_nodes f2 mus is (e, fs', mx)).
Proof.
  induction is as [|i is IH]; intros e fs fs' mx HF; cbn [collect_nodes].
  - right. right. eexists _, _. split; [reflexivity|]. split; [reflexivity|]. cbn. auto.
  - apply later_bind_up; [apply later_refl|]. intro m. destruct (m_u m <? m_l m).
    + right. right. eexists _, _. split; [reflexivity|]. split; [reflexivity|]. cbn. auto.
    + do 2 (apply later_bind_up; [apply later_refl|]; intro).
      apply later_bind_up; [apply add_hinges_later; auto using fn_later_refl|]. intro e'. apply IH.
      apply Forall2_app; [exact HF|]. constructor; [|constructor]. repeat split. apply fn_later_refl.
Qed.

Lemma collect_edges_later (mus : list (MuLimit D)) oms : forall e fs fs' mx, Forall2 triple_later fs fs' ->
  later_up collected_later (collect_edges f1 mus oms (e, fs, mx)) (collect_edges f2 mus oms (e, fs', mx)).
Proof.
  induction oms as [|o oms IH]; intros e fs fs' mx HF; cbn [collect_edges].
  - right. right. eexists _, _. split; [reflexivity|]. split; [reflexivity|]. cbn. auto.
  - destruct (o_u o <? o_l o).
    + right. right. eexists _, _. split; [reflexivity|]. split; [reflexivity|]. cbn. auto.
    + do 2 (apply later_bind_up; [apply later_refl|]; intro). cbv zeta.
      do 3 (apply later_bind_up; [apply later_refl|]; intro).
      apply later_bind_up; [apply add_hinges_later; auto using fn_later_best|]. intro e'. apply IH.
      apply Forall2_app; [exact HF|]. constructor; [|constructor]. repeat split. apply fn_later_best.
Qed.

Lemma add_minima_later fs fs' : Forall2 triple_later fs fs' -> forall r,
  later (for_each fs r (fun r '(f, lo, hi) => m <- function_min f1 f lo hi ;; Ok (dadd r m)))
        (for_each fs' r (fun r '(f, lo, hi) => m <- function_min f2 f lo hi ;; Ok (dadd r m))).
Proof.
  induction 1 as [|[[f l] u] [[g l'] u'] fs fs' (H1 & H2 & H3) HF IH]; intro r; cbn [for_each]; [apply later_refl|].
  cbn [fst snd] in H1, H2, H3. subst l' u'. apply later_bind; [|intro; apply IH].
  apply later_bind; [apply function_min_later; exact H1|intro; apply later_refl].
Qed.

Lemma simple_solve_later n (mus : list (MuLimit D)) oms : later (simple_solve f1 n mus oms) (simple_solve f2 n mus oms).
Proof.
  unfold simple_solve. eapply later_up_eq; [apply collect_nodes_later; constructor|].
  intros [[[e fs] mx]|] [[[e' fs'] mx']|] H; try destruct H; [|apply later_refl]. subst e'. destruct H0 as [HF ->].
  eapply later_up_eq; [apply collect_edges_later; exact HF|].
  intros [[[e1 fs1] mx1]|] [[[e1' fs1'] mx1']|] H; try destruct H; [|apply later_refl]. subst e1'. destruct H0 as [HF1 ->].
  apply later_bind; [apply later_refl|intro]. apply later_bind; [apply cs_min_cost_later|]. intros [b r].
  apply later_bind; [apply add_minima_later; exact HF1|intro; apply later_refl].
Qed.

End Others.

(** ** Generator and TestSuite *)
Section Generators.

Lemma draw_below_later : forall k1 k2, (k1 <= k2)%nat -> forall gen limit s, later (draw_below k1 gen limit s) (draw_below k2 gen limit s).
Proof.
  induction k1 as [|k1 IH]; intros k2 Hk gen limit s; [apply later_out|]. destruct k2 as [|k2]; [lia|].
  assert (IH' := IH k2 ltac:(lia)). clear IH. cbn [draw_below]. later_tac.
Qed.

Context {f1 f2 : nat} (Hf : (f1 <= f2)%nat).

Lemma next_int_later n s : later (next_int f1 n s) (next_int f2 n s).
Proof. assert (H := draw_below_later f1 f2 Hf). unfold next_int. later_tac. Qed.

Lemma next_ll_later n s : later (next_ll f1 n s) (next_ll f2 n s).
Proof. assert (H := draw_below_later f1 f2 Hf). unfold next_ll. later_tac. Qed.

Lemma next_range_later from to s : later (next_range f1 from to s) (next_range f2 from to s).
Proof. assert (H := next_ll_later). unfold next_range. later_tac. Qed.

Lemma wnext_later n type s : later (wnext f1 n type s) (wnext f2 n type s).
Proof. assert (H := next_int_later). unfold wnext. later_tac. Qed.

Lemma shuffle_later {A} i (l : list A) s : later (shuffle f1 i l s) (shuffle f2 i l s).
Proof. assert (H := next_int_later). unfold shuffle. later_tac. Qed.

Lemma gen_tree_later n s : later (gen_tree f1 n s) (gen_tree f2 n s).
Proof. assert (H := next_int_later). assert (H1 := wnext_later). assert (H2 := @shuffle_later Z). assert (H3 := @shuffle_later (Z * Z)). unfold gen_tree. later_tac. Qed.

Lemma gen_add_edge_later g u v s : later (gen_add_edge f1 g u v s) (gen_add_edge f2 g u v s).
Proof. assert (H := next_int_later). unfold gen_add_edge. later_tac. Qed.

Lemma draw_edge_later : forall k1 k2, (k1 <= k2)%nat -> forall g s, later (draw_edge f1 k1 g s) (draw_edge f2 k2 g s).
Proof.
  assert (H := next_int_later).
  induction k1 as [|k1 IH]; intros k2 Hk g s; [apply later_out|]. destruct k2 as [|k2]; [lia|].
  assert (IH' := IH k2 ltac:(lia)). clear IH. cbn [draw_edge]. later_tac.
Qed.

Lemma gen_loop_later : forall k1 k2, (k1 <= k2)%nat -> forall m g s, later (gen_loop f1 k1 m g s) (gen_loop f2 k2 m g s).
Proof.
  assert (H := draw_edge_later f1 f2 Hf). assert (H1 := gen_add_edge_later).
  induction k1 as [|k1 IH]; intros k2 Hk m g s; [destruct k2; cbn [gen_loop]; later_tac|]. destruct k2 as [|k2]; [lia|].
  assert (IH' := IH k2 ltac:(lia)). clear IH. cbn [gen_loop]. later_tac.
Qed.

Lemma gen_graph_run_later g s : later (gen_graph_run f1 g s) (gen_graph_run f2 g s).
Proof. assert (H := gen_loop_later f1 f2 Hf). assert (H1 := gen_tree_later). assert (H2 := @shuffle_later (Z * Z)). unfold gen_graph_run. later_tac. Qed.

Context {D : Type} {ops : DataOps D}.

Lemma rand_f_later lim b (st : fun_queue D * rng) : later (rand_f f1 lim b st) (rand_f f2 lim b st).
Proof. assert (H := next_range_later). unfold rand_f. later_tac. Qed.

Lemma rand_bounds_later lim s : later (rand_bounds f1 lim s) (rand_bounds f2 lim s).
Proof. assert (H := next_range_later). unfold rand_bounds. later_tac. Qed.

Lemma tiny_gen_later n mlimit multi nl el fl sd b (st : fun_queue D * rng) :
  later (tiny_gen f1 n mlimit multi nl el fl sd b st) (tiny_gen f2 n mlimit multi nl el fl sd b st).
Proof.
  assert (H := next_range_later). assert (H1 := gen_graph_run_later). assert (H2 := rand_bounds_later). assert (H3 := rand_f_later).
  unfold tiny_gen. later_tac.
Qed.

Lemma answer_later m (g : graph D) : later (answer m f1 g) (answer m f2 g).
Proof. destruct m; cbn [answer]; [apply bf_solve_later|apply simple_solve_later|apply run_solver_later]; exact Hf. Qed.

Lemma run_random_test_later t (st : fun_queue D * rng) : later (run_random_test f1 t st) (run_random_test f2 t st).
Proof.
  assert (H := tiny_gen_later). assert (H1 := answer_later). unfold run_random_test, verify, make. later_tac.
Qed.

End Generators.

(** ** In plain words *)
Lemma later_same {A} (m1 m2 : res A) : later m1 m2 -> m1 <> Err OutOfFuel -> m2 = m1.
Proof. intros [H|H] N; congruence. Qed.

Lemma solver_same (D : Type) (ops : DataOps D) f1 f2 n mus oms : (f1 <= f2)%nat ->
  run_solver f1 n mus oms <> Err OutOfFuel -> run_solver f2 n mus oms = run_solver f1 n mus oms.
Proof. intros H. apply later_same, run_solver_later, H. Qed.

Lemma oracles_same (D : Type) (ops : DataOps D) f1 f2 n mus oms : (f1 <= f2)%nat ->
  (bf_solve f1 n mus oms <> Err OutOfFuel -> bf_solve f2 n mus oms = bf_solve f1 n mus oms) /\
  (simple_solve f1 n mus oms <> Err OutOfFuel -> simple_solve f2 n mus oms = simple_solve f1 n mus oms).
Proof. intros H. split; apply later_same; [apply bf_solve_later, H|apply simple_solve_later, H]. Qed.

Lemma tests_same (D : Type) (ops : DataOps D) f1 f2 t st : (f1 <= f2)%nat ->
  run_random_test f1 t st <> Err OutOfFuel -> run_random_test f2 t st = run_random_test f1 t st.
Proof. intros H. apply later_same, run_random_test_later, H. Qed.
