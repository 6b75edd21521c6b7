(** * Sequences of link-cut tree operations *)
From Verif Require Import Base BaseLemmas Data LCT LCTTree LCTHeap LCTSplay LCTSpec LCTForest LCTOps.
Local Open Scope Z_scope.

Section Run.
Variable one : Z.
#[local] Hint Extern 0 (DataOps Z) => exact (exact_ops one) : typeclass_instances.

(** Calling one of the public methods (LCT.hpp:18-46) on node [x] of the vector. *)
Definition lct_call (fuel : nat) (h : heap Z) (op : lct_op) : res (heap Z * lct_out) :=
  match op with
  | FindRoot x => ' (h, r) <- find_root fuel h x ;; Ok (h, ONode r)
  | SetFa x y => h <- set_fa fuel h x (Some y) ;; Ok (h, ONone)
  | Cut x => h <- cut fuel h x ;; Ok (h, ONone)
  | GetVal x => ' (h, v) <- get_val fuel h x ;; Ok (h, OVal v)
  | GetMin x => ' (h, m) <- get_min_wtrbnr fuel h x ;;
                match snd m with
                | Some y => Ok (h, OMin (fst m) y)
                | None => Err NullDeref
                end
  | SetVal x v => h <- set_val fuel h x v ;; Ok (h, ONone)
  | AddPath x d => h <- add_val_way_to_root fuel h x d ;; Ok (h, ONone)
  end.

Fixpoint lct_calls (fuel : nat) (h : heap Z) (os : list lct_op) : res (heap Z * list lct_out) :=
  match os with
  | [] => Ok (h, [])
  | op :: os =>
      ' (h, o) <- lct_call fuel h op ;;
      ' (h, r) <- lct_calls fuel h os ;;
      Ok (h, o :: r)
  end.

Lemma lct_call_ok N fuel h f op f' o :
  (N < fuel)%nat -> length h = N -> Rep h (parent f) (value f) -> lct_step N f op f' o ->
  exists h', lct_call fuel h op = Ok (h', o) /\ length h' = N /\ Rep h' (parent f') (value f').
Proof.
  intros Hf HN HR HS. assert (Hf' : (length h < fuel)%nat) by lia.
  destruct HS as [f x l r Hx HP|f x y ly Hx Hy Hr HP Hn|f x y Hx Hp|f x Hx|f x r below y above Hx HP H1 H2|f x v Hx|f x l d Hx HP];
    rewrite <- HN in *; cbn [lct_call parent value].
  - destruct (find_root_ok one fuel h _ _ x l r HR Hx Hf' HP) as (h' & -> & L & R). cbn [bind]. eauto.
  - destruct (set_fa_ok one fuel h _ _ x y ly HR Hx Hy Hf' Hr HP Hn) as (h' & -> & L & R). cbn [bind]. eauto.
  - destruct (cut_ok one fuel h _ _ x y HR Hx Hf' Hp) as (h' & -> & L & R). cbn [bind]. eauto.
  - destruct (get_val_ok one fuel h _ _ x HR Hx Hf') as (h' & -> & L & R). cbn [bind]. eauto.
  - destruct (get_min_ok one fuel h _ _ x r below y above HR Hx Hf' HP H1 H2) as (h' & -> & L & R).
    cbn [bind snd fst]. eauto.
  - destruct (set_val_ok one fuel h _ _ x v HR Hx Hf') as (h' & -> & L & R). cbn [bind]. eauto.
  - destruct (add_path_ok one fuel h _ _ x l d HR Hx Hf' HP) as (h' & -> & L & R). cbn [bind]. eauto.
Qed.

Theorem lct_calls_ok N fuel h f os f' outs :
  (N < fuel)%nat -> length h = N -> Rep h (parent f) (value f) -> lct_run N f os f' outs ->
  exists h', lct_calls fuel h os = Ok (h', outs) /\ length h' = N /\ Rep h' (parent f') (value f').
Proof.
  intros Hf HN HR HS. revert h HN HR. induction HS as [f|f op f1 o os f2 outs H1 H2 IH]; intros h HN HR.
  - exists h; auto.
  - destruct (lct_call_ok N fuel h f op f1 o Hf HN HR H1) as (h1 & E1 & L1 & R1).
    destruct (IH h1 L1 R1) as (h2 & E2 & L2 & R2).
    cbn [lct_calls]. rewrite E1. cbn [bind]. rewrite E2. cbn [bind]. eauto.
Qed.

Theorem lct_program_ok N fuel os f outs :
  (N < fuel)%nat -> lct_run N forest0 os f outs ->
  exists h, lct_calls fuel (repeat node0 N) os = Ok (h, outs) /\ Rep h (parent f) (value f).
Proof.
  intros Hf HS.
  destruct (lct_calls_ok N fuel (repeat node0 N) forest0 os f outs Hf) as (h & E & _ & R); auto.
  - apply repeat_length.
  - apply (rep_init one N).
  - eauto.
Qed.

Theorem lct_program_outputs N fuel os f outs :
  (N < fuel)%nat -> lct_run N forest0 os f outs ->
  exists h, lct_calls fuel (repeat node0 N) os = Ok (h, outs).
Proof. intros Hf HS. destruct (lct_program_ok N fuel os f outs Hf HS) as (h & E & _). eauto. Qed.

Theorem lct_get_min_after N fuel os f outs x r y below above :
  (N < fuel)%nat -> lct_run N forest0 os f outs -> (x < N)%nat ->
  path (parent f) x ((below ++ y :: above) ++ [r]) ->
  (forall z, In z below -> value f y <= value f z) ->
  (forall z, In z above -> value f y < value f z) ->
  exists h h', lct_calls fuel (repeat node0 N) os = Ok (h, outs) /\
    get_min_wtrbnr fuel h x = Ok (h', (value f y, Some y)).
Proof.
  intros Hf HS Hx HP Hb Ha.
  destruct (lct_calls_ok N fuel (repeat node0 N) forest0 os f outs Hf) as (h & E & L & R); auto.
  - apply repeat_length.
  - apply (rep_init one N).
  - destruct (get_min_ok one fuel h _ _ x r below y above R) as (h' & E' & _); auto; try lia. eauto.
Qed.

End Run.

Ltac path_solve := repeat (eapply path_up; [reflexivity|]); apply path_root; reflexivity.

Lemma step_get_min_v N f x r below y above v :
  (x < N)%nat -> path (parent f) x ((below ++ y :: above) ++ [r]) ->
  (forall z, In z below -> value f y <= value f z) ->
  (forall z, In z above -> value f y < value f z) -> value f y = v ->
  lct_step N f (GetMin x) f (OMin v y).
Proof. intros; subst v. eapply step_get_min; eauto. Qed.

Lemma step_get_val_v N f x v : (x < N)%nat -> value f x = v -> lct_step N f (GetVal x) f (OVal v).
Proof. intros; subst v. apply step_get_val; auto. Qed.

Lemma lct_example_run :
  exists f, lct_run 5 forest0
    [SetVal 1 7; SetFa 1 0; SetVal 2 4; SetFa 2 1; SetVal 3 4; SetFa 3 2; AddPath 3 (-1);
     GetMin 3; FindRoot 3; Cut 2; GetMin 3; FindRoot 3; SetFa 2 4; GetVal 1; GetVal 3] f
    [ONone; ONone; ONone; ONone; ONone; ONone; ONone;
     OMin 3 2; ONode 0; ONone; OMin 3 3; ONode 2; ONone; OVal 6; OVal 3]%nat.
Proof.
  eexists.
  eapply run_cons; [apply step_set_val; lia|].
  eapply run_cons; [eapply (step_set_fa _ _ _ _ [0%nat]); [lia|lia|reflexivity|path_solve|simpl; intuition lia]|].
  eapply run_cons; [apply step_set_val; lia|].
  eapply run_cons; [eapply (step_set_fa _ _ _ _ [1;0]%nat); [lia|lia|reflexivity|path_solve|simpl; intuition lia]|].
  eapply run_cons; [apply step_set_val; lia|].
  eapply run_cons; [eapply (step_set_fa _ _ _ _ [2;1;0]%nat); [lia|lia|reflexivity|path_solve|simpl; intuition lia]|].
  eapply run_cons; [eapply (step_add_path _ _ _ [3;2;1;0]%nat); [lia|path_solve]|].
  eapply run_cons.
  { eapply (step_get_min_v _ _ 3 0 [3] 2 [1])%nat; [lia|cbn; path_solve| | |reflexivity];
      intros z [<-|[]]; vm_compute; congruence. }
  eapply run_cons; [eapply (step_find_root _ _ _ [3;2;1]%nat); [lia|cbn; path_solve]|].
  eapply run_cons; [eapply step_cut; [lia|reflexivity]|].
  eapply run_cons.
  { eapply (step_get_min_v _ _ 3 2 [] 3 [])%nat; [lia|cbn; path_solve| | |reflexivity]; intros z []. }
  eapply run_cons; [eapply (step_find_root _ _ _ [3]%nat); [lia|cbn; path_solve]|].
  eapply run_cons; [eapply (step_set_fa _ _ _ _ [4]%nat); [lia|lia|reflexivity|path_solve|simpl; intuition lia]|].
  eapply run_cons; [apply (step_get_val_v 5 _ 1); [lia|reflexivity]|].
  eapply run_cons; [apply (step_get_val_v 5 _ 3); [lia|reflexivity]|].
  apply run_nil.
Qed.

