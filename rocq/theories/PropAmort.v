(** * Property C92: splaying costs a logarithm per call, amortised *)
From Verif Require Import Base Data LCT LCTSpec LCTRun LCTLinear LCTTime LCTAmortRun.
Local Open Scope Z_scope.

(** C92: a permitted program of calls in which every linked node is accessed right
    after the link makes at most 91 log2 N + 14 turns of splaying per call, on average. *)
Theorem C92_amortised :
  forall (one : Z) (N fuel : nat) (os : list lct_op) (f : forest) (outs : list lct_out),
    (N < fuel)%nat -> lct_run N forest0 os f outs -> eager os ->
    exists h c, lct_calls_s one fuel (repeat (@node0 Z (exact_ops one)) N) os = Ok (h, outs, c) /\
      lct_calls one fuel (repeat (@node0 Z (exact_ops one)) N) os = Ok (h, outs) /\
      Z.of_nat c <= Z.of_nat (length os) * (91 * Z.log2 (Z.of_nat N) + 14).
Proof. exact lct_program_amort. Qed.
Print Assumptions C92_amortised.

(** a single call of such a program can be linear *)
Theorem C92_one_call :
  forall (one : Z) (N n : nat), (0 < n < N)%nat ->
    exists os outs f h, length os = S (2 * n) /\ eager os /\ lct_run N forest0 os f outs /\
      forall fuel, (N < fuel)%nat ->
        lct_calls one fuel (repeat (@node0 Z (exact_ops one)) N) os = Ok (h, outs) /\
        exists h' c, lct_call_s one fuel h (FindRoot 0) = Ok (h', ONode 0, c) /\ (n < c)%nat.
Proof. exact one_call_linear. Qed.
Print Assumptions C92_one_call.

(** 60 links in a row, each followed by a lookup, then 40 lookups from the other
    end: the first of them makes 95 turns, all 40 together make 290. *)
Definition deep_lookups : list lct_op := chain_ops 60 ++ repeat (FindRoot 0) 40.

Example C92_example :
  eager deep_lookups /\ length deep_lookups = 161%nat /\
  match lct_calls_s 1 62 (repeat (@node0 Z (exact_ops 1)) 61) (chain_ops 60) with
  | Ok (h, _, c) => c = 725%nat /\
      match lct_calls_s 1 62 h (repeat (FindRoot 0) 1), lct_calls_s 1 62 h (repeat (FindRoot 0) 40) with
      | Ok (_, _, c1), Ok (_, _, c40) => c1 = 95%nat /\ c40 = 290%nat
      | _, _ => False
      end
  | Err _ => False
  end.
Proof. split; [vm_compute; tauto|]. split; [reflexivity|]. vm_compute. auto. Qed.

Example C92_example_permitted : exists f, lct_run 61 forest0 (chain_ops 60) f (chain_outs 60).
Proof. destruct (chain_run 61 60) as (f & HR & _); [lia|]. exists f. exact HR. Qed.

(** links, cuts and changes of values *)
Example C92_mixed :
  exists f, let os := [SetFa 1 0; FindRoot 1; SetVal 2 4; SetFa 2 1; GetMin 2; SetFa 3 2; AddPath 3 5; Cut 2; GetVal 3] in
    lct_run 4 forest0 os f [ONone; ONode 0; ONone; ONone; OMin 0 1; ONone; ONone; ONone; OVal 5] /\ eager os /\
    match lct_calls_s 1 5 (repeat (@node0 Z (exact_ops 1)) 4) os with
    | Ok (_, _, c) => c = 43%nat
    | Err _ => False
    end.
Proof.
  eexists. cbv zeta. split; [|split; [cbn; tauto|vm_compute; auto]].
  eapply run_cons; [eapply (step_set_fa _ _ _ _ [0%nat]); [lia|lia|reflexivity|path_solve|simpl; intuition lia]|].
  eapply run_cons; [eapply (step_find_root _ _ _ [1]%nat); [lia|cbn; path_solve]|].
  eapply run_cons; [apply step_set_val; lia|].
  eapply run_cons; [eapply (step_set_fa _ _ _ _ [1;0]%nat); [lia|lia|reflexivity|path_solve|simpl; intuition lia]|].
  eapply run_cons.
  { eapply (step_get_min_v _ _ 2 0 [2] 1 [])%nat; [lia|cbn; path_solve| | |reflexivity].
    - intros z [<-|[]]; vm_compute; congruence.
    - intros z []. }
  eapply run_cons; [eapply (step_set_fa _ _ _ _ [2;1;0]%nat); [lia|lia|reflexivity|path_solve|simpl; intuition lia]|].
  eapply run_cons; [eapply (step_add_path _ _ _ [3;2;1;0]%nat); [lia|path_solve]|].
  eapply run_cons; [eapply step_cut; [lia|reflexivity]|].
  eapply run_cons; [apply (step_get_val_v 4 _ 3); [lia|reflexivity]|].
  apply run_nil.
Qed.
