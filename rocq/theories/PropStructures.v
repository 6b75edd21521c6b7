(** * Properties C22-C24: link-cut tree and UniqueQueue *)
From Verif Require Import Base Data UniqueQueue LCT LCTSpec LCTRun LCTForest LCTOps UQSpec UQProof.
Local Open Scope Z_scope.

(** C22: every operation sequence that is possible on a plain forest gives the
    same outputs on the link-cut tree, with no error of any kind. *)
Theorem C22_lct_refines_forest :
  forall (one : Z) (N fuel : nat) (os : list lct_op) (f : forest) (outs : list lct_out),
    (N < fuel)%nat ->
    lct_run N forest0 os f outs ->
    exists h, lct_calls one fuel (repeat (@node0 Z (exact_ops one)) N) os = Ok (h, outs).
Proof. exact lct_program_outputs. Qed.
Print Assumptions C22_lct_refines_forest.

(** C23: after any such sequence, [get_min_wtrbnr] on a non-root node [x] returns
    the least value on the way to the root, root excluded, and the topmost node
    having it. *)
Theorem C23_path_min :
  forall (one : Z) (N fuel : nat) (os : list lct_op) (f : forest) (outs : list lct_out)
         (x r y : nat) (below above : list nat),
    (N < fuel)%nat ->
    lct_run N forest0 os f outs ->
    (x < N)%nat ->
    path (parent f) x ((below ++ y :: above) ++ [r]) ->
    (forall z, In z below -> value f y <= value f z) ->
    (forall z, In z above -> value f y < value f z) ->
    exists h h',
      lct_calls one fuel (repeat (@node0 Z (exact_ops one)) N) os = Ok (h, outs) /\
      @get_min_wtrbnr Z (exact_ops one) fuel h x = Ok (h', (value f y, Some y)).
Proof. exact lct_get_min_after. Qed.
Print Assumptions C23_path_min.

(** A case with ties, lazy additions, a cut and a second link. *)
Example C22_example :
  exists f, lct_run 5 forest0
    [SetVal 1 7; SetFa 1 0; SetVal 2 4; SetFa 2 1; SetVal 3 4; SetFa 3 2; AddPath 3 (-1);
     GetMin 3; FindRoot 3; Cut 2; GetMin 3; FindRoot 3; SetFa 2 4; GetVal 1; GetVal 3] f
    [ONone; ONone; ONone; ONone; ONone; ONone; ONone;
     OMin 3 2; ONode 0; ONone; OMin 3 3; ONode 2; ONone; OVal 6; OVal 3]%nat.
Proof. exact lct_example_run. Qed.

Example C23_example_calls :
  match lct_calls 1 10 (repeat (@node0 Z (exact_ops 1)) 5)
    [SetVal 1 7; SetFa 1 0; SetVal 2 4; SetFa 2 1; SetVal 3 4; SetFa 3 2; AddPath 3 (-1);
     GetMin 3; FindRoot 3; Cut 2; GetMin 3; FindRoot 3; SetFa 2 4; GetVal 1; GetVal 3]
  with Ok (_, outs) => outs | Err _ => [] end
  = [ONone; ONone; ONone; ONone; ONone; ONone; ONone;
     OMin 3 2; ONode 0; ONone; OMin 3 3; ONode 2; ONone; OVal 6; OVal 3]%nat.
Proof. vm_compute. reflexivity. Qed.

(** C24 *)
Theorem C24_unique_queue :
  forall (n : nat) (os : list uq_op) (l : list nat) (outs : list uq_out),
    fifo_run n [] os l outs ->
    exists u, uq_calls (uq_new n) os = Ok (u, outs) /\ uq_queue u = l.
Proof. exact uq_calls_ok. Qed.
Print Assumptions C24_unique_queue.

Example C24_example :
  fifo_run 3 [] [Push 2; Push 0; Push 2; Front; Pop; Push 2; Front; Empty] [0; 2]%nat
    [QNone; QNone; QNone; QLabel 2; QNone; QNone; QLabel 0; QBool false].
Proof. exact uq_example_run. Qed.
