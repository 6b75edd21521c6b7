(** * The phases of a run of the scaling loop, with the work of each

    Used to state how much work [Flow::min_cost] does altogether.  The functions
    of the model that occur are those whose iterations are counted. *)
From Verif Require Import Base Data UniqueQueue LCT ProblemDefine Flow FlowSpec.
Local Open Scope Z_scope.

(** [phases_run fuel ks s s']: started in [s], the loop of Flow.cpp:31-35 ends in
    [s'] after [length ks] rounds; in round number [r] the loop of refine()
    (Flow.cpp:74-79) makes at most [nth r ks] iterations. *)
Inductive phases_run {ops : DataOps Z} (fuel : nat) : list nat -> flow Z -> flow Z -> Prop :=
| pr_done s : f_eps s < 2 -> phases_run fuel [] s s
| pr_phase k ks s s1 s2 s3 s' :
    2 <= f_eps s ->
    push_all_admissible_edge (initialization s) = Ok s1 ->
    refine_loop fuel k s1 = Ok s2 ->
    cut_all fuel s2 = Ok s3 ->
    phases_run fuel ks (with_eps s3 (Z.quot (f_eps s3) 2)) s' ->
    phases_run fuel (k :: ks) s s'.

(** the iterations of one round, for [n + 1] nodes and [m] limits *)
Definition round_iterations (n m : nat) : Z :=
  let N := Z.of_nat (n + 1) in
  3 * Z.of_nat n * (8 * Z.of_nat m + 3 * N) + 6 * Z.of_nat m + 2 * N + 1.

(** ** The steps inside an iteration

    A step is an iteration of one of the loops of refine(), choice_operator(),
    send() and update_scaling().  Each does a bounded number of operations on the
    tree and of additions, comparisons and evaluations of costs. *)

(** [choice_run fuel k s p s']: choice_operator(p) leads from [s] to [s'] in at
    most [k] steps (Flow.cpp:85-92). *)
Inductive choice_run {ops : DataOps Z} (fuel : nat) : nat -> flow Z -> nat -> flow Z -> Prop :=
| cr_next k s p c g e v cu s' :
    vget (f_cur s) p = Ok c -> vget (f_G s) p = Ok g -> (c < length g)%nat ->
    vget g c = Ok e -> q s e = Ok v -> dlt dzero v = false ->
    vset (f_cur s) p (c + 1)%nat = Ok cu -> choice_run fuel k (with_cur s cu) p s' ->
    choice_run fuel (S k) s p s'
| cr_send k s p c g e v s1 h r s' :
    vget (f_cur s) p = Ok c -> vget (f_G s) p = Ok g -> (c < length g)%nat ->
    vget g c = Ok e -> q s e = Ok v -> dlt dzero v = true ->
    link fuel s p = Ok s1 -> find_root fuel (f_nodes s1) p = Ok (h, r) ->
    send_loop fuel k (with_nodes s1 h) p r = Ok s' ->
    choice_run fuel (S k) s p s'
| cr_rise s p c g s' :
    vget (f_cur s) p = Ok c -> vget (f_G s) p = Ok g -> (length g <= c)%nat ->
    update_scaling fuel s p = Ok s' ->
    choice_run fuel (S (length g)) s p s'.

(** Flow.cpp:76-77 *)
Definition settle {ops : DataOps Z} (s : flow Z) : res (flow Z) :=
  p <- uq_front (f_uq s) ;;
  a <- vget (f_imb s) p ;;
  if deq a dzero then u <- uq_pop (f_uq s) ;; Ok (with_uq s u) else Ok s.

(** [refine_run fuel k s s']: the loop of Flow.cpp:74-78 leads from [s] to [s']
    in at most [k] steps. *)
Inductive refine_run {ops : DataOps Z} (fuel : nat) : nat -> flow Z -> flow Z -> Prop :=
| rr_done k s : uq_empty (f_uq s) = true -> refine_run fuel k s s
| rr_step k k1 k2 s p s1 s2 s' :
    uq_empty (f_uq s) = false -> uq_front (f_uq s) = Ok p ->
    choice_run fuel k1 s p s1 -> settle s1 = Ok s2 -> refine_run fuel k2 s2 s' ->
    (S (k1 + k2) <= k)%nat ->
    refine_run fuel k s s'.

(** [phases_run] with steps instead of iterations *)
Inductive phases_steps {ops : DataOps Z} (fuel : nat) : list nat -> flow Z -> flow Z -> Prop :=
| ps_done s : f_eps s < 2 -> phases_steps fuel [] s s
| ps_phase k ks s s1 s2 s3 s' :
    2 <= f_eps s ->
    push_all_admissible_edge (initialization s) = Ok s1 ->
    refine_run fuel k s1 s2 ->
    cut_all fuel s2 = Ok s3 ->
    phases_steps fuel ks (with_eps s3 (Z.quot (f_eps s3) 2)) s' ->
    phases_steps fuel (k :: ks) s s'.

(** the steps of a round whose loop makes at most [iterations] iterations, when no
    potential rises more than [rises] times *)
Definition step_bound (n m : nat) (iterations rises : Z) : Z :=
  4 * iterations + 2 * Z.of_nat m + Z.of_nat (n + 1) + 4 * Z.of_nat m * rises.

(** the steps of the first round, and of every other round *)
Definition first_round_steps (n m : nat) (K U : Z) : Z :=
  step_bound n m (phase_iterations n m (2 * K) U + 1) (Z.of_nat n * (2 * K + U) / U).
Definition round_steps (n m : nat) : Z := step_bound n m (round_iterations n m) (3 * Z.of_nat n).
