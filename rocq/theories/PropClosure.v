(** * Property C98: how deep the function objects are nested *)
From Verif Require Import Base Data ProblemDefine Flow ProblemSolver EvalSpec ExampleData Closure ClosureProof ClosureDeep.
Local Open Scope Z_scope.

(** C98: the function objects that the constructor, [merge_limits], the constructor of
    [Flow] and [min_cost] build are those of the terms [os], [cs], [es] and
    [tilted_c es xs].  If at most [d] omega limits are between the same two variables, a call of
    one of them has at most [d + 2] function objects active at the same time, [d + 3] in
    the network and [d + 4] at the end: these are the stack frames a call needs.  For all inputs
    and all types of costs. *)
Theorem C98_nesting :
  forall (D : Type) (ops : DataOps D) (mus : list (MuLimit D)) (oms : list (OmegaLimit D)) (fuel : nat) (n : Z)
    (s : solver D) (limits : list (OmegaLimit D)) (d : nat),
    (forall i j, (parallel oms i j <= d)%nat) ->
    solver_new fuel n mus oms = Ok s -> merge_limits s = Ok (Some limits) ->
    exists os cs, solver_new_c mus oms fuel n = Ok (Some os) /\ merge_limits_c mus n os = Ok (Some cs) /\
      limits = map (plain mus oms) cs /\ Forall (fun c => (nesting (c_fn c) <= d + 2)%nat) cs /\
      forall m M U fl, flow_new fuel m M U limits = Ok fl ->
        exists es, edges_c cs = Ok es /\ f_edges fl = map (plain mus oms) es /\ Forall (fun c => (nesting (c_fn c) <= d + 3)%nat) es /\
          forall fl' v, min_cost fuel fl = Ok (fl', v) ->
            exists xs, f_edges fl' = map (plain mus oms) (tilted_c es xs) /\
              Forall (fun c => (nesting (c_fn c) <= d + 4)%nat) (tilted_c es xs).
Proof. exact @nesting_ok. Qed.
Print Assumptions C98_nesting.

(** ... and there is no better bound: [d] limits between two variables need [d + 2]. *)
Theorem C98_attained :
  forall (one : Z) (fuel d : nat), (1 <= d)%nat -> (3 <= fuel)%nat ->
    exists s limits cs c,
      @solver_new Z (exact_ops one) fuel 2 flat_mus (flat_oms d) = Ok s /\ @merge_limits Z (exact_ops one) s = Ok (Some limits) /\
      @solver_new_c Z (exact_ops one) flat_mus (flat_oms d) fuel 2 = Ok (Some (map prepared (seq 0 d))) /\
      merge_limits_c flat_mus 2 (map prepared (seq 0 d)) = Ok (Some cs) /\
      limits = map (@plain Z (exact_ops one) flat_mus (flat_oms d)) cs /\ In c cs /\ nesting (c_fn c) = (d + 2)%nat.
Proof. exact nested_deep. Qed.
Print Assumptions C98_attained.

Lemma flat_at_most : forall d i j, (parallel (flat_oms d) i j <= d)%nat.
Proof. exact flat_parallel. Qed.

(** the example: the two functions between variables 1 and 2 are nested four deep *)
Example C98_example :
  (forall i j, (parallel ex_oms i j <= 2)%nat) /\
  match @solver_new_c Z (exact_ops 1) ex_mus ex_oms ex_steps 3 with
  | Ok (Some os) =>
      match merge_limits_c ex_mus 3 os with
      | Ok (Some cs) =>
          map c_fn cs = [CSum (CRev (CPre 0 (CUser (OfOmega 0)))) (CRev (CPre 0 (CUser (OfOmega 3))));
                         CSum (CRev (CPre 1 (CUser (OfOmega 1)))) (CPre 2 (CUser (OfOmega 2)));
                         CUser (OfMu 1); CUser (OfMu 2); CUser (OfMu 3)]
      | _ => False
      end
  | _ => False
  end.
Proof. split; [intros [|[|[|[|i]]]] [|[|[|[|j]]]]; cbn; auto|vm_compute; reflexivity]. Qed.
