(** * Readings of two runs, and the values of two circulations of [ex_limits] *)
From Verif Require Import Base Data ProblemDefine Flow ProblemSolver Spec FlowSpec PrimalSpec ExampleData.
Local Open Scope Z_scope.

(** what is left of a run: value, flows, potentials, rounded potentials *)
Definition final_reading (fuel n : nat) (M U theta : Z) (limits : list (OmegaLimit Z)) : option (Z * list Z * list Z * list Z) :=
  match @flow_new Z (exact_ops 1) fuel n M U limits with
  | Ok s => match @min_cost Z (exact_ops 1) fuel s with
            | Ok (s', v) => Some (v, map (fun k => flow_on s' (2 * k)) (seq 0 (length limits)), f_scal s',
                                  map (fun i => rounded n theta s' i - rounded n theta s' 0) (seq 0 (n + 1)))
            | Err _ => None
            end
  | Err _ => None
  end.

(** the same for the problem [ex_mus], [ex_oms] *)
Definition problem_reading (theta : Z) : option (Z * Z * list Z * list Z) :=
  match @solver_new Z (exact_ops 1) 100 3 ex_mus ex_oms with
  | Ok sv => match @merge_limits Z (exact_ops 1) sv with
             | Ok (Some limits) =>
                 match @calc Z (exact_ops 1) 100 limits with
                 | Ok (vmax, M, U) => option_map (fun '(v, _, p, nu) => (U, v, p, nu)) (final_reading 1000 3 M U theta limits)
                 | Err _ => None
                 end
             | _ => None
             end
  | Err _ => None
  end.

Lemma dual_example :
  dual_value ex_limits (fun k => nth k [-3; 3; 2; -1] 0) 8 /\
  conserves 2 ex_limits (fun k => nth k [-3; 3; 2; -1] 0) /\ dual_value ex_limits (fun _ => 0) (-2).
Proof.
  assert (P : forall (y : nat -> Z) (ws : list Z),
    (forall k o, nth_error ex_limits k = Some o -> o_l o <= nth k ws 0 <= o_u o /\
       forall w, o_l o <= w <= o_u o -> cost (o_fn o) (nth k ws 0) - y k * nth k ws 0 <= cost (o_fn o) w - y k * w) ->
    dual_value ex_limits y (sumZ (map (fun k => cost (o_fn (nth k ex_limits OmegaLimit0)) (nth k ws 0) - y k * nth k ws 0) (seq 0 4)))).
  { intros y ws H. exists (fun k => cost (o_fn (nth k ex_limits OmegaLimit0)) (nth k ws 0) - y k * nth k ws 0). split; [|reflexivity].
    intros k o Ho. rewrite (nth_error_nth _ _ _ Ho). destruct (H k o Ho) as [A B]. split; [eauto|exact B]. }
  split; [|split].
  - apply (P (fun k => nth k [-3; 3; 2; -1] 0) [0; 0; 0; 0]). intros [|[|[|[|k]]]] o Ho; cbn in Ho; inversion Ho; subst; clear Ho; cbn [o_l o_u o_fn nth].
    all: try (split; [lia|]; intros w Hw; unfold cost, sq, lin, absf; nia).
    destruct k; discriminate.
  - intros [|[|[|v]]] Hv; [reflexivity..|lia].
  - apply (P (fun _ => 0) [2; -2; -1; 0]). intros [|[|[|[|k]]]] o Ho; cbn in Ho; inversion Ho; subst; clear Ho; cbn [o_l o_u o_fn nth].
    all: try (split; [lia|]; intros w Hw; unfold cost, sq, lin, absf; nia).
    destruct k; discriminate.
Qed.
