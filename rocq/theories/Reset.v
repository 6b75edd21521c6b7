(** * The flow solver with all resets of [initialization] carried out

    Flow.cpp:48-56 contains resets that are commented out, with the remark (in Chinese) that
    some variables are unchanged before and after an iteration.  Here all are carried out. *)
From Verif Require Import Base Data UniqueQueue LCT ProblemDefine Flow.
Local Open Scope Z_scope.

Section Reset.
Context {D : Type} {ops : DataOps D}.

(** Flow.cpp:48-56 without comment signs; the nodes become as in the constructor (Flow.cpp:7) *)
Definition full_initialization (s : flow D) : flow D :=
  mkFlow (f_n s) (f_M s) (f_eps s)
         (repeat node0 (length (f_nodes s)))
         (repeat dzero (length (f_imb s)))
         (repeat O (length (f_cur s)))
         (uq_clear (f_uq s))
         (repeat None (length (f_fa s)))
         (f_edges s) (f_flows s) (f_G s) (f_scal s).

Definition phase_full (fuel : nat) (s : flow D) : res (flow D) :=
  let s := full_initialization s in
  s <- push_all_admissible_edge s ;;
  refine fuel s.

Fixpoint scaling_loop_full (fuel0 fuel : nat) (s : flow D) : res (flow D) :=
  if f_eps s <? 2 then Ok s
  else
    match fuel with
    | O => Err OutOfFuel
    | S fuel =>
        s <- phase_full fuel0 s ;;
        scaling_loop_full fuel0 fuel (with_eps s (Z.quot (f_eps s) 2))
    end.

Definition min_cost_full (fuel : nat) (s : flow D) : res (flow D * D) :=
  s <- scaling_loop_full fuel fuel s ;;
  '(s, answer) <- sum_answer fuel s ;;
  Ok (s, dhalf answer).
End Reset.
