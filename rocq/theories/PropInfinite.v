(** * Property C110: an infinite cost at the lower end of a range *)
From Coq Require Import Floats.SpecFloat.
From Verif Require Import Base Data ProblemDefine Flow ProblemSolver FloatEndless InfEndless.
Local Open Scope Z_scope.

(** C110: one variable, in 0..1, whose cost is +infinity at 0 and any finite number at 1: the
    potential of its node grows until it overflows. *)
Theorem C110_infinite_end :
  forall (v : spec_float) (fuel : nat), finite v = true -> 2000000000 <= Z.of_nat fuel ->
    @run_solver spec_float f64_ops fuel 1 (barred_mus v) [] = Err IntOverflow.
Proof. exact (fun v fuel Hv => barred_overflows v Hv fuel). Qed.
Print Assumptions C110_infinite_end.

(** So it never answers. *)
Theorem C110_no_answer :
  forall (v : spec_float) (fuel : nat) (r : option spec_float), finite v = true ->
    @run_solver spec_float f64_ops fuel 1 (barred_mus v) [] <> Ok r.
Proof. exact (fun v fuel r Hv => barred_no_answer v Hv fuel r). Qed.
Print Assumptions C110_no_answer.

(** cost 7 at 1; with 10^15 in place of infinity, there is an answer *)
Example C110_example :
  finite (f64_of_Z 7) = true /\
  map (fun m => (m_l m, m_u m, m_fn m 0, m_fn m 1)) (tl (barred_mus (f64_of_Z 7))) = [(0, 1, Ok (S754_infinity false), Ok (f64_of_Z 7))] /\
  @run_solver spec_float f64_ops 100 1 (barred_mus (f64_of_Z 7)) [] = Err OutOfFuel /\
  f_imb (iflow2 (f64_of_Z 7)) = [S754_nan; S754_nan] /\
  @run_solver spec_float f64_ops 100 1 [mkMu 0 0 (fun _ => Err BadCall); mkMu 0 1 (fun x => if x =? 0 then Ok (f64_of_Z (10 ^ 15)) else Ok (f64_of_Z 7))] [] = Ok (Some (f64_of_Z 7)).
Proof. repeat split; vm_compute; reflexivity. Qed.
