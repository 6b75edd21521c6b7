(** * Exceptional cases of WrappedDouble's [operator<<] and constructors *)
From Coq Require Import Floats.SpecFloat.
From Verif Require Import Base Data WrappedDouble FloatSpec WrappedSpec Printing Text TextStream.
Local Open Scope Z_scope.

(** 1000000 and 1000001 *)
Lemma unequal_same : exists x y z w, f64_is 1074 x z /\ f64_is 1074 y w /\
  @wd_eq _ f64_ops SFabs eps64 x y = false /\ @wd_lt _ f64_ops eps64 x y = true /\ wd_stream x = wd_stream y.
Proof.
  exists (S754_finite false 8589934592000000 (-33)), (S754_finite false 8589943181934592 (-33)), (8589934592000000 * 2 ^ 1041), (8589943181934592 * 2 ^ 1041).
  split; [split; reflexivity|]. split; [split; reflexivity|]. split; [reflexivity|]. split; [reflexivity|]. vm_compute. reflexivity.
Qed.

(** 0 and 0.00005 *)
Lemma equal_apart : exists x y z w, f64_is 1074 x z /\ f64_is 1074 y w /\
  @wd_eq _ f64_ops SFabs eps64 x y = true /\ wd_stream x <> wd_stream y.
Proof.
  exists (S754_zero false), (S754_finite false 7378697629483821 (-67)), 0, (7378697629483821 * 2 ^ 1007).
  split; [reflexivity|]. split; [split; reflexivity|]. split; [reflexivity|]. vm_compute. discriminate.
Qed.

Lemma sizes_same : exists n n', 0 <= n < n' /\ n' < 2 ^ 64 /\ wd_of_size n = wd_of_size n'.
Proof. exists (2 ^ 53), (2 ^ 53 + 1). split; [|split; [reflexivity|vm_compute; reflexivity]]. split; [discriminate|reflexivity]. Qed.
