(** * Property C99: what shuffle can make *)
From Coq Require Import Permutation Factorial.
From Verif Require Import Base Generator GenShuffle.
Local Open Scope Z_scope.

(** C99: at least n! - 2^48 orders of a vector of n different numbers are never made by
    shuffle, whatever the state of the generator; *)
Theorem C99_missing_orders :
  forall l : list Z, NoDup l -> (2 <= length l)%nat ->
    exists M : list (list Z), NoDup M /\ Z.of_nat (fact (length l)) - 2 ^ 48 <= Z.of_nat (length M) /\
      forall p, In p M -> Permutation l p /\ forall fuel s s', shuffle fuel 0 l s <> Ok (p, s').
Proof. exact unshuffled. Qed.
Print Assumptions C99_missing_orders.

(** so with 17 entries or more it does not make every order. *)
Theorem C99_not_every_order :
  forall l : list Z, NoDup l -> (17 <= length l)%nat ->
    exists p, Permutation l p /\ forall fuel s s', shuffle fuel 0 l s <> Ok (p, s').
Proof. exact not_all_shuffled. Qed.
Print Assumptions C99_not_every_order.

(** With 4 entries it makes all 24 orders. *)
Example C99_example :
  NoDup (map Z.of_nat (seq 0 17)) /\ length (perms [1; 2; 3; 4]) = 24%nat /\
  (let made := map (fun s =>
     match shuffle 100 0 [1; 2; 3; 4] (set_seed (Z.of_nat s * 100003)) with
     | Ok (q, _) => q
     | Err _ => []
     end) (seq 0 200) in
   forallb (fun p => existsb (fun q => if list_eq_dec Z.eq_dec p q then true else false) made)
     (perms [1; 2; 3; 4])) = true.
Proof.
  split; [apply FinFun.Injective_map_NoDup; [intros a b; apply Nat2Z.inj|apply seq_NoDup]|].
  split; [reflexivity|vm_compute; reflexivity].
Qed.
