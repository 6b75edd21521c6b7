(** * Properties C47 (rest) and C85 to C87: random_t::next() for doubles;
    UnrootChain, UnrootFlower, RootChain, RootFlower

    The functions GenTree of these classes draw with std::pow, which is the
    argument [powf] here; [pow_good] says how exact it has to be. *)
From Coq Require Import Floats.SpecFloat.
From Verif Require Import Base Data Generator GenMore GenFar GenSpec GenMoreSpec FloatSpec GenFarSpec.
From Verif Require Import GenFarProof GenFarShapes GenFarThm GenUnit.
Local Open Scope Z_scope.

(** C47 for doubles: next() is a multiple of 2^-53 in [0, 1); its first 26 binary
    digits are those of the next state, the others those of the state after it. *)
Theorem C47_double : forall s : rng, exists k, f64_is 53 (fst (unit_next s)) k /\ 0 <= k < 2 ^ 53 /\
  k / 2 ^ 27 = rng_step s / 2 ^ 22 /\ k mod 2 ^ 27 = rng_step (rng_step s) / 2 ^ 21 /\ snd (unit_next s) = rng_step (rng_step s).
Proof. exact unit_digits. Qed.
Print Assumptions C47_double.

(** equally many states give numbers in each of the 2^26 intervals of equal length *)
Theorem C47_double_uniform : forall a a' : Z, 0 <= a < 2 ^ 26 -> 0 <= a' < 2 ^ 26 ->
  exists f : rng -> rng,
    (forall w, 0 <= w < 2 ^ 48 -> in_slot a w -> 0 <= f w < 2 ^ 48 /\ in_slot a' (f w)) /\
    (forall w1 w2, 0 <= w1 < 2 ^ 48 -> 0 <= w2 < 2 ^ 48 -> in_slot a w1 -> in_slot a w2 -> f w1 = f w2 -> w1 = w2).
Proof. exact unit_uniform. Qed.
Print Assumptions C47_double_uniform.

(** 25214903928 / 2^22 = 6011, 206026503483683 / 2^21 = 98241092; the number is
    6011 * 2^27 + 98241092 over 2^53 *)
Example C47_double_example : unit_next 1 = (S754_finite false 6609969185587200 (-66), 206026503483683) /\ in_slot 6011 1.
Proof.
  split; [vm_compute; reflexivity|]. exists 806881004100. split; [vm_compute; split; reflexivity|lia].
Qed.

(** C85: they return trees, rooted at the wanted node if they have a root; a
    root above n - 1 is taken as n - 1. *)
Theorem C85_unrooted : forall powf (fuel : nat) (n : Z) (s : rng), pow_good powf -> 1 <= n <= INT_MAX -> 2 ^ 48 + 2 <= Z.of_nat fuel ->
  (exists E s', unroot_chain_run powf fuel n s = Ok (E, s') /\ Z.of_nat (length E) = n - 1 /\ simple_connected n E) /\
  (exists E s', unroot_flower_run powf fuel n s = Ok (E, s') /\ Z.of_nat (length E) = n - 1 /\ simple_connected n E).
Proof. exact unrooted_trees. Qed.
Print Assumptions C85_unrooted.

Theorem C85_rooted : forall powf (fuel : nat) (n root rootfather : Z) (s : rng), pow_good powf ->
  1 <= n <= INT_MAX -> 0 <= root -> 2 ^ 48 + 2 <= Z.of_nat fuel ->
  (exists E father s', root_run powf fuel (new_root_chain n root rootfather) s = Ok (E, father, s') /\
     Z.of_nat (length E) = n - 1 /\ simple_connected n E /\ rooted_tree n (Z.min root (n - 1)) rootfather father E) /\
  (exists E father s', root_run powf fuel (new_root_flower n root rootfather) s = Ok (E, father, s') /\
     Z.of_nat (length E) = n - 1 /\ simple_connected n E /\ rooted_tree n (Z.min root (n - 1)) rootfather father E).
Proof. exact rooted_trees. Qed.
Print Assumptions C85_rooted.

(** [crude_pow] is 0 for 0 and 1 otherwise *)
Example C85_example : pow_good crude_pow /\
  unroot_chain_run crude_pow 1000 5 1 = Ok ([(4, 3); (0, 2); (2, 1); (3, 1)], 36886215773555) /\
  root_run crude_pow 1000 (new_root_flower 5 2 (-1)) 1 = Ok ([(4, 2); (2, 0); (2, 1); (3, 2)], [2; 2; -1; 2; 2], 36886215773555).
Proof. split; [exact crude_good|]. split; vm_compute; reflexivity. Qed.

(** C86: with up to 2701 nodes the chains are paths, whatever the seed; the
    flowers are stars, except that one leaf may be joined to another one. *)
Theorem C86_chain : forall powf (fuel : nat) (n root rootfather : Z) (s : rng), pow_good powf -> 1 <= n <= 2701 -> 0 <= root -> 2 ^ 48 + 2 <= Z.of_nat fuel ->
  (exists E s', unroot_chain_run powf fuel n s = Ok (E, s') /\ is_path n E) /\
  (exists E father s', root_run powf fuel (new_root_chain n root rootfather) s = Ok (E, father, s') /\ is_path n E).
Proof. exact chains. Qed.
Print Assumptions C86_chain.

Theorem C86_flower : forall powf (fuel : nat) (n root rootfather : Z) (s : rng), pow_good powf -> 1 <= n <= 2701 -> 0 <= root -> 2 ^ 48 + 2 <= Z.of_nat fuel ->
  (exists E s', unroot_flower_run powf fuel n s = Ok (E, s') /\ (is_star n E \/ is_bent_star n E)) /\
  (exists E father s', root_run powf fuel (new_root_flower n root rootfather) s = Ok (E, father, s') /\ (is_star n E \/ is_bent_star n E)).
Proof. exact flowers. Qed.
Print Assumptions C86_flower.

(** The exception occurs, *)
Theorem C86_star_refuted : exists n seed, 1 <= n <= 2701 /\ 0 <= seed < 2 ^ 48 /\ forall powf, pow_good powf ->
  exists fuel E s', unroot_flower_run powf fuel n seed = Ok (E, s') /\ ~ is_star n E.
Proof. exact flower_bent. Qed.
Print Assumptions C86_star_refuted.

(** and the root of a RootChain is not always an end of the path. *)
Theorem C86_root_at_end_refuted : exists n root rootfather seed, 1 <= n <= 2701 /\ 0 <= root < n /\ 0 <= seed < 2 ^ 48 /\ forall powf, pow_good powf ->
  exists fuel E father s' u v, root_run powf fuel (new_root_chain n root rootfather) seed = Ok (E, father, s') /\ 0 <= u < v /\ v < n /\
    nth (Z.to_nat u) father 0 = root /\ nth (Z.to_nat v) father 0 = root.
Proof. exact chain_fork. Qed.
Print Assumptions C86_root_at_end_refuted.

Example C86_example : pow_good crude_pow /\ 1 <= 4 <= 2701 /\
  unroot_flower_run crude_pow 1000 4 1 = Ok ([(2, 0); (3, 0); (1, 0)], 99421425265860) /\
  unroot_flower_run crude_pow 1000 4 205945562491954 = Ok ([(1, 3); (0, 1); (0, 2)], 25979478236433).
Proof. split; [exact crude_good|]. split; [lia|]. split; vm_compute; reflexivity. Qed.

(** C87: with up to 2701 nodes the trees do not depend on the implementation of
    std::pow. *)
Theorem C87_any_pow : forall powf powf' (fuel : nat) (n root rootfather : Z) (s : rng), pow_good powf -> pow_good powf' -> n <= 2701 ->
  unroot_chain_run powf fuel n s = unroot_chain_run powf' fuel n s /\
  unroot_flower_run powf fuel n s = unroot_flower_run powf' fuel n s /\
  root_run powf fuel (new_root_chain n root rootfather) s = root_run powf' fuel (new_root_chain n root rootfather) s /\
  root_run powf fuel (new_root_flower n root rootfather) s = root_run powf' fuel (new_root_flower n root rootfather) s.
Proof. exact any_pow. Qed.
Print Assumptions C87_any_pow.

(** [crude_pow] and [cruder_pow], which is 1 - 2^-53 in place of 1 *)
Example C87_example : pow_good crude_pow /\ pow_good cruder_pow /\ crude_pow (f64_of_Z 1) (f64_of_Z 1) <> cruder_pow (f64_of_Z 1) (f64_of_Z 1).
Proof. split; [exact crude_good|]. split; [exact cruder_good|]. vm_compute. discriminate. Qed.
