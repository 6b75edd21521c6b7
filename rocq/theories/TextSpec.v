(** * Reading decimal numbers

    The meaning of a text such as -12.5 or 1.25e-07, as in the grammar of C for
    decimal floating constants: [read_number t = Some (v, k)] if [t] is a number
    with the value v * 10^k. *)
From Coq Require Import Strings.Ascii QArith.
From Verif Require Import Base.
Local Open Scope Z_scope.

Definition digit_value (c : ascii) : option Z :=
  let n := Z.of_nat (nat_of_ascii c) - 48 in if (0 <=? n) && (n <=? 9) then Some n else None.

(** the value of the digits at the front, read after [acc], their number and the rest *)
Fixpoint read_digits (acc : Z) (t : list ascii) : Z * Z * list ascii :=
  match t with
  | [] => (acc, 0, [])
  | c :: r =>
      match digit_value c with
      | Some d => let '(v, n, rest) := read_digits (10 * acc + d) r in (v, n + 1, rest)
      | None => (acc, 0, t)
      end
  end.

Definition read_fraction (acc : Z) (t : list ascii) : Z * Z * list ascii :=
  match t with
  | "."%char :: r => read_digits acc r
  | _ => (acc, 0, t)
  end.

Definition read_exponent (t : list ascii) : option Z :=
  match t with
  | [] => Some 0
  | "e"%char :: "+"%char :: r => let '(v, n, rest) := read_digits 0 r in match rest with [] => if 0 <? n then Some v else None | _ => None end
  | "e"%char :: "-"%char :: r => let '(v, n, rest) := read_digits 0 r in match rest with [] => if 0 <? n then Some (- v) else None | _ => None end
  | _ => None
  end.

Definition read_unsigned (t : list ascii) : option (Z * Z) :=
  let '(w, n, r) := read_digits 0 t in
  if 0 <? n then
    let '(v, d, r) := read_fraction w r in
    match read_exponent r with Some e => Some (v, e - d) | None => None end
  else None.

Definition read_number (t : list ascii) : option (Z * Z) :=
  match t with
  | "-"%char :: r => match read_unsigned r with Some (v, k) => Some (- v, k) | None => None end
  | _ => read_unsigned t
  end.

(** v * 10^k *)
Definition decimal (v k : Z) : Q := (inject_Z v * Qpower 10 k)%Q.
(** a number given in units of 2^-1074 *)
Definition units (z : Z) : Q := (inject_Z z / inject_Z (2 ^ 1074))%Q.
(** the distance of two numbers *)
Definition apart (p q : Q) : Q := (if Qle_bool p q then q - p else p - q)%Q.

(** [six_digits x v k]: v * 10^k has at most six significant digits, no such
    number is nearer to x, and the last of the six digits of one that is as near
    is odd *)
Definition six_digits (x : Q) (v k : Z) : Prop :=
  Z.abs v < 10 ^ 6 /\
  (forall v' k', Z.abs v' < 10 ^ 6 -> (apart x (decimal v k) <= apart x (decimal v' k'))%Q) /\
  (forall v' k', 10 ^ 5 <= Z.abs v' < 10 ^ 6 -> (apart x (decimal v' k') == apart x (decimal v k))%Q ->
     (decimal v' k' == decimal v k)%Q \/ Z.odd v' = true).
