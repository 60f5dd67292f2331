(** Specification of the numbers in the text that tells the child where the shared
    region is. *)
From Coq Require Import String Ascii List ZArith.
From Verif Require Import Base.
Import ListNotations.
Local Open Scope Z_scope.

(** The value of a hexadecimal digit: where it stands in the list of digits. *)
Fixpoint place_in (c : ascii) (l : text) : option nat :=
  match l with
  | [] => None
  | x :: r => if ascii_dec x c then Some 0%nat else option_map S (place_in c r)
  end.
Definition digit_value (c : ascii) : option nat :=
  match place_in c (tx "0123456789abcdef") with
  | Some d => Some d
  | None => place_in c (tx "0123456789ABCDEF")
  end.
Inductive numeral : text -> Z -> Prop :=
| numeral_1 c d : digit_value c = Some d -> numeral [c] (Z.of_nat d)
| numeral_S s v c d : numeral s v -> digit_value c = Some d -> numeral (s ++ [c]) (16 * v + Z.of_nat d).
Definition no_digit_first (s : text) : Prop := forall c r, s = c :: r -> digit_value c = None.

(** White space of the C locale: tab, line feed, vertical tab, form feed, carriage
    return, space. *)
Definition blank (c : ascii) : Prop := In c (map ascii_of_nat [9; 10; 11; 12; 13; 32]%nat).
Inductive sign : text -> bool -> Prop := sign_none : sign [] false | sign_plus : sign (tx "+") false | sign_minus : sign (tx "-") true.
Inductive radix : text -> Prop := radix_none : radix [] | radix_lower : radix (tx "0x") | radix_upper : radix (tx "0X").

(** C11 7.22.1.4: [s] starts with a number of value [v] in base 16 (negated in 64
    bits, or the largest value when it does not fit), followed by [rest].  The
    longest such start counts, so "0x" with a digit behind it is the prefix, not
    the number 0. *)
Inductive reads : text -> Z -> text -> Prop :=
| reads_number blanks sg neg rx ds v rest :
    Forall blank blanks -> sign sg neg -> radix rx -> numeral ds v -> no_digit_first rest ->
    (rx = [] -> ds = tx "0" -> forall x r, rest = x :: r -> In x (tx "xX") -> no_digit_first r) ->
    reads (blanks ++ sg ++ rx ++ ds ++ rest) (if 2 ^ 64 <=? v then 2 ^ 64 - 1 else if neg then (- v) mod 2 ^ 64 else v) rest.
