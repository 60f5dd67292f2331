(** Shared vocabulary of the models: outcomes, byte strings, machine words.
    Nothing here models a particular function of the repository. *)
From Coq Require Import String Ascii List ZArith Lia Bool.
Import ListNotations.

(** The ways a C++ computation can end.  [UB] is undefined behaviour,
    [Throws] an uncaught C++ exception, [Aborts] process termination by
    SANDBOX_INVARIANT / err(), [OutOfFuel] a loop that did not finish within
    the fuel the model gave it (proved unreachable where fuel is used). *)
Inductive outcome (A : Type) : Type :=
| Ret (a : A)
| UB
| Throws
| Aborts
| OutOfFuel.
Arguments Ret {A} _.
Arguments UB {A}.
Arguments Throws {A}.
Arguments Aborts {A}.
Arguments OutOfFuel {A}.

Definition obind {A B} (o : outcome A) (f : A -> outcome B) : outcome B :=
  match o with
  | Ret a => f a
  | UB => UB
  | Throws => Throws
  | Aborts => Aborts
  | OutOfFuel => OutOfFuel
  end.

(** Byte strings (std::string, std::string_view): lists of bytes. *)
Notation text := (list ascii).

Definition text_eq_dec : forall a b : text, {a = b} + {a <> b} :=
  list_eq_dec ascii_dec.

Definition text_eqb (a b : text) : bool :=
  if text_eq_dec a b then true else false.

Lemma text_eqb_spec a b : reflect (a = b) (text_eqb a b).
Proof. unfold text_eqb. destruct (text_eq_dec a b); constructor; auto. Qed.

Lemma text_eqb_refl a : text_eqb a a = true.
Proof. destruct (text_eqb_spec a a); congruence. Qed.

(** Literals. *)
Definition tx (s : string) : text := list_ascii_of_string s.

Definition slash : ascii := "/"%char.
Definition backslash : ascii := "\"%char.
Definition nul : ascii := zero.
Definition dotdot : text := tx "..".

(** 64-bit words. *)
Definition W : Z := (2 ^ 64)%Z.
Definition wrap (z : Z) : Z := (z mod W)%Z.
Definition is_word (z : Z) : Prop := (0 <= z < W)%Z.
