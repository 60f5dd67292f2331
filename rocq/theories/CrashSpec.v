(** Vocabulary for what a program sees of a sandbox that dies. *)
From Coq Require Import List ZArith.
From Verif Require Import LinkModel.
Import ListNotations.
Open Scope Z_scope.

(** The calls the program is inside of: made, not returned, not left by an
    exception. *)
Definition enter (n : Z) (o : obs) : Z :=
  match o with OCall _ _ => n + 1 | ODone _ _ => n - 1 | OThrow => 0 | _ => n end.
Definition inside (t : list obs) : Z := fold_left enter t 0.

(** Something the program's own code does or sees, not the library's. *)
Definition of_program (o : obs) : Prop :=
  match o with OStart _ _ | OCallback _ | OResume _ _ | OReturn _ _ => False | _ => True end.
