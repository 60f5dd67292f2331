(** Specification of how much work a request makes the host do. *)
From Coq Require Import List ZArith.
From Verif Require Import HostCallsModel.
Import ListNotations.
Local Open Scope Z_scope.

(** The number of bytes in a list of (address, length). *)
Definition bytes (l : list (Z * Z)) : Z := fold_right (fun x n => snd x + n) 0 l.

(** What an answer of getaddrinfo takes: for each entry 112 bytes (a structure of
    48 bytes that is cleared, stored, and has two of its pointers stored again) and
    its socket address (cleared and stored). *)
Definition answer_bytes (l : list addrinfo) : Z :=
  fold_right (fun a n => 112 + 2 * Z.of_nat (length (ai_sockaddr a)) + n) 0 l.
