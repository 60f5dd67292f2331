(** What the two ends of a socket observe. *)
From Coq Require Import List ZArith Bool Arith.
From Verif Require Import SockModel.
Import ListNotations.
Open Scope Z_scope.

Fixpoint lookup (n : Z) (t : table) : option nat :=
  match t with [] => None | (m, f) :: r => if m =? n then Some f else lookup n r end.

(** What the sender was told has been sent, in order. *)
Fixpoint accepted (tr : list (op * event * state)) : list (list Z * option nat) :=
  match tr with
  | (Send _ data file, Sent true, _) :: r => (data, file) :: accepted r
  | _ :: r => accepted r
  | [] => []
  end.
(** What successful receives yielded: the bytes and, where a Handle was passed,
    the file that Handle then stands for ([Some None]: an empty Handle). *)
Fixpoint delivered (tr : list (op * event * state)) : list (list Z * option (option nat)) :=
  match tr with
  | (Receive _ _ _ _ _, Got (ODone true buf h), s) :: r =>
      (buf, match h with Some n => Some (lookup n (tab s)) | None => None end) :: delivered r
  | _ :: r => delivered r
  | [] => []
  end.
Definition same_message (a : list Z * option nat) (d : list Z * option (option nat)) : Prop :=
  fst d = fst a /\ match snd d with Some f => f = snd a | None => True end.

(** Both ends use the wrapper with one message type of [k] bytes, and the kernel
    has a number for a received descriptor. *)
Definition fair_use (k : nat) (o : op) : Prop :=
  match o with
  | Send _ data _ => length data = k
  | Receive _ _ _ nums buf => length buf = k /\ nums <> []
  | Inject _ => False
  | HangUp => True
  end.
(** A message type's size. *)
Definition a_size (k : nat) : Prop := (0 < k)%nat /\ Z.of_nat k < 2 ^ 31.
