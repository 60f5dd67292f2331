(** What a user of the poller knows about a descriptor, read off the history of
    calls alone. *)
From Coq Require Import List ZArith Bool.
From Verif Require Import PollModel.
Import ListNotations.
Open Scope Z_scope.

(** The caller has added the descriptor, has not closed it since, and (epoll)
    has not been told of its end of file since. *)
Definition listed_step {P} (kq : bool) (fd : Z) (b : bool) (x : op P * res P) : bool :=
  match x with
  | (OAdd n, RAdded true) => if n =? fd then true else b
  | (OClose n, _) => if n =? fd then false else b
  | (OPoll _, RPolled (Some (PTrue n true))) => if (n =? fd) && negb kq then false else b
  | _ => b
  end.
Definition listed {P} (kq : bool) (fd : Z) (tr : list (op P * res P)) : bool := fold_left (listed_step kq fd) tr false.
(** What the current socket under this number has been through: still open here,
    closed at the other end, messages sent to it and not yet received. *)
Record view (P : Type) := View { is_open : bool; peer_closed : bool; waiting : list P }.
Arguments View {P}. Arguments is_open {P}. Arguments peer_closed {P}. Arguments waiting {P}.
Definition view_step {P} (fd : Z) (v : view P) (x : op P * res P) : view P :=
  match x with
  | (OOpen n _, _) => if n =? fd then View true false [] else v
  | (OClose n, _) => if n =? fd then View false false [] else v
  | (OData n p, _) => if (n =? fd) && is_open v && negb (peer_closed v) then View true false (waiting v ++ [p]) else v
  | (OHang n, _) => if (n =? fd) && is_open v then View true true (waiting v) else v
  | (OTake n, _) => if n =? fd then View (is_open v) (peer_closed v) (tl (waiting v)) else v
  | _ => v
  end.
Definition seen {P} (fd : Z) (tr : list (op P * res P)) : view P := fold_left (view_step fd) tr (View false false []).
(** A report about the descriptor. *)
Definition reports {P} (fd : Z) (x : op P * res P) : Prop := exists l e, x = (OPoll l, RPolled (Some (PTrue fd e))).
