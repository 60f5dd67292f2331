(** Vocabulary for programs with several libraries. *)
From Coq Require Import List ZArith.
From Verif Require Import ProtoModel ThrowModel HostileSpec.
Import ListNotations.
Open Scope Z_scope.

(** What happened in library [i]. *)
Definition events_of (i : nat) (h : list (nat * event)) : list event :=
  flat_map (fun x => if Nat.eqb (fst x) i then [snd x] else []) h.

(** [hd] is what the host's code does with library [i], given what happened in it,
    when all else that may have happened is one of the possible histories. *)
Definition acts_as (host_do : nat -> list (nat * event) -> xact) (i : nat) (hd : list event -> xact) : Prop :=
  forall l, exists h, events_of i h = l /\ hd l = host_do i h.

(** HostileSpec.nest for handlers that may throw: an exception ends the innermost
    call or handler and any number of those around it; what it leaves is a handler
    that caught it, or the program's top level. *)
Inductive xnest : list event -> list item -> Prop :=
| xnest_0 : xnest [] []
| xnest_req_top l i b : xnest l [] -> xnest (l ++ [EReq i b]) [OpCall i b]
| xnest_req l i b k st : xnest l (OpHandler k :: st) -> xnest (l ++ [EReq i b]) (OpCall i b :: OpHandler k :: st)
| xnest_handle l i b k st : xnest l (OpCall i b :: st) -> xnest (l ++ [EHandle k]) (OpHandler k :: OpCall i b :: st)
| xnest_handled l k r st : xnest l (OpHandler k :: st) -> xnest (l ++ [EHandled k r]) st
| xnest_done l i b st : xnest l (OpCall i b :: st) -> xnest (l ++ [EDone i b]) st
| xnest_throw l x inner outer : xnest l (x :: inner ++ outer) -> x <> Closed ->
    match outer with OpHandler _ :: _ | [] => True | _ => False end -> xnest (l ++ [EThrow]) outer
| xnest_quit l : xnest l [] -> xnest (l ++ [EQuit]) [Closed].
