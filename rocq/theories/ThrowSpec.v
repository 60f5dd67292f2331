(** Specification of calls some of which are left by an exception. *)
From Coq Require Import List ZArith.
From Verif Require Import ProtoModel ProtoSpec ThrowModel.
Import ListNotations.
Open Scope Z_scope.

(** A call that an exception left: after some complete callbacks, the handler of
    one callback made some complete calls and then either threw or made a call
    that was itself left in this way.  Nothing of it happens after the throw: its
    function does not return and the callback is not answered. *)
Inductive abandoned : list event -> Prop :=
| ab_here i b cs k hs : callbacks cs -> calls hs ->
    abandoned (EReq i b :: EInvoke i b :: cs ++ ECallback k :: EHandle k :: hs ++ [EThrow])
| ab_inside i b cs k hs x : callbacks cs -> calls hs -> abandoned x ->
    abandoned (EReq i b :: EInvoke i b :: cs ++ ECallback k :: EHandle k :: hs ++ x).

(** What the host's top-level code sees: complete calls and abandoned ones. *)
Inductive history : list event -> Prop :=
| hi_nil : history []
| hi_calls l c : history l -> calls c -> history (l ++ c)
| hi_abandoned l x : history l -> abandoned x -> history (l ++ x).

(** The same after the callbacks made while loading (ProtoSpec.complete). *)
Definition history_from (ks : list Z) (l : list event) : Prop :=
  exists done, map fst done = ks /\
    ((exists rest, l = load_events done ++ rest /\ history rest)
     \/ exists l1 l2 i b rest, load_events done = l1 ++ l2 /\
          l = l1 ++ EReq i b :: l2 ++ rest /\ history (EReq i b :: rest)).

(** The sequential program of ProtoSpec in which a handler may also throw: every
    open call and handler is then gone. *)
Inductive xseq_step (host_do : list event -> xact) (child_do : list event -> cact) :
    list open * control * list event -> list open * control * list event -> Prop :=
| x_plain st ct l c' : (ct = InHost -> exists a, host_do l = XDo a) ->
    seq_step (plain host_do) child_do (st, ct, l) c' -> xseq_step host_do child_do (st, ct, l) c'
| x_throw k st l : host_do l = XThrow false ->
    xseq_step host_do child_do (OHandler k :: st, InHost, l) ([], InHost, l ++ [EThrow]).
Inductive xseq host_do child_do (c0 : list open * control * list event) :
    list open * control * list event -> Prop :=
| xseq_0 : xseq host_do child_do c0 c0
| xseq_next c c' : xseq host_do child_do c0 c -> xseq_step host_do child_do c c' -> xseq host_do child_do c0 c'.

(** Handlers started and handlers that returned. *)
Definition started (l : list event) : nat :=
  length (filter (fun e => match e with EHandle _ => true | _ => false end) l).
Definition answered (l : list event) : nat :=
  length (filter (fun e => match e with EHandled _ _ => true | _ => false end) l).
