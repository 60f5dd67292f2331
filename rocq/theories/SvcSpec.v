(** What can be said about the memory service from outside: who sent what, and
    what came back. *)
From Coq Require Import List ZArith Bool.
From Verif Require Import Base MemSvcModel PollModel SvcModel.
Import ListNotations.
Open Scope Z_scope.

Definition history := list (op * list out).
(** What sandbox [i] sent, in order. *)
Definition sent (i : nat) (tr : history) : list packet :=
  flat_map (fun x => match fst x with Send j p => if Nat.eqb j i then [p] else [] | _ => [] end) tr.
(** The requests carried out, in order: for whom, what, and the result. *)
Definition served_out (x : out) : list (nat * request * response) :=
  match x with Reply _ i rq rs => [(i, rq, rs)] | Unsent i rq rs => [(i, rq, rs)] | _ => [] end.
Definition carried_out (tr : history) : list (nat * request * response) := flat_map (fun x => flat_map served_out (snd x)) tr.
Definition carried_out_for (i : nat) (tr : history) : list request :=
  map (fun y => snd (fst y)) (filter (fun y => Nat.eqb (fst (fst y)) i) (carried_out tr)).
(** The same history as one of MemSvcModel: what happened to the host's memory. *)
Definition memory_events_of (x : op * list out) : list event :=
  match fst x with
  | Create shm bits _ => [EvCreate shm bits]
  | HostMem i size ras mp => [EvHostAlloc i size ras mp]
  | HostFree i a size => [EvHostFree i a size]
  | Destroy i => [EvDestroy i]
  | Serve _ => map (fun y => EvReq (fst (fst y)) (snd (fst y))) (flat_map served_out (snd x))
  | _ => []
  end.
Definition memory_events (tr : history) : list event := flat_map memory_events_of tr.
(** The results of the requests in such a history. *)
Definition request_results (l : list (event * response)) : list (nat * request * response) :=
  flat_map (fun x => match fst x with EvReq i rq => [(i, rq, snd x)] | _ => [] end) l.

(** The service knows sandbox [i]. *)
Definition known (i : nat) (s : st) : Prop := exists fd, find fd (ranges s) = Some i.
(** An output that concerns sandbox [i]. *)
Definition about (i : nat) (x : out) : Prop :=
  match x with Reply j k _ _ => j = i \/ k = i | Unsent k _ _ => k = i | Kill k => k = i | Abort => False end.
(** The Libraries destroyed since the last poll. *)
Definition since_poll (tr : history) : list nat :=
  fold_left (fun l x => match fst x with Poll _ => [] | Destroy i => i :: l | _ => l end) tr [].
