(** Vocabulary for the fairness of the memory service. *)
From Coq Require Import List ZArith.
From Verif Require Import MemSvcModel SvcModel SvcSpec.
From Verif Require WorkModel.
Import ListNotations.

(** How many times round its loop the service went. *)
Definition rounds (tr : history) : nat := length (filter (fun x => match fst x with Serve _ => true | _ => false end) tr).
(** The service dealt with sandbox [i]: it carried out one of its requests or killed it. *)
Definition attended (i : nat) (tr : history) : Prop := exists o y z, In (o, y) tr /\ In z y /\ about i z.
(** Sandbox [i] has sent more than was carried out for it. *)
Definition waits (i : nat) (tr : history) : Prop := (length (carried_out_for i tr) < length (sent i tr))%nat.
(** The entries of the pagemap that the requests of a history of the memory touch, in order: those that
    [WorkModel.counted_service] records for each (src/libsandbox.cc 148-249), and none for
    a request that no live sandbox makes. *)
Fixpoint entries_touched (c : cfg) (st : gstate) (evs : list event) : list Z :=
  match evs with
  | [] => []
  | ev :: r =>
    match ev with
    | EvReq i rq =>
      match nth_error (g_box st) i with
      | Some b => if b_live b then snd (WorkModel.counted_service c (g_pm st) b rq) else []
      | None => []
      end
    | _ => []
    end ++ entries_touched c (fst (MemSvcModel.step c st ev)) r
  end.
(** No Library of the history has more than [2 ^ B] bytes of memory. *)
Definition regions_within (B : nat) (evs : list event) : Prop := forall shm bits, In (EvCreate shm bits) evs -> (bits <= B)%nat.
