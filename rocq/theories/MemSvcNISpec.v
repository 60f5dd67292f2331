(** Specification vocabulary for the independence of sandboxes: what a history
    looks like without the other sandboxes, and what one sandbox is told. *)
From Coq Require Import List Bool.
From Verif Require Import MemSvcModel.
Import ListNotations.

(** A request of sandbox i, or the host's own use of i's memory. *)
Definition of_box (i : nat) (ev : event) : bool :=
  match ev with
  | EvReq j _ | EvHostAlloc j _ _ _ | EvHostFree j _ _ => Nat.eqb j i
  | EvCreate _ _ | EvDestroy _ => false
  end.
(** A sandbox is created or destroyed. *)
Definition comes_or_goes (ev : event) : bool :=
  match ev with EvCreate _ _ | EvDestroy _ => true | _ => false end.
(** What is left of a history when the requests of the other sandboxes, and
    the host's use of their memory, never happen. *)
Definition without_others (i : nat) (evs : list event) : list event :=
  filter (fun ev => of_box i ev || comes_or_goes ev) evs.
(** What sandbox i, and the host in i's memory, are told, in order. *)
Definition told (i : nat) (tr : list (event * response)) : list (event * response) :=
  filter (fun er => of_box i (fst er)) tr.
