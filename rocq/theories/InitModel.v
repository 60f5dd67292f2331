(** Model of SharedAllocConfig::ensure_initialised and Pagemap::init
    (include/process_sandbox/sandbox.h 195-203, 466-475) run by any number of
    threads, each constructing one Library (src/libsandbox.cc 55-59).  No proofs
    in this file. *)
From Coq Require Import List Arith Bool.
Import ListNotations.

(** Where a thread is: before the load of isInitialised (469); before the store
    (473); before Pagemap::init (474); after ensure_initialised, about to use the
    pagemap (libsandbox.cc 60); done. *)
Inductive pc := Load | Store | Init | Use | Done.
(** The flag; the number of pagemaps made so far, the last of which is the one
    installed (201-202: assigning pagemap_mem unmaps the one before); where the
    threads are. *)
Record st := St { flag : bool; made : nat; threads : list pc }.
(** What a step shows: a pagemap was made; the pagemap number [k] was used to
    register a Library's memory ([None]: none is installed yet). *)
Inductive out := Made | Used (k : option nat).

Fixpoint upd {A} (i : nat) (v : A) (l : list A) : list A :=
  match l, i with [], _ => [] | _ :: r, O => v :: r | x :: r, S k => x :: upd k v r end.

(** One step of thread [i].  The atomic loads and stores are single steps;
    Pagemap::init is one too (a simplification that removes schedules only). *)
Definition step (i : nat) (s : st) : st * list out :=
  match nth_error (threads s) i with
  | Some Load => (St (flag s) (made s) (upd i (if flag s then Use else Store) (threads s)), [])
  | Some Store => (St true (made s) (upd i Init (threads s)), [])
  | Some Init => (St (flag s) (S (made s)) (upd i Use (threads s)), [Made])
  | Some Use => (St (flag s) (made s) (upd i Done (threads s)), [Used (match made s with O => None | S k => Some k end)])
  | _ => (s, [])
  end.
Definition init (n : nat) : st := St false 0 (repeat Load n).
(** A schedule lists which thread moves. *)
Fixpoint run (sched : list nat) (s : st) : st * list out :=
  match sched with
  | [] => (s, [])
  | i :: r => let (s1, x) := step i s in let (s2, y) := run r s1 in (s2, x ++ y)
  end.
