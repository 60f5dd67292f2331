(** Vocabulary of the semaphore theorems: counts over the history of calls and
    returns.  Independent of the model's program counters. *)
From Coq Require Import List ZArith Bool Arith.
From Verif Require Import SemModel.
Import ListNotations.

Definition is_call_wake e := match e with CallWake _ => true | _ => false end.
Definition is_ret_wake e := match e with RetWake _ => true | _ => false end.
Definition is_call_wait e := match e with CallWait _ => true | _ => false end.
Definition is_true_ret e := match e with RetWait _ true => true | _ => false end.
Definition is_fault e := match e with Die _ => true | Corrupt _ => true | _ => false end.

(** How many events of a kind a history contains. *)
Definition count (p : event -> bool) (h : list event) : nat := length (filter p h).

(** wake() calls made, wake() calls that returned, wait() calls that returned true. *)
Definition wakes_called h := count is_call_wake h.
Definition wakes_returned h := count is_ret_wake h.
Definition waits_true h := count is_true_ret h.

(** No process aborted and nobody wrote the word behind the semaphore's back. *)
Definition clean (h : list event) : Prop := forall e, In e h -> is_fault e = false.

(** [w] is the only thread that waits, as in the sandbox protocol: the child
    waits on one semaphore, the calling host thread on the other. *)
Definition only_waiter (w : nat) (h : list event) : Prop :=
  forall t, In (CallWait t) h -> t = w.
