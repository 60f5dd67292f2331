(** Vocabulary for programs with several threads: taking turns. *)
From Coq Require Import List ZArith Bool.
From Verif Require Import ProtoModel MtModel.
Import ListNotations.
Open Scope Z_scope.

(** A host thread that is not using the library. *)
Definition host_away (h : hstate * list hframe) : Prop := h = (HUser, []).
(** A thread of the sandboxed library that is in its own code, outside callbacks. *)
Definition kid_away (k : cstate * list cframe) : Prop := k = (CUser, [KRun 0 0 0]).
(** The main thread of the sandbox is in a function the host called. *)
Definition main_in_function (k : cstate * list cframe) : Prop :=
  exists d i b st, k = (CUser, KRun d i b :: st).

(** Turns are taken: a host thread moves only while no other one uses the library
    (a lock around each call of the Library does this); the sandbox's main thread
    only while its other threads are outside callbacks; one of those only while
    the main thread is in a function and the remaining ones are outside
    callbacks, and it does not run off its end. *)
Definition in_turn (child_do : nat -> list event -> cact) (x : turn) (s : mconf) : Prop :=
  match x with
  | TH t _ => forall u h, u <> t -> nth_error (m_hosts s) u = Some h -> host_away h
  | TC O _ => forall u k, u <> O -> nth_error (m_kids s) u = Some k -> kid_away k
  | TC t _ =>
    (forall k, nth_error (m_kids s) 0 = Some k -> main_in_function k) /\
    (forall u k, u <> O -> u <> t -> nth_error (m_kids s) u = Some k -> kid_away k) /\
    (nth_error (m_kids s) t = Some (CUser, [KRun 0 0 0]) -> child_do t (m_log s) <> CReturn)
  end.

Inductive turns (debug spurious : bool) (hd : nat -> list event -> hact) (cd : nat -> list event -> cact) (s0 : mconf) : mconf -> Prop :=
| turns_0 : turns debug spurious hd cd s0 s0
| turns_S s x s' : turns debug spurious hd cd s0 s -> in_turn cd x s -> mstep debug spurious hd cd x s = Some s' ->
    turns debug spurious hd cd s0 s'.

(** Any schedule. *)
Inductive mreach (debug spurious : bool) (hd : nat -> list event -> hact) (cd : nat -> list event -> cact) (s0 : mconf) : mconf -> Prop :=
| mreach_0 : mreach debug spurious hd cd s0 s0
| mreach_S s x s' : mreach debug spurious hd cd s0 s -> mstep debug spurious hd cd x s = Some s' ->
    mreach debug spurious hd cd s0 s'.

(** Payloads of callbacks made and handled; results of handlers and of callbacks. *)
Definition made (l : list event) : list Z := flat_map (fun e => match e with ECallback k => [k] | _ => [] end) l.
Definition taken (l : list event) : list Z := flat_map (fun e => match e with EHandle k => [k] | _ => [] end) l.
Definition answered (l : list event) : list Z := flat_map (fun e => match e with EHandled _ r => [r] | _ => [] end) l.
Definition received (l : list event) : list Z := flat_map (fun e => match e with EResume _ r => [r] | _ => [] end) l.
