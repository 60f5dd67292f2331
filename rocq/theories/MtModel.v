(** Model of the protocol of ProtoModel.v when several threads of the host use one
    Library, or several threads of the sandbox make callbacks: Library::send
    (src/libsandbox.cc 934-992), runloop and callback (src/library_runner.cc
    307-348, 446-475).  None of the three takes a lock.  Each thread runs the code
    of ProtoModel.v over the one shared header and the one callback socket.
    No proofs in this file. *)
From Coq Require Import List ZArith Bool.
From Verif Require Import ProtoModel.
Import ListNotations.
Open Scope Z_scope.

Record mconf := MConf {
  m_sh : shared;
  m_hosts : list (hstate * list hframe);
  m_kids : list (cstate * list cframe);
  m_reqs : list Z; m_resps : list Z;
  m_log : list event }.

(** The sandbox process is gone as soon as one of its threads ended it. *)
Definition process_state (kids : list (cstate * list cframe)) : cstate :=
  if existsb (fun k => gone (fst k)) kids then CKilled else CUser.
(** Likewise the host process: a failed invariant in one thread ends all. *)
Definition host_gone (hosts : list (hstate * list hframe)) : bool :=
  existsb (fun h => match fst h with HAborted => true | _ => false end) hosts.

Fixpoint put {A} (l : list A) (i : nat) (x : A) : list A :=
  match l, i with [], _ => [] | _ :: r, O => x :: r | y :: r, S j => y :: put r j x end.

Section THREADS.
Variable debug spurious : bool.
(** What each thread's own code does next, given all that has happened. *)
Variable host_do : nat -> list event -> hact.
Variable child_do : nat -> list event -> cact.

(** One step of host thread [t]: that of ProtoModel.v with its own control state. *)
Definition mhost_step (t : nat) (fail : bool) (s : mconf) : option mconf :=
  if host_gone (m_hosts s) then None
  else match nth_error (m_hosts s) t with
  | None => None
  | Some (pc, st) =>
    match host_step debug spurious (host_do t) fail
            (Conf (m_sh s) pc st (process_state (m_kids s)) [] (m_reqs s) (m_resps s) (m_log s)) with
    | None => None
    | Some c => Some (MConf (sh c) (put (m_hosts s) t (hpc c, hstk c)) (m_kids s) (reqs c) (resps c) (log c))
    end
  end.

(** One step of sandbox thread [t].  Thread 0 runs main; the others were started
    by the library. *)
Definition mchild_step (t : nat) (fail : bool) (s : mconf) : option mconf :=
  if existsb (fun k => gone (fst k)) (m_kids s) then None
  else match nth_error (m_kids s) t with
  | None => None
  | Some (pc, st) =>
    match child_step debug (child_do t) fail
            (Conf (m_sh s) HUser [] pc st (m_reqs s) (m_resps s) (m_log s)) with
    | None => None
    | Some c => Some (MConf (sh c) (m_hosts s) (put (m_kids s) t (cpc c, cstk c)) (reqs c) (resps c) (log c))
    end
  end.

(** A schedule: which thread moves, and how a wait on an unset semaphore ends. *)
Inductive turn := TH (t : nat) (fail : bool) | TC (t : nat) (fail : bool).
Definition mstep (x : turn) (s : mconf) : option mconf :=
  match x with TH t f => mhost_step t f s | TC t f => mchild_step t f s end.
Fixpoint mrun (xs : list turn) (s : mconf) : option mconf :=
  match xs with
  | [] => Some s
  | x :: r => match mstep x s with Some s' => mrun r s' | None => None end
  end.
End THREADS.

(** A library that has finished loading, with [n] host threads and a sandbox with
    [m] threads besides the main one, which are in code of the library. *)
Definition midle (n m : nat) : mconf :=
  MConf (Shared 0 0 0 0 0 false false true) (repeat (HUser, []) n)
    ((CChk 0, []) :: repeat (CUser, [KRun 0 0 0]) m) [] [] [].
