(** Model of how the threads of a sandboxed process get memory: requestHostService
    and its callers (src/library_runner.cc 142-178, 183-210, 233-283), over the
    host's memory service (MemSvcModel; that the service thread carries out the
    requests of one sandbox in order is C42).  No proofs in this file. *)
From Coq Require Import List ZArith Bool Arith.
From Verif Require Import Base MemSvcModel CheckModel.
Import ListNotations.
Open Scope Z_scope.

(** The two requests the sandbox's run-time makes: SharedMemoryRange, 198-209
    (with [ms] and [ras] 0), alloc_chunk, 242-247, dealloc_chunk, 273-274. *)
Definition req_alloc (size ms ras : Z) : request := Request 0 size ms ras 0.
Definition req_free (a size : Z) : request := Request 1 a size 0 0.

(** Where a thread is in requestHostService: outside; spinning on the lock, 149;
    holding it, before write, 151; before read, 158. *)
Inductive tpc := Out | Spin (rq : request) | Locked (rq : request) | Waiting (rq : request).

Record st := St {
  lock : option nat;
  thr : nat -> tpc;
  up : list request;                   (* the socket, towards the host *)
  down : list response;                (* and back *)
  dead : bool;                         (* the process has aborted *)
  tr : list (event * response);        (* all that has happened in the host's memory *)
  mem : gstate }.

Definition set_thr (t : nat) (p : tpc) (f : nat -> tpc) : nat -> tpc := fun u => if Nat.eqb u t then p else f u.

(** A system call transfers the whole message, or it is interrupted by a signal
    or fails and transfers nothing.  The check after it (153-157, 160-164) then
    raises an exception (CheckModel), which leaves requestHostService and with it
    the lock.  It ends the process when it meets no handler, or meets noexcept
    (or the handler of 327-336): [Write t false], [Read t false]; or some caller in
    the sandboxed library handles it: [WriteThrown], [ReadThrown].
    Simplification: the memory the exception itself needs is not modelled. *)
Inductive op :=
| Enter (t : nat) (rq : request)
| Lock (t : nat)
| Write (t : nat) (ok : bool)
| Read (t : nat) (ok : bool)
| WriteThrown (t : nat)
| ReadThrown (t : nat)
| Serve                                 (* the service takes one request *)
| Env (ev : event).                     (* the host's threads and other sandboxes *)

(** What a caller of requestHostService sees: a result, or an exception. *)
Inductive out := Returned (t : nat) (rq : request) (v : Z) | GaveUp (t : nat) (rq : request).

(** A read blocks until there is a reply: that is the precondition in
    [enabled].  146-178. *)
Definition step (c : cfg) (i : nat) (o : op) (s : st) : st * list out :=
  let die := (St (lock s) (thr s) (up s) (down s) true (tr s) (mem s), []) in
  match o with
  | Enter t rq => (St (lock s) (set_thr t (Spin rq) (thr s)) (up s) (down s) (dead s) (tr s) (mem s), [])
  | Lock t =>
    match thr s t with
    | Spin rq => (St (Some t) (set_thr t (Locked rq) (thr s)) (up s) (down s) (dead s) (tr s) (mem s), [])
    | _ => (s, [])
    end
  | Write t ok =>
    match thr s t with
    | Locked rq => if ok then (St (lock s) (set_thr t (Waiting rq) (thr s)) (up s ++ [rq]) (down s) (dead s) (tr s) (mem s), [])
                   else die
    | _ => (s, [])
    end
  | Read t ok =>
    match thr s t, down s with
    | Waiting rq, rs :: rest =>
      if ok then
        if rs_error rs =? 0
        then (St None (set_thr t Out (thr s)) (up s) rest (dead s) (tr s) (mem s), [Returned t rq (rs_ret rs)])
        else (St (lock s) (thr s) (up s) rest true (tr s) (mem s), [])        (* 165-175 *)
      else die
    | Waiting _, [] => if ok then (s, []) else die
    | _, _ => (s, [])
    end
  | WriteThrown t =>
    match thr s t with
    | Locked rq => (St None (set_thr t Out (thr s)) (up s) (down s) (dead s) (tr s) (mem s), [GaveUp t rq])
    | _ => (s, [])
    end
  | ReadThrown t =>
    match thr s t with
    | Waiting rq => (St None (set_thr t Out (thr s)) (up s) (down s) (dead s) (tr s) (mem s), [GaveUp t rq])
    | _ => (s, [])
    end
  | Serve =>
    match up s with
    | rq :: rest =>
      let (m, rs) := MemSvcModel.step c (mem s) (EvReq i rq) in
      (St (lock s) (thr s) rest (down s ++ [rs]) (dead s) (tr s ++ [(EvReq i rq, rs)]) m, [])
    | [] => (s, [])
    end
  | Env ev =>
    let (m, rs) := MemSvcModel.step c (mem s) ev in
    (St (lock s) (thr s) (up s) (down s) (dead s) (tr s ++ [(ev, rs)]) m, [])
  end.

(** Whether a check raises an exception when it fails; otherwise it ends the
    process. *)
Definition raises (k : site) : Prop := forall release f values, check_at k release false f values = Raised.

(** When a step can happen at all.  A dead process makes no more steps. *)
Definition enabled (o : op) (s : st) : Prop :=
  match o with
  | Enter t _ => dead s = false /\ thr s t = Out
  | Lock t => dead s = false /\ lock s = None /\ exists rq, thr s t = Spin rq
  | Write t _ => dead s = false /\ exists rq, thr s t = Locked rq
  | Read t ok => dead s = false /\ (exists rq, thr s t = Waiting rq) /\ (ok = true -> down s <> [])
  | WriteThrown t => dead s = false /\ (exists rq, thr s t = Locked rq) /\ raises site_write
  | ReadThrown t => dead s = false /\ (exists rq, thr s t = Waiting rq) /\ raises site_read
  | Serve => up s <> []
  | Env _ => True
  end.

(** The start: no thread has asked yet; the host's history so far is [evs]. *)
Definition start (c : cfg) (evs : list event) : st :=
  let (m, t) := MemSvcModel.run c init_state evs in St None (fun _ => Out) [] [] false t m.

(** alloc_chunk, 236-261, once requestHostService has returned [v]: the chunk and
    the metadata at [ms], or two null pointers. *)
Definition alloc_chunk_result (v ms : Z) : option (Z * Z) := if v =? 0 then None else Some (v, ms).
