(** Model of the one-bit semaphore used to hand control between the host and
    the sandbox: include/process_sandbox/platform/onebitsem_futex.h, with the
    semantics of the Linux futex system call.  Any number of threads (of either
    process) use one semaphore.  Sequentially consistent memory: every access
    to the word is one atomic step.  No proofs in this file. *)
From Coq Require Import List ZArith Bool.
Import ListNotations.
Open Scope Z_scope.

(** The 32-bit signed word; fetch_add on std::atomic<int> wraps. *)
Definition I32 : Z := 4294967296.
Definition to_int (z : Z) : Z :=
  let m := z mod I32 in if m <? 2147483648 then m else m - I32.

(** Where a thread is in wake() (39-47) or wait() (48-76). *)
Inductive tpc :=
| Idle                  (* outside both functions *)
| WkStart               (* in wake, before the fetch_add of line 41 *)
| WkFetched             (* invariant of 42-45 passed, before FUTEX_WAKE, 46 *)
| WkDone                (* about to return from wake *)
| Try1                  (* first try_lock, 60: before the load of 51 *)
| Try1c (f : Z)         (* before the compare-exchange of 55-56 *)
| FWait                 (* before FUTEX_WAIT, 72 *)
| Sleeping              (* on the kernel's queue *)
| Try2                  (* second try_lock, 75 *)
| Try2c (f : Z)
| RetWith (b : bool)    (* about to return from wait *)
| Dead.                 (* the thread's process was aborted *)

Record sem := Sem { flag : Z; pcs : list tpc }.

(** The constructor's initial value: FutexOneBitSem(bool), 35-38; the shared
    region uses 0 (shared_memory_region.h 66-75). *)
Definition init (threads : nat) : sem := Sem 0 (repeat Idle threads).

Fixpoint upd {A} (l : list A) (i : nat) (a : A) : list A :=
  match l, i with
  | [], _ => []
  | _ :: t, O => a :: t
  | x :: t, S j => x :: upd t j a
  end.
Definition pc_of (s : sem) (t : nat) : option tpc := nth_error (pcs s) t.
Definition goto (s : sem) (t : nat) (p : tpc) : sem := Sem (flag s) (upd (pcs s) t p).
Definition goto_set (s : sem) (v : Z) (t : nat) (p : tpc) : sem := Sem v (upd (pcs s) t p).

(** What an observer of the API sees.  [Corrupt] is a store to the word by code
    in the sandbox that does not go through the semaphore's functions. *)
Inductive event :=
| CallWake (t : nat) | RetWake (t : nat)
| CallWait (t : nat) | RetWait (t : nat) (b : bool)
| Die (t : nat)
| Interrupted (t : nat)     (* FUTEX_WAIT returned EINTR *)
| Corrupt (v : Z)
| Tau (t : nat).

(** try_lock, 49-59, after the load of [f].  [debug] is a build with
    assertions, where line 54 aborts unless the value read is 1. *)
Definition after_load (debug : bool) (f : Z) (cas : Z -> tpc) (no : tpc) : tpc :=
  if 0 <? f then (if debug && negb (f =? 1) then Dead else cas f) else no.

Inductive step (debug : bool) : sem -> event -> sem -> Prop :=
(* wake, 39-47 *)
| s_call_wake s t : pc_of s t = Some Idle ->
    step debug s (CallWake t) (goto s t WkStart)
| s_fetch s t : pc_of s t = Some WkStart -> flag s = 0 ->                        (* 41-45 *)
    step debug s (Tau t) (goto_set s (to_int (flag s + 1)) t WkFetched)
| s_fetch_abort s t : pc_of s t = Some WkStart -> flag s <> 0 ->                 (* 42-45 *)
    step debug s (Die t) (goto_set s (to_int (flag s + 1)) t Dead)
| s_futex_wake s t w : pc_of s t = Some WkFetched -> pc_of s w = Some Sleeping -> (* 46 *)
    step debug s (Tau t) (goto (goto s w Try2) t WkDone)
| s_futex_wake_none s t : pc_of s t = Some WkFetched -> ~ In Sleeping (pcs s) ->
    step debug s (Tau t) (goto s t WkDone)
| s_ret_wake s t : pc_of s t = Some WkDone ->
    step debug s (RetWake t) (goto s t Idle)
(* wait, 48-76 *)
| s_call_wait s t : pc_of s t = Some Idle ->
    step debug s (CallWait t) (goto s t Try1)
| s_load1 s t : pc_of s t = Some Try1 -> after_load debug (flag s) Try1c FWait <> Dead ->
    step debug s (Tau t) (goto s t (after_load debug (flag s) Try1c FWait))
| s_load1_die s t : pc_of s t = Some Try1 -> after_load debug (flag s) Try1c FWait = Dead ->
    step debug s (Die t) (goto s t Dead)
| s_cas1 s t f : pc_of s t = Some (Try1c f) -> flag s = f ->
    step debug s (Tau t) (goto_set s (f - 1) t (RetWith true))
| s_cas1_fail s t f : pc_of s t = Some (Try1c f) -> flag s <> f ->
    step debug s (Tau t) (goto s t FWait)
| s_wait_sleep s t : pc_of s t = Some FWait -> flag s = 0 ->       (* queued *)
    step debug s (Tau t) (goto s t Sleeping)
| s_wait_again s t : pc_of s t = Some FWait -> flag s <> 0 ->      (* EAGAIN *)
    step debug s (Tau t) (goto s t Try2)
| s_timeout s t : pc_of s t = Some Sleeping ->    (* ETIMEDOUT, or a spurious 0 *)
    step debug s (Tau t) (goto s t Try2)
| s_eintr s t : pc_of s t = Some Sleeping ->      (* EINTR: loop of 70-73 *)
    step debug s (Interrupted t) (goto s t FWait)
| s_load2 s t : pc_of s t = Some Try2 ->
    after_load debug (flag s) Try2c (RetWith false) <> Dead ->
    step debug s (Tau t) (goto s t (after_load debug (flag s) Try2c (RetWith false)))
| s_load2_die s t : pc_of s t = Some Try2 ->
    after_load debug (flag s) Try2c (RetWith false) = Dead ->
    step debug s (Die t) (goto s t Dead)
| s_cas2 s t f : pc_of s t = Some (Try2c f) -> flag s = f ->
    step debug s (Tau t) (goto_set s (f - 1) t (RetWith true))
| s_cas2_fail s t f : pc_of s t = Some (Try2c f) -> flag s <> f ->
    step debug s (Tau t) (goto s t (RetWith false))
| s_ret_wait s t b : pc_of s t = Some (RetWith b) ->
    step debug s (RetWait t b) (goto s t Idle)
(* a sandbox writing the shared word *)
| s_corrupt s v : -2147483648 <= v < 2147483648 ->
    step debug s (Corrupt v) (Sem v (pcs s)).

(** Executions, with the history of events, oldest first. *)
Inductive run (debug : bool) : sem -> list event -> sem -> Prop :=
| run_nil s : run debug s [] s
| run_snoc s h s1 e s2 : run debug s h s1 -> step debug s1 e s2 -> run debug s (h ++ [e]) s2.
