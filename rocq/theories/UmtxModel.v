(** Model of the one-bit semaphore of FreeBSD builds:
    include/process_sandbox/platform/onebitsem_umtx.h, with the semantics of the
    kernel's UMTX_OP_SEM2_WAIT and UMTX_OP_SEM2_WAKE (FreeBSD kern_umtx.c,
    do_sem2_wait and do_sem2_wake; not part of the repository).  Any number of
    threads (of either process) use one semaphore.  Sequentially consistent
    memory: every access to the word is one atomic step.  The events an observer
    sees are those of SemModel.  No proofs in this file. *)
From Coq Require Import List ZArith Bool Arith.
From Verif Require Import SemModel.
Import ListNotations.
Open Scope Z_scope.

(** The 32-bit word: USEM_COUNT is its low 31 bits, USEM_HAS_WAITERS its top
    bit (sys/_umtx.h). *)
Definition HAS : Z := 2147483648.
Definition W32 : Z := 4294967296.
Definition ucount (w : Z) : Z := w mod HAS.
Definition waiters (w : Z) : bool := HAS <=? w.

(** Where a thread is in wake() (43-55) or wait() (56-100). *)
Inductive upc :=
| UIdle
| UWkStart              (* before the fetch_add of 45 *)
| UWkCall               (* the waiters bit was set: before _umtx_op, 52 *)
| UWkIn (one : bool)    (* in the kernel's wake, having counted the sleepers: just one? *)
| UWkDone
| UTry1                 (* first try_lock, 74: before the load of 59 *)
| UTry1c (f : Z)        (* before the compare-exchange of 63-67 *)
| UFWait                (* before _umtx_op, 90-95 *)
| USleeping             (* on the kernel's queue *)
| UTry2                 (* second try_lock, 99 *)
| UTry2c (f : Z)
| URet (b : bool)       (* about to return from wait *)
| UDead.                (* the thread's process was aborted *)

Record usem := USem { word : Z; upcs : list upc }.

(** The member initialiser and UMtxOneBitSem(), 20-28 and 38. *)
Definition uinit (threads : nat) : usem := USem 0 (repeat UIdle threads).

Definition upc_of (s : usem) (t : nat) : option upc := nth_error (upcs s) t.
Definition ugoto (s : usem) (t : nat) (p : upc) : usem := USem (word s) (upd (upcs s) t p).
Definition ugoto_set (s : usem) (v : Z) (t : nat) (p : upc) : usem := USem v (upd (upcs s) t p).

Definition is_sleeping (p : upc) : bool := match p with USleeping => true | _ => false end.
Definition is_in (p : upc) : bool := match p with UWkIn _ => true | _ => false end.
(** umtxq_count, and whether some thread holds the key busy (umtxq_busy). *)
Definition sleepers (s : usem) : nat := length (filter is_sleeping (upcs s)).
Definition busy (s : usem) : bool := existsb is_in (upcs s).

(** try_lock, 58-73, after the load of [f]; with [debug] line 62 aborts unless
    the count read is 1. *)
Definition uafter_load (debug : bool) (f : Z) (cas : Z -> upc) (no : upc) : upc :=
  if 0 <? ucount f then (if debug && negb (ucount f =? 1) then UDead else cas f) else no.

(** The kernel's wake: it waits for the busy key and counts the sleepers; if
    there is exactly one it then clears the waiters bit (a compare-exchange
    loop, taken as one step together with the signal: whether the sleeper's
    time-out comes between the two makes no difference to what it sees), and
    signals one sleeper.  No thread can join the queue in between, but sleepers
    can leave it.  The kernel's wait, also under the busy key: if the count is
    not zero it returns, otherwise it sets the waiters bit and sleeps.  The
    error EFAULT of both is not modelled. *)
Inductive ustep (debug : bool) : usem -> event -> usem -> Prop :=
(* wake, 43-55 *)
| u_call_wake s t : upc_of s t = Some UIdle ->
    ustep debug s (CallWake t) (ugoto s t UWkStart)
| u_fetch s t : upc_of s t = Some UWkStart -> ucount (word s) = 0 ->             (* 45-50 *)
    ustep debug s (Tau t) (ugoto_set s ((word s + 1) mod W32) t (if waiters (word s) then UWkCall else UWkDone))
| u_fetch_abort s t : upc_of s t = Some UWkStart -> ucount (word s) <> 0 ->
    ustep debug s (Die t) (ugoto_set s ((word s + 1) mod W32) t UDead)
| u_kernel_wake s t : upc_of s t = Some UWkCall -> busy s = false -> sleepers s <> 0%nat ->
    ustep debug s (Tau t) (ugoto s t (UWkIn (Nat.eqb (sleepers s) 1)))
| u_kernel_wake_none s t : upc_of s t = Some UWkCall -> busy s = false -> sleepers s = 0%nat ->
    ustep debug s (Tau t) (ugoto s t UWkDone)
| u_signal s t w one : upc_of s t = Some (UWkIn one) -> upc_of s w = Some USleeping ->
    ustep debug s (Tau t) (ugoto_set (ugoto s w UTry2) (if one then ucount (word s) else word s) t UWkDone)
| u_signal_none s t one : upc_of s t = Some (UWkIn one) -> sleepers s = 0%nat ->
    ustep debug s (Tau t) (ugoto_set s (if one then ucount (word s) else word s) t UWkDone)
| u_ret_wake s t : upc_of s t = Some UWkDone ->
    ustep debug s (RetWake t) (ugoto s t UIdle)
(* wait, 56-100 *)
| u_call_wait s t : upc_of s t = Some UIdle ->
    ustep debug s (CallWait t) (ugoto s t UTry1)
| u_load1 s t : upc_of s t = Some UTry1 -> uafter_load debug (word s) UTry1c UFWait <> UDead ->
    ustep debug s (Tau t) (ugoto s t (uafter_load debug (word s) UTry1c UFWait))
| u_load1_die s t : upc_of s t = Some UTry1 -> uafter_load debug (word s) UTry1c UFWait = UDead ->
    ustep debug s (Die t) (ugoto s t UDead)
| u_cas1 s t f : upc_of s t = Some (UTry1c f) -> word s = f ->
    ustep debug s (Tau t) (ugoto_set s (f - 1) t (URet true))
| u_cas1_fail s t f : upc_of s t = Some (UTry1c f) -> word s <> f ->
    ustep debug s (Tau t) (ugoto s t UFWait)
| u_kernel_wait s t : upc_of s t = Some UFWait -> busy s = false -> ucount (word s) = 0 ->
    ustep debug s (Tau t) (ugoto_set s HAS t USleeping)
| u_kernel_wait_not s t : upc_of s t = Some UFWait -> busy s = false -> ucount (word s) <> 0 ->
    ustep debug s (Tau t) (ugoto s t UTry2)
| u_timeout s t : upc_of s t = Some USleeping ->
    ustep debug s (Tau t) (ugoto s t UTry2)
| u_eintr s t : upc_of s t = Some USleeping ->            (* loop of 88-97 *)
    ustep debug s (Interrupted t) (ugoto s t UFWait)
| u_load2 s t : upc_of s t = Some UTry2 -> uafter_load debug (word s) UTry2c (URet false) <> UDead ->
    ustep debug s (Tau t) (ugoto s t (uafter_load debug (word s) UTry2c (URet false)))
| u_load2_die s t : upc_of s t = Some UTry2 -> uafter_load debug (word s) UTry2c (URet false) = UDead ->
    ustep debug s (Die t) (ugoto s t UDead)
| u_cas2 s t f : upc_of s t = Some (UTry2c f) -> word s = f ->
    ustep debug s (Tau t) (ugoto_set s (f - 1) t (URet true))
| u_cas2_fail s t f : upc_of s t = Some (UTry2c f) -> word s <> f ->
    ustep debug s (Tau t) (ugoto s t (URet false))
| u_ret_wait s t b : upc_of s t = Some (URet b) ->
    ustep debug s (RetWait t b) (ugoto s t UIdle)
(* a sandbox writing the shared word *)
| u_corrupt s v : 0 <= v < W32 ->
    ustep debug s (Corrupt v) (USem v (upcs s)).

Inductive urun (debug : bool) : usem -> list event -> usem -> Prop :=
| urun_nil s : urun debug s [] s
| urun_snoc s h s1 e s2 : urun debug s h s1 -> ustep debug s1 e s2 -> urun debug s (h ++ [e]) s2.
