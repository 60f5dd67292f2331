(** The host's side of the protocol (ProtoModel.host_step: Library::send,
    CallbackDispatcher::handle, Library::wait_for_child_exit,
    src/libsandbox.cc 661-681, 934-1018) against a sandbox that does whatever it
    likes.  The header of the shared region is writable from the sandbox
    (include/process_sandbox/shared_memory_region.h 17-89), the callback socket
    is the sandbox's to write and read.  No proofs in this file. *)
From Coq Require Import List ZArith Bool.
From Verif Require Import ProtoModel.
Import ListNotations.
Open Scope Z_scope.

(** One move of the sandbox: it leaves any values in the header, puts any
    requests on the callback socket and takes any number of replies.  It runs no
    code of this repository.  Moves happen between any two accesses of the host,
    so that the host may read a different value each time. *)
Definition meddle (v : shared) (sent : list Z) (n : nat) (s : conf) : conf :=
  Conf v (hpc s) (hstk s) (cpc s) (cstk s) (reqs s ++ sent) (skipn n (resps s)) (log s).

(** Executions, with everything the sandbox has sent and the replies it has
    taken. *)
Inductive hostile (debug spurious : bool) (host_do : list event -> hact) (s0 : conf) :
    list Z -> list Z -> conf -> Prop :=
| hostile_0 : hostile debug spurious host_do s0 [] [] s0
| hostile_host sent got fail s s' : hostile debug spurious host_do s0 sent got s ->
    host_step debug spurious host_do fail s = Some s' ->
    hostile debug spurious host_do s0 sent got s'
| hostile_move sent got s v new n : hostile debug spurious host_do s0 sent got s ->
    gone (cpc s) = false ->
    hostile debug spurious host_do s0 (sent ++ new) (got ++ firstn n (resps s)) (meddle v new n s)
| hostile_dies sent got s : hostile debug spurious host_do s0 sent got s ->
    gone (cpc s) = false -> hostile debug spurious host_do s0 sent got (child_dies s).
