(** Programs whose callback handlers may throw, with a library in a sandbox whose
    process may die at any point: the steps of ThrowModel.v and the death of
    ProtoModel.v (a fault, a forbidden system call, an out-of-memory kill).  The
    exception Library::send raises (src/libsandbox.cc 971-978) leaves every handler
    in progress, as one thrown by a handler does.  No proofs in this file. *)
From Coq Require Import List ZArith.
From Verif Require Import ProtoModel ThrowModel.
Import ListNotations.
Open Scope Z_scope.

Section Crash.
Variable debug spurious : bool.
Variable host_do : list event -> xact.
Variable child_do : list event -> cact.

Inductive crashes (s0 : conf) : conf -> Prop :=
| crashes_0 : crashes s0 s0
| crashes_step s s' : crashes s0 s -> xstep debug spurious host_do child_do s s' -> crashes s0 s'
| crashes_dies s : crashes s0 s -> gone (cpc s) = false -> crashes s0 (child_dies s).
End Crash.
