(** A host process with any number of Library objects, used from any number of
    threads: each has its own shared memory, sockets and process
    (src/libsandbox.cc 865-932), so that its part of the state is that of
    ThrowModel.v and CrashModel.v.  What the host's own code does next with a
    library may depend on everything that has happened in all of them (a handler of
    one library calls another, threads talk to each other).  Simplifications: one
    thread at a time uses a given library (MtModel.v has the others); nothing else
    is shared here (the memory service is in SvcModel.v and MemConcModel.v).
    No proofs in this file. *)
From Coq Require Import List ZArith.
From Verif Require Import ProtoModel ThrowModel HostileModel.
Import ListNotations.
Open Scope Z_scope.

(** The libraries, by number, and all events in the order they happened. *)
Record multi := Multi { lib : nat -> conf; hist : list (nat * event) }.

Definition put (i : nat) (s : conf) (m : multi) : multi :=
  Multi (fun j => if Nat.eqb j i then s else lib m j)
        (hist m ++ map (pair i) (skipn (length (log (lib m i))) (log s))).

Section Multi.
Variable debug spurious : bool.
(** Sandboxes that run library_runner; the others do what they like. *)
Variable honest : nat -> bool.
Variable host_do : nat -> list (nat * event) -> xact.
Variable child_do : nat -> list event -> cact.

(** One step, of the library in the first argument: of the host's code for it
    (none any more once a failed check has aborted the host); of a sandbox that
    runs library_runner; the death of a sandbox; anything a compromised one does
    to its shared header and its socket (HostileModel.meddle). *)
Inductive mstep (i : nat) (m : multi) : multi -> Prop :=
| mstep_host fail s' : (forall j, hpc (lib m j) <> HAborted) ->
    xhost_step debug spurious (fun _ => host_do i (hist m)) fail (lib m i) = Some s' -> mstep i m (put i s' m)
| mstep_child fail s' : honest i = true ->
    child_step debug (child_do i) fail (lib m i) = Some s' -> mstep i m (put i s' m)
| mstep_dies : gone (cpc (lib m i)) = false -> mstep i m (put i (child_dies (lib m i)) m)
| mstep_meddles v new n : honest i = false -> gone (cpc (lib m i)) = false ->
    mstep i m (put i (meddle v new n (lib m i)) m).

Inductive mreach (m0 : multi) : multi -> Prop :=
| mreach_0 : mreach m0 m0
| mreach_step m i m' : mreach m0 m -> mstep i m m' -> mreach m0 m'.
End Multi.

(** All libraries before their first use; [ks i] are the callbacks library [i]
    makes while it loads. *)
Definition mfresh (ks : nat -> list Z) : multi := Multi (fun i => fresh (ks i)) [].

(** One library whose sandbox does what it likes, with handlers that may throw:
    HostileModel.hostile over the steps of ThrowModel.v. *)
Inductive xhostile (debug spurious : bool) (host_do : list event -> xact) (s0 : conf) :
    list Z -> list Z -> conf -> Prop :=
| xhostile_0 : xhostile debug spurious host_do s0 [] [] s0
| xhostile_host sent got fail s s' : xhostile debug spurious host_do s0 sent got s ->
    xhost_step debug spurious host_do fail s = Some s' ->
    xhostile debug spurious host_do s0 sent got s'
| xhostile_move sent got s v new n : xhostile debug spurious host_do s0 sent got s ->
    gone (cpc s) = false ->
    xhostile debug spurious host_do s0 (sent ++ new) (got ++ firstn n (resps s)) (meddle v new n s)
| xhostile_dies sent got s : xhostile debug spurious host_do s0 sent got s ->
    gone (cpc s) = false -> xhostile debug spurious host_do s0 sent got (child_dies s).
