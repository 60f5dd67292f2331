(** What the sandbox's descriptors should be, in terms of the host's table. *)
From Coq Require Import List ZArith Bool Arith.
From Verif Require Import FdModel.
Import ListNotations.
Open Scope Z_scope.

(** How many descriptors the host has open. *)
Fixpoint open_count (t : table) : nat :=
  match t with [] => 0 | None :: r => open_count r | Some _ :: r => S (open_count r) end.
(** Room for the fourteen extra descriptors starting a sandbox can need. *)
Definition room (limit : nat) (t : table) : Prop := (open_count t + 14 <= limit)%nat.

(** The four descriptors of the host that are passed on are open. *)
Record passed := Passed { p_shm : desc; p_pagemap : desc; p_rpc : desc; p_sock : desc }.
Definition host_has (t : table) (pagemap : Z) (h : handles) (p : passed) : Prop :=
  get t (h_shm h) = Some (p_shm p) /\ get t pagemap = Some (p_pagemap p)
  /\ get t (h_rpc h) = Some (p_rpc p) /\ get t (h_sock h) = Some (p_sock p).

(** Same file and access, surviving execve. *)
Definition same_open (d : desc) : option desc := Some (Desc (file d) (writable d) false).
Definition after_exec (d : desc) : option desc := if cloexec d then None else Some d.

(** The documented layout (sandbox_fd_numbers.h), [rw] saying whether the
    pagemap descriptor still permits writing. *)
Definition layout (t t' : table) (p : passed) (lib : desc) (rw : bool) : Prop :=
  get t' 3 = same_open (p_shm p)
  /\ get t' 4 = Some (Desc (file (p_pagemap p)) rw false)
  /\ get t' 5 = same_open (p_sock p)
  /\ get t' 6 = same_open lib
  /\ get t' 7 = same_open (p_rpc p)
  /\ (forall n, 8 <= n -> get t' n = None)
  /\ (forall n d, 0 <= n <= 2 -> get t n = Some d -> get t' n = after_exec d).
