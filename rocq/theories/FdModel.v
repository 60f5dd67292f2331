(** Model of the descriptors the sandbox process starts with: Library::start_child
    (src/libsandbox.cc 790-863) and SandboxSeccompBPF::execve
    (include/process_sandbox/platform/sandbox_seccomp-bpf.h 41-56, then
    platform/sandbox.h 60-69) on Linux, over a kernel descriptor table.  The
    child was made by vfork (child_process_vfork.h 81-100): it has its own copy of
    the descriptor table but shares the host's memory, so the Handle objects it
    empties are the host's.  No proofs in this file. *)
From Coq Require Import List ZArith Bool Arith.
From Verif Require Import Base.
Import ListNotations.
Open Scope Z_scope.

(** An open descriptor: which file, whether it permits writing, whether execve
    closes it. *)
Record desc := Desc { file : Z; writable : bool; cloexec : bool }.
(** Entry n of the table is descriptor n. *)
Definition table := list (option desc).

Definition get (t : table) (n : Z) : option desc :=
  if n <? 0 then None else nth (Z.to_nat n) t None.
Fixpoint set_nat (t : table) (n : nat) (d : option desc) : table :=
  match n, t with
  | O, [] => [d]
  | O, _ :: r => d :: r
  | S m, [] => None :: set_nat [] m d
  | S m, x :: r => x :: set_nat r m d
  end.
Definition set (t : table) (n : Z) (d : option desc) : table := set_nat t (Z.to_nat n) d.
(** The lowest free number. *)
Fixpoint lowest (t : table) : nat :=
  match t with
  | [] => 0
  | None :: _ => 0
  | Some _ :: r => S (lowest r)
  end.
Definition inherit (d : desc) : desc := Desc (file d) (writable d) false.

(** open(2), [None] standing for a file that does not open; numbers stay below
    the process's limit; -1 is an error. *)
Definition open_file (limit : nat) (d : option desc) (t : table) : table * Z :=
  match d with
  | None => (t, -1)
  | Some d => if (lowest t <? limit)%nat then (set_nat t (lowest t) (Some d), Z.of_nat (lowest t)) else (t, -1)
  end.
(** dup(2): the copy has close-on-exec off. *)
Definition dup (limit : nat) (x : Z) (t : table) : table * Z :=
  open_file limit (option_map inherit (get t x)) t.
(** dup2(2): replaces whatever was at [n]. *)
Definition dup2 (x n : Z) (t : table) : table :=
  match get t x with
  | None => t
  | Some d => if x =? n then t else set t n (Some (inherit d))
  end.
(** close(2); a negative or closed number is only an error. *)
Definition close (n : Z) (t : table) : table := match get t n with None => t | Some _ => set t n None end.
(** closefrom(3) *)
Definition closefrom (n : Z) (t : table) : table := firstn (Z.to_nat n) t.
(** What execve(2) does to the table. *)
Definition exec (t : table) : table :=
  map (fun o => match o with Some d => if cloexec d then None else Some d | None => None end) t.

(** include/process_sandbox/sandbox_fd_numbers.h 13-62 *)
Definition SharedMemRegion : Z := 3.
Definition PageMapPage : Z := 4.
Definition FDSocket : Z := 5.
Definition MainLibrary : Z := 6.
Definition PageMapUpdates : Z := 7.
Definition OtherLibraries : Z := 8.

(** The loop of move_fd, 802-805.  When dup fails it retries forever with -1;
    running out of fuel stands for that. *)
Fixpoint move_loop (fuel limit : nat) (x : Z) (t : table) : outcome (table * Z) :=
  match fuel with
  | O => OutOfFuel
  | S fuel => if x <? OtherLibraries then let (t', y) := dup limit x t in move_loop fuel limit y t' else Ret (t, x)
  end.
(** move_fd, 799-807; SANDBOX_DEBUG_INVARIANT is checked in debug builds. *)
Definition move_fd (debug : bool) (fuel limit : nat) (x : Z) (t : table) : outcome (table * Z) :=
  if debug && (x <? 0) then Aborts else move_loop fuel limit x t.

(** The host's Handle objects the child reaches: the shared memory's, and the
    child's ends of the two socket pairs (malloc_rpc_sockets.second,
    socks.second in the constructor, 881-922). *)
Record handles := Handles { h_shm : Z; h_rpc : Z; h_sock : Z }.

(** How the child leaves start_child: still in the runner-to-be with a table, or
    by _exit(-1) because the library did not open.  Both carry the Handle
    objects as the host finds them when vfork returns. *)
Inductive started :=
| Started (t : table) (h : handles)
| LibraryMissing (h : handles).

(** start_child up to the call of Sandbox::execve, 790-832.  [pagemap] is the
    pagemap descriptor's number, [lib] the library as it opens (or not).  The
    environment string (840-858, MapModel.v and BootModel.v) and disable_aslr touch no
    descriptor.  The dup2 results are only asserted. *)
Inductive prepared :=
| Ready (t : table)
| NoLibrary (h : handles).
Definition prepare (debug : bool) (fuel limit : nat) (pagemap : Z) (lib : option desc) (h : handles) (t : table) : outcome prepared :=
  obind (move_fd debug fuel limit (h_shm h) t) (fun '(t, shm_fd) =>          (* 810, take *)
  obind (move_fd debug fuel limit pagemap t) (fun '(t, pagemap_fd) =>        (* 811 *)
  obind (move_fd debug fuel limit (h_sock h) t) (fun '(t, fd_socket) =>      (* 812 *)
  obind (move_fd debug fuel limit (h_rpc h) t) (fun '(t, rpc_socket) =>      (* 813 *)
  let (t, library) := open_file limit lib t in                               (* 818 *)
  if library <? 0 then Ret (NoLibrary (Handles (-1) rpc_socket fd_socket))
  else obind (move_fd debug fuel limit library t) (fun '(t, library) =>      (* 823 *)
  let t := dup2 shm_fd SharedMemRegion t in                                  (* 825 *)
  let t := dup2 pagemap_fd PageMapPage t in
  let t := dup2 fd_socket FDSocket t in
  let t := dup2 library MainLibrary t in
  let t := dup2 rpc_socket PageMapUpdates t in
  Ret (Ready (closefrom OtherLibraries t))))))).                             (* 832 *)

(** SandboxSeccompBPF::execve, 41-56: [reopen] says whether opening
    /proc/self/fd/4 read-only works. *)
Definition policy_execve (limit : nat) (reopen : bool) (t : table) : table :=
  let ro := if reopen then option_map (fun d => Desc (file d) false false) (get t PageMapPage) else None in
  let (t, ropagemap) := open_file limit ro t in
  let t := dup2 ropagemap PageMapPage t in
  exec (close ropagemap t).

(** start_child on Linux, 790-863. *)
Definition start_child (debug : bool) (fuel limit : nat) (pagemap : Z) (lib : option desc) (reopen : bool)
    (h : handles) (t : table) : outcome started :=
  obind (prepare debug fuel limit pagemap lib h t) (fun r =>
  match r with
  | NoLibrary h => Ret (LibraryMissing h)
  | Ready t => Ret (Started (policy_execve limit reopen t) (Handles (-1) (-1) (-1)))
  end).

(** ~Handle of the two socket objects when the Library constructor returns
    (platform.h 137-140), in the host, whose table the child did not touch. *)
Definition host_after (h : handles) (host : table) : table :=
  let t := if h_sock h <? 0 then host else close (h_sock h) host in
  if h_rpc h <? 0 then t else close (h_rpc h) t.
