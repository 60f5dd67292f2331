(** Model of starting a sandbox process on FreeBSD with Capsicum:
    Library::start_child (src/libsandbox.cc 790-863; its first part is
    FdModel.prepare) and SandboxCapsicum::execve
    (include/process_sandbox/platform/sandbox_capsicum.h 34-150).  The child was
    made by pdfork (child_process_pdfork.h 81-90): it has copies both of the
    descriptor table and of the memory, so the host's Handle objects keep their
    values.  No proofs in this file. *)
From Coq Require Import List ZArith Bool Arith.
From Verif Require Import Base FdModel CheckModel.
Import ListNotations.
Open Scope Z_scope.

(** Rights of a descriptor (FreeBSD rights(4), sys/capsicum.h).  Composite
    constants are lists of these; [ROther] are all the ones not named here. *)
Inductive right :=
| RRead | RWrite | RSeek | RMmap | RMmapX | RCreate | RFexecve | RFsync | RFtruncate
| RLookup | RFchdir | RFchmod | RFstat | RUnlink | RFcntl | RBind | RConnect | ROther (k : nat).
Definition right_eq (a b : right) : {a = b} + {a <> b}.
Proof. decide equality. apply Nat.eq_dec. Defined.
Definition rights := right -> bool.
Definition all_rights : rights := fun _ => true.
Definition only (l : list right) : rights := fun r => existsb (fun x => if right_eq r x then true else false) l.

Definition CAP_READ := [RRead].
Definition CAP_WRITE := [RWrite].
Definition CAP_FSYNC := [RFsync].
Definition CAP_SEEK := [RSeek].
Definition CAP_FSTAT := [RFstat].
Definition CAP_LOOKUP := [RLookup].
Definition CAP_MMAP_R := [RMmap; RSeek; RRead].
Definition CAP_MMAP_RW := [RMmap; RSeek; RRead; RWrite].
Definition CAP_MMAP_RX := [RMmap; RSeek; RRead; RMmapX].

(** Rights by descriptor number. *)
Definition rtable := Z -> rights.
Definition rset (r : rtable) (n : Z) (x : rights) : rtable := fun m => if m =? n then x else r m.

(** cap_rights_limit(2): fails on a closed descriptor, and when it would add a
    right. *)
Definition cap_rights_limit (t : table) (n : Z) (l : list right) (r : rtable) : option rtable :=
  match get t n with
  | None => None
  | Some _ => if forallb (r n) l then Some (rset r n (only l)) else None
  end.

(** The calls of limit_fd, 73-97, in order, for [k] library directories. *)
Definition limits (k : nat) : list (Z * list right) :=
  [(0, CAP_READ);                                                    (* 73 *)
   (1, CAP_WRITE ++ CAP_FSYNC); (2, CAP_WRITE ++ CAP_FSYNC);         (* 78-79 *)
   (PageMapUpdates, CAP_WRITE ++ CAP_READ);                          (* 82 *)
   (SharedMemRegion, CAP_MMAP_RW);                                   (* 84 *)
   (PageMapPage, CAP_MMAP_R);                                        (* 85 *)
   (MainLibrary, CAP_READ ++ CAP_FSTAT ++ CAP_SEEK ++ CAP_MMAP_RX)]  (* 87 *)
  ++ map (fun i => (OtherLibraries + Z.of_nat i, CAP_READ ++ CAP_FSTAT ++ CAP_LOOKUP ++ CAP_MMAP_RX)) (seq 0 k).  (* 92-95 *)

(** limit_fd, 64-70: err(1) when a call fails. *)
Fixpoint apply_limits (t : table) (ls : list (Z * list right)) (r : rtable) : option rtable :=
  match ls with
  | [] => Some r
  | (n, l) :: ls => match cap_rights_limit t n l r with None => None | Some r => apply_limits t ls r end
  end.

(** Opening the library directories, 47-58: a number other than the expected one
    (-1 if the directory did not open) fails the check of 50-54, with the table
    and rights of that moment.  A directory is given by its file, None if it does
    not open; a fresh descriptor has all rights and survives execve. *)
Fixpoint open_dirs (limit : nat) (libfd : Z) (dirs : list (option Z)) (t : table) (r : rtable) : (table * rtable) + (table * rtable) :=
  match dirs with
  | [] => inl (t, r)
  | d :: ds =>
    let (t', fd) := open_file limit (option_map (fun f => Desc f false false) d) t in
    if fd =? libfd then open_dirs limit (libfd + 1) ds t' (rset r fd all_rights) else inr (t', rset r fd all_rights)
  end.

(** How the child fares: it executes the runner with a table and rights; it ends
    by err(1), or by a failed SANDBOX_INVARIANT, or because the library did not
    open; or an exception leaves start_child, with the table and rights of that
    moment. *)
Inductive cap_result :=
| CapRunning (t : table) (r : rtable)
| CapErr | CapAbort | CapNoLibrary
| CapRaised (t : table) (r : rtable).

(** What a failed check does to the child. *)
Definition failed_check (s : site) (t : table) (r : rtable) : cap_result :=
  match check_at s false false [] [] with
  | Raised => CapRaised t r
  | _ => CapAbort
  end.

(** SandboxCapsicum::execve, 34-150: [trapctl] says whether procctl works, [ok]
    whether execve does.  The environment (108-115) is in BootModel.v. *)
Definition cap_execve (limit : nat) (dirs : list (option Z)) (trapctl ok : bool) (t : table) (r : rtable) : cap_result :=
  match open_dirs limit OtherLibraries dirs t r with
  | inr (t, r) => failed_check site_directory t r                            (* 50-54 *)
  | inl (t, r) =>
    match apply_limits t (limits (length dirs)) r with
    | None => CapErr
    | Some r =>
      if trapctl then                                                        (* 99-100 *)
        if ok then CapRunning (exec t) r
        else failed_check site_execve_freebsd t r                            (* 147 *)
      else failed_check site_traps t r
    end
  end.

(** start_child, 790-863.  [old] are the rights of the descriptors when
    SandboxCapsicum::execve is entered: whatever the host's had.  The static
    assertion of 116-118 fixes the number of directories at three. *)
Definition cap_start (debug : bool) (fuel limit : nat) (pagemap : Z) (lib : option desc) (dirs : Z -> option Z)
    (trapctl ok : bool) (old : rtable) (h : handles) (t : table) : outcome cap_result :=
  obind (prepare debug fuel limit pagemap lib h t) (fun r =>
  match r with
  | NoLibrary _ => Ret CapNoLibrary
  | Ready t => Ret (cap_execve limit [dirs 0; dirs 1; dirs 2] trapctl ok t old)
  end).

(** What the child process does next: it is the runner; it has ended; or it goes
    on with the host's program. *)
Inductive child_does :=
| RunsRunner (t : table) (r : rtable)
| HasEnded
| RunsHostProgram (t : table) (r : rtable).

(** The child's side of ChildProcessPDFork's constructor, child_process_pdfork.h
    87-92, called from Library's (src/libsandbox.cc 914-923): when start() throws,
    the exception leaves both constructors, in a process that is a copy of the
    host, so the code of the host's program that handles it runs there; without a
    handler the process ends, and [handler] says whether there is one.
    Simplification: the descriptors closed by the destructors on the way are
    still in the table. *)
Definition pdfork_child (handler : bool) (o : outcome cap_result) : outcome child_does :=
  match o with
  | Ret (CapRunning t r) => Ret (RunsRunner t r)
  | Ret (CapRaised t r) => Ret (if handler then RunsHostProgram t r else HasEnded)
  | Ret _ => Ret HasEnded
  | Aborts => Ret HasEnded
  | UB => UB | Throws => Throws | OutOfFuel => OutOfFuel
  end.
