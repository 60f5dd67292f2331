(** Model of the sandbox process's main (src/library_runner.cc 1054-1127) and of
    fdlopen (56-66) on Linux, up to the run loop: the system call filter, the
    signal handler that emulates trapped calls, the descriptors that are closed,
    and the loading of the host's library.  Builds on SeccompModel.v (filter),
    FdModel.v (descriptors) and ChildCallsModel.v (emulation of openat).
    No proofs in this file. *)
From Coq Require Import List ZArith Bool Ascii String.
From Coq Require Import List.
From Verif Require Import Base SeccompModel FdModel.
From Verif Require ChildCallsModel.
Import ListNotations.
Open Scope Z_scope.

(** printf's %d for an int, which has at most ten digits. *)
Fixpoint digits (fuel : nat) (n : Z) : text :=
  match fuel with
  | O => []
  | S k => (if n <? 10 then [] else digits k (n / 10)) ++ [ascii_of_nat (48 + Z.to_nat (n mod 10))]
  end.
Definition print_int (n : Z) : text := if n <? 0 then tx "-" ++ digits 10 (- n) else digits 10 n.

(** sprintf(buf, "/proc/%d/fd/%%d", (int)pid), 783-785: what the emulated openat
    compares a path with, up to the number. *)
Definition proc_prefix (pid : Z) : text := tx "/proc/" ++ print_int pid ++ tx "/fd/".
(** asprintf(&str, "/proc/%d/fd/%d", (int)getpid(), fd), 59. *)
Definition fdlopen_path (pid fd : Z) : text := tx "/proc/" ++ print_int pid ++ tx "/fd/" ++ print_int fd.

(** What the linker finds in a file: whether it can be loaded, whether the code
    it runs while loading (constructors) returns, whether it exports
    sandbox_init, whether that returns, and whether it exports sandbox_call. *)
Record image := Image {
  im_good : bool; im_ctors_return : bool; im_init : bool; im_init_returns : bool; im_call : bool }.

(** What main depends on: the build (assert compiled in or not, DEBUG_SANDBOX),
    the outcomes of the libseccomp calls, its process number, whether malloc
    gives memory inside the shared region, whether asprintf has memory, the
    descriptor limit, whether the C library's linker opens files with openat
    (glibc since 2.26) or with open, what the kernel and the host answer when a
    path is opened, and what is in each file. *)
Record world := World {
  w_asserts : bool; w_debug_sandbox : bool;
  w_init_ok : bool; w_add_ok : nat -> bool; w_load_ok : bool;
  w_self : Z; w_heap_ok : bool; w_memory : bool; w_limit : nat;
  w_openat : bool; w_kernel : text -> option desc; w_host : text -> option desc;
  w_image : Z -> option image }.

(** What becomes of a system call made by the child itself: it is performed, it
    is handed to the signal handler, or the process dies (killed by the filter,
    or SIGSYS without a handler). *)
Inductive effect := Performed | Emulated | Dies.
Definition sys (w : world) (flt : option (list rule)) (handler : bool) (nr : Z) (args : list Z) : effect :=
  match (match flt with
         | None => Allow
         | Some rs => decide_build (w_debug_sandbox w) rs (Sysc true nr args)
         end) with
  | Allow => Performed
  | Kill => Dies
  | Trap => if handler then Emulated else Dies
  end.

(** x86-64 system call numbers. *)
Definition sys_open : Z := 2.
Definition sys_close : Z := 3.
Definition sys_rt_sigaction : Z := 13.
Definition sys_openat : Z := 257.
Definition SIGSYS : Z := 31.
Definition AT_FDCWD : Z := -100.

(** close(n), 1068-1069. *)
Definition do_close (e : effect) (n : Z) (t : table) : table :=
  match e with Performed => close n t | _ => t end.

(** The linker opening a path.  Performed: the kernel's own answer.  Emulated
    openat: callback_openat, 778-806: one of the process's own descriptors is
    duplicated.  Emulated open, and any other path: the host is asked over
    callbackSocket (1070: descriptor FDSocket).  The result is a descriptor, or
    negative. *)
Definition linker_open (w : world) (e : effect) (path : text) (t : table) : table * Z :=
  let ask_host :=
    match get t FDSocket with
    | Some _ => open_file (w_limit w) (w_host w path) t
    | None => (t, -1)
    end in
  match e with
  | Dies => (t, -1)
  | Performed => open_file (w_limit w) (w_kernel w path) t
  | Emulated =>
    if w_openat w then
      match ChildCallsModel.own_descriptor (proc_prefix (w_self w)) path with
      | Some fd => dup (w_limit w) fd t
      | None => ask_host
      end
    else ask_host
  end.

(** The result of fdlopen: asprintf failed, the process died, a null handle, or
    the file that was loaded, with the descriptors open when the library's own
    code first runs.  glibc's dlopen maps the file and closes its descriptor
    before it runs constructors (not part of the repository). *)
Inductive loaded := NoMemory | Died | Null (t : table) | Handle (f : Z) (t : table).
(** fdlopen, 56-66. *)
Definition fdlopen (w : world) (flt : option (list rule)) (handler : bool) (fd : Z) (t : table) : loaded :=
  if negb (w_memory w) then NoMemory
  else
    let path := fdlopen_path (w_self w) fd in
    match sys w flt handler (if w_openat w then sys_openat else sys_open) (if w_openat w then [wrap AT_FDCWD] else []) with
    | Dies => Died
    | e =>
      let (t1, r) := linker_open w e path t in
      if r <? 0 then Null t1
      else match get t1 r with
           | None => Null t1
           | Some d =>
             match w_image w (file d) with
             | Some im => if im_good im then Handle (file d) (close r t1) else Null (close r t1)
             | None => Null (close r t1)
             end
           end
    end.

(** How main ends: killed by a signal, aborted by a failed check, returning a
    status, never coming back from the library's code, or in the run loop. *)
Inductive fin := Killed | Aborted | ExitCode (n : Z) | TakenOver | Serving.
(** What happens on the way: code of file [f] runs, for the first time, with
    this filter, this handler and these descriptors; sandbox_init of file [f]
    is called; the host is told that the library is loaded (1116). *)
Inductive ev :=
| LibraryCode (f : Z) (flt : option (list rule)) (handler : bool) (t : table)
| InitCode (f : Z)
| Told.

(** main, 1054-1127, after apply_sandboxing_policy_postexec returned with filter
    [flt] in force.  Simplification: once the library's own code has run it can
    change anything in the process; what is modelled from there on is what main
    does if it does not. *)
Definition after_policy (w : world) (flt : option (list rule)) (t : table) : fin * list ev :=
  match sys w flt false sys_rt_sigaction [SIGSYS] with              (* 1065 *)
  | Dies => (Killed, [])
  | e0 =>
    let handler := match e0 with Performed => true | _ => false end in
    match sys w flt handler sys_close [SharedMemRegion] with          (* 1068 *)
    | Dies => (Killed, [])
    | e1 =>
      let t1 := do_close e1 SharedMemRegion t in
      match sys w flt handler sys_close [PageMapPage] with            (* 1069 *)
      | Dies => (Killed, [])
      | e2 =>
        let t2 := do_close e2 PageMapPage t1 in
        if w_asserts w && negb (w_heap_ok w) then (Aborted, [])     (* 1072-1085 *)
        else match fdlopen w flt handler MainLibrary t2 with        (* 1093 *)
        | NoMemory => (Aborted, [])
        | Died => (Killed, [])
        | Null _ => (ExitCode 1, [])                                (* 1094-1097 *)
        | Handle f t3 =>
          match w_image w f with
          | None => (ExitCode 1, [])
          | Some im =>
            let log1 := [LibraryCode f flt handler t3] in
            if negb (im_ctors_return im) then (TakenOver, log1)
            else if negb (im_init im) then (ExitCode 1, log1)       (* 1103-1107 *)
            else
              let log2 := log1 ++ [InitCode f] in
              if negb (im_init_returns im) then (TakenOver, log2)   (* 1109 *)
              else if negb (im_call im) then (Aborted, log2)        (* 1110-1113 *)
              else (Serving, log2 ++ [Told])                        (* 1115-1124 *)
          end
        end
      end
    end
  end.
Definition main (w : world) (t : table) : fin * list ev :=
  match apply_policy (w_asserts w) (w_init_ok w) (w_add_ok w) (w_load_ok w) (w_self w) with   (* 1056 *)
  | Ret flt => after_policy w flt t
  | _ => (Aborted, [])
  end.
