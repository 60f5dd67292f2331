(** Model of the run-time checks, SANDBOX_INVARIANT and its two variants,
    include/process_sandbox/helpers.h 107-188, and the list of all places where
    the code uses them.  No proofs in this file. *)
From Coq Require Import String Ascii List Bool.
From Verif Require Import Base.
Import ListNotations.

Local Open Scope char_scope.

(** fmt::vformat with arguments that are strings.  Doubled braces stand for
    themselves; an empty pair of braces takes the next argument and throws
    fmt::format_error if there is none; so does a single closing brace.
    Simplification: anything else after an opening brace (argument numbers and
    format specifications) is treated as an error; no message in the code has
    one. *)
Fixpoint vformat (f : text) (args : list text) : option text :=
  match f with
  | [] => Some []
  | c :: f1 =>
    if ascii_dec c "{" then
      match f1 with
      | d :: f2 =>
        if ascii_dec d "}" then
          match args with
          | a :: args' => option_map (app a) (vformat f2 args')
          | [] => None
          end
        else if ascii_dec d "{" then option_map (cons "{") (vformat f2 args)
        else None
      | [] => None
      end
    else if ascii_dec c "}" then
      match f1 with
      | d :: f2 => if ascii_dec d "}" then option_map (cons "}") (vformat f2 args) else None
      | [] => None
      end
    else option_map (cons c) (vformat f1 args)
  end.

(** How a check ends: nothing happens; the process prints the message and
    aborts (snmalloc::DefaultPal::error, 120); or an exception (fmt::format_error)
    leaves the function that contains the check. *)
Inductive verdict := Passed | Stopped (message : text) | Raised.

(** enum DebugOption, 123-128, and isEnabled, 158-159. *)
Inductive enable := DebugOnly | DebugAndRelease | ReleaseOnly.
Definition is_enabled (e : enable) (release : bool) : bool :=
  match e with
  | DebugOnly => negb release
  | DebugAndRelease => true
  | ReleaseOnly => release
  end.

(** Where a check is: source_location. *)
Record place := Place { file_name : text; line_number : text; function_name : text }.

(** invariant_fail, 109-121. *)
Definition invariant_fail (msg : text) (args : list text) (sl : place) : verdict :=
  match vformat msg args with
  | None => Raised
  | Some user_msg =>
    match vformat (tx "{}:{} in {}: {}
") [file_name sl; line_number sl; function_name sl; user_msg] with
    | None => Raised
    | Some final_msg => Stopped final_msg
    end
  end.

(** invariant, 141-167. *)
Definition invariant (e : enable) (release cond : bool) (msg : text) (sl : place) (args : list text) : verdict :=
  if is_enabled e release then
    if cond then Passed else invariant_fail msg args sl
  else Passed.

(** An argument of the macro: its source text and its value as fmt would print
    it. *)
Record argument := Arg { source : text; value : text }.

(** What #__VA_ARGS__ gives for the arguments of the macro: their source text,
    as one string. *)
Fixpoint stringise (args : list text) : text :=
  match args with
  | [] => []
  | [a] => a
  | a :: r => a ++ tx ", " ++ stringise r
  end.

(** SANDBOX_INVARIANT (170-172), SANDBOX_DEBUG_INVARIANT (178-180) and
    SANDBOX_RELEASE_INVARIANT (186-188): [args] are the arguments after the
    message. *)
Definition sandbox_invariant (e : enable) (release cond : bool) (msg : text) (args : list argument) (sl : place) : verdict :=
  invariant e release cond msg sl [stringise (map source args)].

(** ** The checks of the code *)

Record site := Site { s_file : text; s_line : text; s_enable : enable; s_msg : text; s_args : list text }.

(** src/library_runner.cc 153-157 and 160-164 *)
Definition site_write := Site (tx "src/library_runner.cc") (tx "153") DebugAndRelease
  (tx "Wrote {} bytes, expected {}") [tx "written_bytes"; tx "sizeof(req)"].
Definition site_read := Site (tx "src/library_runner.cc") (tx "160") DebugAndRelease
  (tx "Read {} bytes, expected {}") [tx "read_bytes"; tx "sizeof(response)"].
(** include/process_sandbox/platform/sandbox_capsicum.h 50-54, 99-100 and 147 *)
Definition site_directory := Site (tx "include/process_sandbox/platform/sandbox_capsicum.h") (tx "50") DebugAndRelease
  (tx "Unexpected sandbox directory fd number {}, expected {}") [tx "fd"; tx "libfd"].
Definition site_traps := Site (tx "include/process_sandbox/platform/sandbox_capsicum.h") (tx "99") DebugAndRelease
  (tx "Failed to register for traps on Capsicum violations") [].
Definition site_execve_freebsd := Site (tx "include/process_sandbox/platform/sandbox_capsicum.h") (tx "147") DebugAndRelease
  (tx "Execve failed: {}") [tx "strerror(errno)"].
(** src/libsandbox.cc 850-854 *)
Definition site_location := Site (tx "src/libsandbox.cc") (tx "850") DebugAndRelease
  (tx "Location length {} is smaller than expected {}") [tx "loc_len"; tx "sizeof(location)"].
(** src/library_runner.cc 1076-1081 *)
Definition site_shared_range := Site (tx "src/library_runner.cc") (tx "1076") DebugOnly
  (tx "Pointer {} is out of the sandbox range {}--{}") [tx "ptr"; tx "shared_memory_start"; tx "shared_memory_end"].

(** All of them, except the two that are compiled out (sandbox_capsicum.h 120
    and following, #if 0). *)
Definition all_sites : list site :=
  [Site (tx "include/process_sandbox/path.h") (tx "197") DebugOnly (tx "Trying to make an absolute path absolute") [];
   site_directory; site_traps; site_execve_freebsd;
   Site (tx "include/process_sandbox/platform/sandbox.h") (tx "68") DebugAndRelease
     (tx "Execve failed: {}") [tx "strerror(errno)"];
   Site (tx "include/process_sandbox/platform/onebitsem_futex.h") (tx "42") DebugAndRelease
     (tx "Waking up one-bit semaphore that's already awake.  Count: {}.") [tx "old"];
   Site (tx "include/process_sandbox/platform/onebitsem_umtx.h") (tx "46") DebugAndRelease
     (tx "Waking up one-bit semaphore that's already awake.  Count: {}.") [tx "USEM_COUNT(old)"];
   Site (tx "include/process_sandbox/platform/onebitsem_umtx.h") (tx "53") DebugAndRelease
     (tx "_umtx_op failed: {}") [tx "ret"];
   Site (tx "include/process_sandbox/platform/child_process_vfork.h") (tx "101") DebugAndRelease
     (tx "start function must not return") [];
   Site (tx "include/process_sandbox/platform/shm_posix.h") (tx "85") DebugAndRelease
     (tx "aspintf failed trying to create unique name for POSIX shared memory object") [];
   Site (tx "include/process_sandbox/platform/shm_posix.h") (tx "209") DebugAndRelease
     (tx "ftruncate failed {}") [tx "strerror(errno)"];
   Site (tx "include/process_sandbox/platform/shm_posix.h") (tx "280") DebugAndRelease
     (tx "ftruncate failed {}") [tx "strerror(errno)"];
   site_write; site_read;
   Site (tx "src/library_runner.cc") (tx "321") DebugOnly
     (tx "Child is executing when the parent thinks is is not") [];
   Site (tx "src/library_runner.cc") (tx "335") DebugAndRelease (tx "Uncaught exception") [];
   Site (tx "src/library_runner.cc") (tx "375") DebugAndRelease
     (tx "Expected ':' separator in environment variable, got '{}'") [tx "end[0]"];
   Site (tx "src/library_runner.cc") (tx "420") DebugAndRelease (tx "Mapping pagemap failed") [];
   site_shared_range;
   Site (tx "src/library_runner.cc") (tx "1112") DebugAndRelease
     (tx "Sandbox invoke invoke function not found {}") [tx "dlerror()"];
   Site (tx "src/libsandbox.cc") (tx "782") DebugOnly (tx "Unused pagemap entry must not be sandbox owned") [];
   Site (tx "src/libsandbox.cc") (tx "800") DebugOnly
     (tx "Attempting to move invalid file descriptor {}") [tx "x"];
   site_location].

(** The check at [s], in function [f], when its arguments have the values
    [values]. *)
Definition check_at (s : site) (release cond : bool) (f : text) (values : list text) : verdict :=
  sandbox_invariant (s_enable s) release cond (s_msg s)
    (map (fun '(t, v) => Arg t v) (combine (s_args s) values)) (Place (s_file s) (s_line s) f).
