(** How a new sandbox process gets its heap: the environment the platforms pass
    on (platform/sandbox.h 60-69, platform/sandbox_capsicum.h 101-104) and the
    mappings of bootstrap() in the child (src/library_runner.cc 391-424).  The
    text that describes the heap (src/libsandbox.cc 843-856) and its reading
    (src/library_runner.cc 353-390) are in MapModel.

    Simplified: C strings are texts without their terminator (none of the strings
    here contains a zero byte); the address space of the child is a list of
    mappings of which the first that covers an address counts; the sizes of
    mappings are not rounded up to pages. *)
From Coq Require Import String Ascii List ZArith Lia Bool.
From Verif Require Import Base CheckModel MapModel.
Import ListNotations.
Open Scope Z_scope.

(** ** Library::start_child, 843-857: [parent_location] is in MapModel *)

(** An array of environment entries; [None] is the null pointer. *)
Notation envp := (list (option text)).
Definition start_env (loc : text) : envp := [Some loc; None].

(** ** The platforms' execve *)

Inductive platform := PNoOp | PSeccomp | PCapsicum.

(** std::array::at: out of range it throws. *)
Fixpoint set_nth {A} (n : nat) (x : A) (l : list A) : outcome (list A) :=
  match n, l with
  | _, [] => Throws
  | O, _ :: r => Ret (x :: r)
  | S n, y :: r => obind (set_nth n x r) (fun r => Ret (y :: r))
  end.

(** SandboxCapsicum::execve, 101-104: a copy with one more entry. *)
Definition capsicum_env (e : envp) : outcome envp :=
  obind (set_nth (length e - 1) (Some (tx "LD_LIBRARY_PATH_FDS=8:9:10")) (e ++ [None])) (set_nth (length e) None).

(** SandboxNoOp::execve 60-69 passes the array as it is, and
    SandboxSeccompBPF::execve (sandbox_seccomp-bpf.h 40-56) calls that. *)
Definition platform_env (p : platform) (e : envp) : outcome envp :=
  match p with PNoOp | PSeccomp => Ret e | PCapsicum => capsicum_env e end.

(** What the new program finds in environ: the entries before the null pointer;
    without one execve(2) reads past the array.  It gives the program nothing else
    of the environment of its caller. *)
Fixpoint environ (e : envp) : outcome (list text) :=
  match e with
  | Some s :: r => obind (environ r) (fun l => Ret (s :: l))
  | None :: _ => Ret []
  | [] => UB
  end.

(** The environment of the child, whatever the environment [host] of the host. *)
Definition child_environ (p : platform) (host : list text) (addr size : Z) : outcome (list text) :=
  obind (parent_location addr size) (fun loc => obind (platform_env p (start_env loc)) environ).

(** ** bootstrap(), 391-424: mapping *)

(** What memory can show: the shared heap (descriptor 3), the pagemap
    (descriptor 4), or something the process had before, such as its program. *)
Inductive object := Heap | Pagemap | Other (n : Z).
Record mapping := Mapping { m_at : Z; m_len : Z; m_what : object; m_from : Z; m_writable : bool }.
Notation space := (list mapping).

Definition covers (m : mapping) (x : Z) : bool := (m_at m <=? x) && (x <? m_at m + m_len m).
Definition look (sp : space) (x : Z) : option (object * Z * bool) :=
  match find (fun m => covers m x) sp with
  | Some m => Some (m_what m, m_from m + (x - m_at m), m_writable m)
  | None => None
  end.
Definition occupied (sp : space) (a n : Z) : bool :=
  existsb (fun m => (m_at m <? a + n) && (a <? m_at m + m_len m) && (0 <? m_len m)) sp.

(** How a kernel takes the flags of 399-405.  MAP_FIXED_NOREPLACE, or MAP_EXCL
    with MAP_FIXED (24-31), fails when something is in the way; MAP_FIXED, the
    last resort of 29, replaces what is there; a Linux kernel that does not know
    MAP_FIXED_NOREPLACE (before 4.17) takes the address as a hint and chooses
    another one when something is in the way. *)
Inductive fixing := NoReplace | Replace | AsHint.

(** The rest of what the kernel decides: its page size, whether it is willing to
    map the heap, where it puts a mapping that cannot be where it was asked for,
    and where it puts the pagemap (or that it does not). *)
Record kernel := Kernel { k_fixing : fixing; k_page : Z; k_grants : bool; k_elsewhere : Z; k_pagemap : option Z }.

Definition put (sp : space) (a n : Z) (o : object) (w : bool) : space := Mapping a n o 0 w :: sp.

(** mmap of the heap, 396-405: MAP_FAILED is [None]. *)
Definition mmap_heap (k : kernel) (sp : space) (a n : Z) : option (Z * space) :=
  if negb (k_grants k) then None else
  match k_fixing k with
  | NoReplace => if (a mod k_page k =? 0) && negb (occupied sp a n) then Some (a, put sp a n Heap true) else None
  | Replace => if a mod k_page k =? 0 then Some (a, put sp a n Heap true) else None
  | AsHint =>
    if (a mod k_page k =? 0) && negb (occupied sp a n) then Some (a, put sp a n Heap true)
    else if occupied sp (k_elsewhere k) n then None
    else Some (k_elsewhere k, put sp (k_elsewhere k) n Heap true)
  end.

(** mmap of the pagemap, 413-420, [n] bytes wherever the kernel likes. *)
Definition mmap_pagemap (k : kernel) (sp : space) (n : Z) : option (Z * space) :=
  match k_pagemap k with
  | Some a => if occupied sp a n then None else Some (a, put sp a n Pagemap false)
  | None => None
  end.

(** What the header at the start of the heap says, and what Library's
    constructor wrote there (libsandbox.cc 875-880). *)
Record header := Header { h_start : Z; h_end : Z }.
Definition new_header (addr size : Z) : header := Header addr (wrap (addr + size)).

(** The globals of the child after bootstrap (112-131), and its memory. *)
Record child := Child { c_shared : Z; c_start : Z; c_end : Z; c_pagemap : Z; c_space : space }.

(** library_runner.cc 420 *)
Definition site_pagemap := Site (tx "src/library_runner.cc") (tx "420") DebugAndRelease (tx "Mapping pagemap failed") [].

(** bootstrap(): [heap] is the header in the object behind descriptor 3, [pm] the
    size of the pagemap. *)
Definition bootstrap (release : bool) (k : kernel) (heap : header) (pm : Z) (env : list text) (sp : space) : outcome child :=
  obind (bootstrap_location env) (fun '(addr, length) =>
  match mmap_heap k sp addr length with
  | None => Aborts
  | Some (ptr, sp) =>
    let '(start, stop) := (h_start heap, h_end heap) in
    match mmap_pagemap k sp pm with
    | Some (base, sp) => Ret (Child ptr start stop base sp)
    | None =>
      match check_at site_pagemap release false (tx "bootstrap") [] with
      | Passed => UB
      | Stopped _ => Aborts
      | Raised => Throws
      end
    end
  end).
