(** Model of the system-call layer on FreeBSD (x86-64): the resolve-beneath
    wrappers (include/process_sandbox/platform/safe_syscalls-freebsd.h) under the
    host's handlers (src/libsandbox.cc 411-607), and the trapped system calls of the
    sandboxed process (include/process_sandbox/platform/syscall_context_freebsd.h
    with src/library_runner.cc 698-894).
    Parts that do not depend on the system come from HostCallsModel.v and
    ChildCallsModel.v.  No proofs in this file. *)
From Coq Require Import String Ascii List ZArith Bool.
From Verif Require Import Base PathModel FileTreeModel RegionModel DispatchModel HostCallsModel ChildCallsModel.
Import ListNotations.
Open Scope Z_scope.

(** ** Host *)

(** fcntl.h: O_RESOLVE_BENEATH and AT_RESOLVE_BENEATH. *)
Definition o_resolve_beneath : Z := 8388608.   (* 0x00800000 *)
Definition at_resolve_beneath : Z := 8192.     (* 0x2000 *)

(** openat_beneath, safe_syscalls-freebsd.h 24-28. *)
Definition fb_openat_beneath (k : kernel) (log : list kop) (fd : Z) (path : option text) (flags mode : Z) : Z * Z * list kop :=
  kcall k log (KFb (FbOpenat fd path (Z.lor flags o_resolve_beneath) mode)).
(** faccessat_beneath, 34-38. *)
Definition fb_faccessat_beneath (k : kernel) (log : list kop) (fd : Z) (path : option text) (mode flags : Z) : Z * Z * list kop :=
  kcall k log (KFb (FbFaccessat fd path mode (Z.lor flags at_resolve_beneath))).
(** fstatat_beneath, 44-48. *)
Definition fb_fstatat_beneath (k : kernel) (log : list kop) (fd : Z) (path : option text) (sb flags : Z) : Z * Z * list kop :=
  kcall k log (KFb (FbFstatat fd path sb (Z.lor flags at_resolve_beneath))).

(** handle_open, src/libsandbox.cc 411-431. *)
Definition fb_handle_open (k : kernel) (vfs : dir) (h : heap) (rd : reads) (malloc_ok : bool)
  (in_path flags mode : Z) (log : list kop) : outcome (result * list kop) :=
  handle_path_syscall vfs h rd malloc_ok in_path log (fun fd tail =>
    let '(r, log1) :=
      if negb (is_empty tail)
      then fb_openat_beneath k log fd (Some (str tail)) flags mode
      else kcall k log (KDup fd) in
    (return_fd r, log1)).
(** handle_openat, 437-445. *)
Definition fb_handle_openat (k : kernel) (h : heap) (rd : reads) (malloc_ok : bool)
  (in_path flags mode : Z) (in_fd : option Z) (log : list kop) : outcome (result * list kop) :=
  obind (get_path h rd malloc_ok in_path) (fun raw =>
    let fd := match in_fd with Some f => f | None => -1 end in
    let '(r, log1) := fb_openat_beneath k log fd raw flags mode in
    let log2 := match in_fd with Some f => log1 ++ [KClose f] | None => log1 end in
    Ret (Result (fst r) None, log2)).
(** handle_access, 577-586. *)
Definition fb_handle_access (k : kernel) (vfs : dir) (h : heap) (rd : reads) (malloc_ok : bool)
  (in_path mode : Z) (log : list kop) : outcome (result * list kop) :=
  handle_path_syscall vfs h rd malloc_ok in_path log (fun fd tail =>
    let '(r, log1) :=
      fb_faccessat_beneath k log fd (if is_empty tail then None else Some (str tail)) mode 0 in
    (return_int r, log1)).
(** handle_stat, 593-607.  sizeof(struct stat) is 224 on FreeBSD 12 and later. *)
Definition fb_sizeof_stat : Z := 224.
Definition fb_handle_stat (k : kernel) (vfs : dir) (h : heap) (rd : reads) (malloc_ok : bool)
  (in_path statbuf : Z) (log : list kop) : outcome (result * list kop) :=
  handle_path_syscall vfs h rd malloc_ok in_path log (fun fd tail =>
    let sb := check_pointer h fb_sizeof_stat statbuf in
    if negb (sb =? 0) then
      let '(r, log1) :=
        if is_empty tail then kcall k log (KFstat fd sb)
        else fb_fstatat_beneath k log fd (Some (str tail)) sb 0 in
      (return_int r, log1)
    else (Result (- EINVAL) None, log)).

(** ** Sandboxed process *)

(** The parts of siginfo_t and ucontext_t that are used: si_code, si_syscall,
    rax, rflags, the six argument registers rdi rsi rdx r10 r8 r9.  [b_rest] is
    everything else. *)
Record bframe := BFrame {
  b_code : Z; b_sysno : Z; b_rax : Z; b_flags : Z; b_args : list Z; b_rest : Z }.

Section FREEBSD.
Variables lo hi : Z.
Variable alloc : list (Z * Z) -> Z -> Z.
Variable fuel : nat.
(** Whether the system's headers define si_syscall. *)
Variable si : bool.

(** sys/syscall.h *)
Definition SYS_syscall : Z := 0.
Definition SYS___syscall : Z := 198.

(** is_syscall, syscall_context_freebsd.h 38-52. *)
Definition is_syscall (f : bframe) : bool :=
  si && ((b_sysno f =? SYS_syscall) || (b_sysno f =? SYS___syscall)).

(** get_arg, 121-142: std::array::at throws past the end. *)
Definition get_arg (f : bframe) (i : nat) : outcome Z :=
  match nth_error (b_args f) (i + (if is_syscall f then 1 else 0)) with Some v => Ret v | None => Throws end.

(** set_success_return, 150-156, and set_error_return, 164-170. *)
Definition fb_success (f : bframe) (r : Z) : bframe :=
  BFrame (b_code f) (b_sysno f) (wrap r) (Z.land (b_flags f) (Z.lnot 1)) (b_args f) (b_rest f).
Definition fb_error (f : bframe) (e : Z) : bframe :=
  BFrame (b_code f) (b_sysno f) (wrap e) (Z.lor (b_flags f) 1) (b_args f) (b_rest f).

(** get_syscall_number, 177-184; the function returns int. *)
Definition syscall_number (f : bframe) : Z :=
  if si then (if is_syscall f then to_int32 (nth 0 (b_args f) 0) else b_sysno f) else to_int32 (b_rax f).

(** SyscallNumbers, 61-70, with the numbers of sys/syscall.h. *)
Definition fb_numbers : list Z := [5; 188; 33; 499; 104; 98].

(** is_sandbox_policy_violation, 189-192: TRAP_CAP. *)
Definition TRAP_CAP : Z := 4.

(** callback_stat, library_runner.cc 709-715. *)
Definition fb_callback_stat (H : host) (sp : Z) (st : cst) (path buf : Z) : outcome (cst * Z) :=
  syscall_callback_helper lo hi alloc fuel H st sp K_Stat [CStr path; CPtr buf fb_sizeof_stat true] (-1).

(** callback_openat, 778-806 without the Linux part. *)
Definition fb_callback_openat (H : host) (sp : Z) (st : cst) (dirfd path flags mode : Z) : outcome (cst * Z) :=
  if path =? 0 then Ret (st, - EINVAL)
  else if ascii_dec (cs_mem st path) slash then callback_open lo hi alloc fuel H sp st path flags mode
  else syscall_callback_helper lo hi alloc fuel H st sp K_OpenAt [CInt dirfd; CStr path; CInt flags; CUInt mode] dirfd.

(** static_cast<mode_t>: sixteen bits on FreeBSD.  Simplification: in the argument
    tuple it is four bytes, the two of padding being zero. *)
Definition to_mode (x : Z) : Z := x mod 2 ^ 16.

(** extract_args, 815-825, from the last argument to the first, then
    std::get<Number>(callbacks) (832-837, 857-862). *)
Definition fb_emulated (H : host) (sp : Z) (st : cst) (number : nat) (f : bframe) : outcome (cst * Z) :=
  match number with
  | 0%nat =>
    obind (get_arg f 2) (fun a2 => obind (get_arg f 1) (fun a1 => obind (get_arg f 0) (fun a0 =>
    callback_open lo hi alloc fuel H sp st a0 (to_int32 a1) (to_mode a2))))
  | 1%nat =>
    obind (get_arg f 1) (fun a1 => obind (get_arg f 0) (fun a0 =>
    fb_callback_stat H sp st a0 a1))
  | 2%nat =>
    obind (get_arg f 1) (fun a1 => obind (get_arg f 0) (fun a0 =>
    callback_access lo hi alloc fuel H sp st a0 (to_int32 a1)))
  | 3%nat =>
    obind (get_arg f 3) (fun a3 => obind (get_arg f 2) (fun a2 => obind (get_arg f 1) (fun a1 => obind (get_arg f 0) (fun a0 =>
    fb_callback_openat H sp st (to_int32 a0) a1 (to_int32 a2) (to_mode a3)))))
  | S (S (S (S n))) =>
    obind (get_arg f 2) (fun a2 => obind (get_arg f 1) (fun a1 => obind (get_arg f 0) (fun a0 =>
    callback_bind_or_connect lo hi alloc fuel H (match n with 0%nat => K_Bind | _ => K_Connect end)
      sp st (to_int32 a0) a1 (to_uint32 a2))))
  end.

(** syscall_callback, 843-880: Number counts down from [n] - 1.  Negating the
    least int is undefined. *)
Fixpoint fb_syscall_callback (H : host) (sp : Z) (st : cst) (n : nat) (f : bframe) : outcome (cst * bframe) :=
  match n with
  | O => Ret (st, f)
  | S number =>
    if nth number fb_numbers (-1) =? syscall_number f then
      obind (fb_emulated H sp st number f) (fun '(st', x) =>
        let result := to_int32 x in
        if result =? - 2 ^ 31 then UB
        else Ret (st', if result <? 0 then fb_error f (- result) else fb_success f result))
    else fb_syscall_callback H sp st number f
  end.

(** emulate, 887-894.  It is noexcept: an exception ends the process. *)
Definition fb_emulate (H : host) (sp : Z) (st : cst) (f : bframe) : outcome (cst * bframe) :=
  if b_code f =? TRAP_CAP then
    match fb_syscall_callback H sp st SyscallCallbackCount f with Throws => Aborts | o => o end
  else Ret (st, f).

End FREEBSD.
