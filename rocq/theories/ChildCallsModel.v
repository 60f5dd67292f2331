(** Model of the sandboxed process's side of callbacks, src/library_runner.cc:
    marshalling of arguments into shared memory, the emulated system calls,
    the POSIX wrappers and the SIGSYS handler, with
    include/process_sandbox/platform/syscall_context_linux.h (x86-64).
    The host's answer, the allocator and the kernel are arguments.
    Simplification: the calling thread is the only one that runs.
    No proofs in this file. *)
From Coq Require Import String Ascii List ZArith Bool.
From Verif Require Import Base PathModel FileTreeModel RegionModel DispatchModel HostCallsModel.
Import ListNotations.
Open Scope Z_scope.

(** ** Machine integers *)

(** static_cast<int> of a 64-bit word (two's complement). *)
Definition to_int32 (x : Z) : Z :=
  let y := x mod 2 ^ 32 in if y <? 2 ^ 31 then y else y - 2 ^ 32.
Definition to_uint32 (x : Z) : Z := x mod 2 ^ 32.

(** Objects as bytes, little endian. *)
Fixpoint le_bytes (n : nat) (v : Z) : list ascii :=
  match n with
  | O => []
  | S k => ascii_of_N (Z.to_N (v mod 256)) :: le_bytes k (v / 256)
  end.
Fixpoint le_value (bs : list ascii) : Z :=
  match bs with
  | [] => 0
  | b :: r => Z.of_N (N_of_ascii b) + 256 * le_value r
  end.

(** ** The memory of the child *)

Definition cmem := Z -> ascii.
Definition read_bytes (m : cmem) (p : Z) (n : nat) : list ascii :=
  map (fun i => m (p + Z.of_nat i)) (seq 0 n).
Definition write_bytes (m : cmem) (p : Z) (bs : list ascii) : cmem := fun x =>
  if (p <=? x) && (x <? p + Z.of_nat (List.length bs)) then nth (Z.to_nat (x - p)) bs nul else m x.

(** The child: its memory and the blocks malloc has handed out, newest first.
    Simplification: the blocks are not given back. *)
Record cst := CSt { cs_mem : cmem; cs_blocks : list (Z * Z) }.

Section CHILD.

(** shared_memory_start and shared_memory_end, 112-118. *)
Variables lo hi : Z.
(** malloc: the answer to a request given the blocks handed out so far; 0 is a
    failure. *)
Variable alloc : list (Z * Z) -> Z -> Z.
(** An upper bound on the length of strings that strlen explores. *)
Variable fuel : nat.

(** is_inside_shared_memory, 120-124. *)
Definition is_inside (p n : Z) : bool := (lo <=? p) && (wrap (p + n) <? hi).

Definition malloc (st : cst) (n : Z) : Z * cst :=
  let a := alloc (cs_blocks st) n in
  (a, if a =? 0 then st else CSt (cs_mem st) ((a, n) :: cs_blocks st)).

(** A block copied into a fresh allocation. *)
Definition fill (st : cst) (a : Z) (bs : list ascii) : cst :=
  CSt (write_bytes (cs_mem st) a bs) (cs_blocks st).

(** strlen. *)
Fixpoint strlen_from (m : cmem) (p : Z) (n : nat) : option nat :=
  match n with
  | O => None
  | S k => if ascii_dec (m p) nul then Some O
           else match strlen_from m (p + 1) k with Some l => Some (S l) | None => None end
  end.

(** CallbackCStrArg, 581-623: the pointer that is sent.  strdup of a null
    pointer is undefined; when strdup fails the original pointer is sent. *)
Definition cstr_arg (st : cst) (p : Z) : outcome (cst * Z) :=
  if is_inside p 1 then Ret (st, p)
  else if p =? 0 then UB
  else match strlen_from (cs_mem st) p fuel with
       | None => OutOfFuel
       | Some l =>
         let '(a, st1) := malloc st (Z.of_nat l + 1) in
         if a =? 0 then Ret (st1, p)
         else Ret (fill st1 a (read_bytes (cs_mem st) p (S l)), a)
       end.

(** CallbackPtrArg<T>, 506-575, constructor and arg(): the pointer that is
    sent and whether it is a copy.  `*orig` with orig null is undefined;
    make_unique throws when out of memory. *)
Definition ptr_arg (st : cst) (p size : Z) : outcome (cst * Z * bool) :=
  if is_inside p 1 then Ret (st, p, false)
  else if p =? 0 then UB
  else
    let '(a, st1) := malloc st size in
    if a =? 0 then Throws
    else Ret (fill st1 a (read_bytes (cs_mem st) p (Z.to_nat size)), a, true).

(** The conversions used for the elements of an argument tuple. *)
Inductive carg :=
| CInt (v : Z)                          (* int *)
| CUInt (v : Z)                         (* mode_t, socklen_t *)
| CWord (v : Z)                         (* uintptr_t *)
| CStr (p : Z)                          (* CallbackCStrArg *)
| CPtr (p size : Z) (out : bool).       (* CallbackPtrArg<T, In or Out> *)

(** What ends up in the tuple: a number of bytes and a value. *)
Definition field := (nat * Z)%type.

(** Converting the arguments, 649-654 and 666-670: memory, tuple elements and
    the (original, copy, size) triples to copy back.  The order in which C++
    evaluates the conversions is unspecified; left to right here. *)
Fixpoint marshal (st : cst) (args : list carg) : outcome (cst * list field * list (Z * Z * Z)) :=
  match args with
  | [] => Ret (st, [], [])
  | CInt v :: r | CUInt v :: r =>
    obind (marshal st r) (fun '(st', fs, bk) => Ret (st', (4%nat, v) :: fs, bk))
  | CWord v :: r =>
    obind (marshal st r) (fun '(st', fs, bk) => Ret (st', (8%nat, v) :: fs, bk))
  | CStr p :: r =>
    obind (cstr_arg st p) (fun '(st1, a) =>
    obind (marshal st1 r) (fun '(st', fs, bk) => Ret (st', (8%nat, a) :: fs, bk)))
  | CPtr p size out :: r =>
    obind (ptr_arg st p size) (fun '(st1, a, copied) =>
    obind (marshal st1 r) (fun '(st', fs, bk) =>
      Ret (st', (8%nat, a) :: fs, if out && copied then (p, a, size) :: bk else bk)))
  end.

(** rpc_type, callbacks.h 196-290: a std::tuple.  Simplification: elements in
    order without padding; the C++ layout is whatever std::tuple chooses, the
    same type on both sides. *)
Definition encode (fs : list field) : list ascii := flat_map (fun '(n, v) => le_bytes n v) fs.

(** ** One callback *)

(** What the host does with a request: the bytes it stores into shared memory
    and its reply; None when the socket fails (report_fatal_error, 451-458 and
    466-473). *)
Record hostreply := HostReply { hr_stores : list (Z * ascii); hr_word : Z; hr_fd : option Z }.
Definition host := crequest -> option Z -> cmem -> option hostreply.

Definition apply_stores (m : cmem) (ss : list (Z * ascii)) : cmem :=
  fold_left (fun m '(a, b) => fun x => if x =? a then b else m x) ss m.

(** callback, 446-475.  The descriptor accompanying a request is [fd] when it
    is not negative. *)
Definition callback (H : host) (st : cst) (kind data size fd : Z)
  : outcome (cst * (Z * option Z)) :=
  match H (CRequest kind size data) (if 0 <=? fd then Some fd else None) (cs_mem st) with
  | None => Aborts
  | Some r => Ret (CSt (apply_stores (cs_mem st) (hr_stores r)) (cs_blocks st), (wrap (hr_word r), hr_fd r))
  end.

(** The destructors of Out arguments, 531-541. *)
Definition copy_back (m : cmem) (bk : list (Z * Z * Z)) : cmem :=
  fold_left (fun m '(p, a, size) => write_bytes m p (read_bytes m a (Z.to_nat size))) bk m.

(** The request built by callback_helper and syscall_callback_helper:
    [sp] is the address of the local variable stack_args. *)
Definition prepare (st : cst) (sp : Z) (args : list carg)
  : outcome (cst * Z * Z * list (Z * Z * Z)) :=
  obind (marshal st args) (fun '(st1, fs, bk) =>
    let bs := encode fs in
    let size := Z.of_nat (List.length bs) in
    let st2 := CSt (write_bytes (cs_mem st1) sp bs) (cs_blocks st1) in
    obind (ptr_arg st2 sp size) (fun '(st3, q, _) => Ret (st3, q, size, bk))).

(** callback_helper, 649-655. *)
Definition callback_helper (H : host) (st : cst) (sp kind : Z) (args : list carg) (fd : Z)
  : outcome (cst * (Z * option Z)) :=
  obind (prepare st sp args) (fun '(st1, q, size, bk) =>
  obind (callback H st1 kind q size fd) (fun '(st2, r) =>
    Ret (CSt (copy_back (cs_mem st2) bk) (cs_blocks st2), r))).

(** The integer and descriptor of a reply combined, 672-692 and 998-1003. *)
Definition reply_value (r : Z * option Z) : Z :=
  match snd r with Some f => f | None => to_int32 (fst r) end.

(** syscall_callback_helper, 666-693. *)
Definition syscall_callback_helper (H : host) (st : cst) (sp kind : Z) (args : list carg) (fd : Z)
  : outcome (cst * Z) :=
  obind (callback_helper H st sp kind args fd) (fun '(st', r) => Ret (st', reply_value r)).

(** callback_access, 698-704. *)
Definition callback_access (H : host) (sp : Z) (st : cst) (path mode : Z) : outcome (cst * Z) :=
  syscall_callback_helper H st sp K_Access [CStr path; CInt mode] (-1).

(** callback_stat, 709-715.  sizeof(struct stat) is 144 on x86-64 Linux. *)
Definition sizeof_stat : Z := 144.
Definition callback_stat (H : host) (sp : Z) (st : cst) (path buf : Z) : outcome (cst * Z) :=
  syscall_callback_helper H st sp K_Stat [CStr path; CPtr buf sizeof_stat true] (-1).

(** callback_open, 720-727. *)
Definition callback_open (H : host) (sp : Z) (st : cst) (path flags mode : Z) : outcome (cst * Z) :=
  syscall_callback_helper H st sp K_Open [CStr path; CInt flags; CUInt mode] (-1).

(** callback_bind_or_connect, 735-756.  The branch tests "is inside".  memcpy to a
    failed malloc is undefined (unless nothing is copied). *)
Definition callback_bind_or_connect (H : host) (kind sp : Z) (st : cst) (s addr addrlen : Z)
  : outcome (cst * Z) :=
  obind (if is_inside addr addrlen then
           let '(a, st1) := malloc st addrlen in
           if (a =? 0) && (0 <? addrlen) then UB
           else Ret (fill st1 a (read_bytes (cs_mem st) addr (Z.to_nat addrlen)), a)
         else Ret (st, addr)) (fun '(st1, a) =>
  syscall_callback_helper H st1 sp kind [CInt s; CWord a; CUInt addrlen] s).

(** The decimal number sscanf's %d reads: white space, sign, digits. *)
Definition is_digit (c : ascii) : bool :=
  let n := nat_of_ascii c in (48 <=? n)%nat && (n <=? 57)%nat.
Definition is_space (c : ascii) : bool :=
  let n := nat_of_ascii c in (n =? 32)%nat || ((9 <=? n)%nat && (n <=? 13)%nat).
Fixpoint scan_digits (s : text) (acc : Z) : Z :=
  match s with
  | c :: r => if is_digit c then scan_digits r (10 * acc + Z.of_nat (nat_of_ascii c - 48)) else acc
  | [] => acc
  end.
Definition scan_unsigned (s : text) : option Z :=
  match s with c :: _ => if is_digit c then Some (scan_digits s 0) else None | [] => None end.
Fixpoint scan_int (s : text) : option Z :=
  match s with
  | [] => None
  | c :: r =>
    if is_space c then scan_int r
    else if (nat_of_ascii c =? 45)%nat then option_map Z.opp (scan_unsigned r)
    else if (nat_of_ascii c =? 43)%nat then scan_unsigned r
    else scan_unsigned s
  end.
Fixpoint strip_prefix (p s : text) : option text :=
  match p, s with
  | [], _ => Some s
  | a :: p', b :: s' => if ascii_dec a b then strip_prefix p' s' else None
  | _ :: _, [] => None
  end.

(** sscanf(pathname, "/proc/<pid>/fd/%d", &fd), 785-787, [proc] being the
    prefix "/proc/<pid>/fd/".  What follows the number is not looked at. *)
Definition own_descriptor (proc s : text) : option Z :=
  match strip_prefix proc s with Some t => scan_int t | None => None end.

(** callback_openat, 778-806 (Linux).  [proc] is the prefix "/proc/<pid>/fd/"
    and [dup] the dup system call of the child's C library, -1 on failure.
    sscanf reads the string before the null test, and storing a number that is
    not an int is undefined. *)
Definition callback_openat (H : host) (proc : text) (dup : Z -> Z) (sp : Z) (st : cst)
  (dirfd path flags mode : Z) : outcome (cst * Z) :=
  if path =? 0 then UB
  else match strlen_from (cs_mem st) path fuel with
       | None => OutOfFuel
       | Some l =>
         let s := read_bytes (cs_mem st) path l in
         match own_descriptor proc s with
         | Some fd => if (-(2 ^ 31) <=? fd) && (fd <? 2 ^ 31) then Ret (st, dup fd) else UB
         | None =>
           if ascii_dec (cs_mem st path) slash then callback_open H sp st path flags mode
           else syscall_callback_helper H st sp K_OpenAt
                  [CInt dirfd; CStr path; CInt flags; CUInt mode] dirfd
         end
       end.

(** ** The POSIX functions *)

(** syscall_return, 765-773: the value returned and errno if it is set. *)
Definition syscall_return (x : Z) : Z * option Z :=
  if x <? 0 then (-1, Some (- x)) else (x, None).

Definition o_creat : Z := 64.
(** open, 902-913. *)
Definition posix_open (H : host) (sp : Z) (st : cst) (path flags mode : Z)
  : outcome (cst * (Z * option Z)) :=
  let mode := if Z.land flags o_creat =? o_creat then mode else 0 in
  obind (callback_open H sp st path flags mode) (fun '(st', x) => Ret (st', syscall_return x)).

(** openat, 924-937. *)
Definition posix_openat (H : host) (proc : text) (dup : Z -> Z) (sp : Z) (st : cst)
  (dirfd path flags mode : Z) : outcome (cst * (Z * option Z)) :=
  obind (callback_openat H proc dup sp st dirfd path flags mode) (fun '(st', x) =>
    Ret (st', syscall_return x)).

(** bind and connect, 943-954. *)
Definition posix_bind_or_connect (H : host) (kind sp : Z) (st : cst) (s addr addrlen : Z)
  : outcome (cst * (Z * option Z)) :=
  obind (callback_bind_or_connect H kind sp st s addr addrlen) (fun '(st', x) =>
    Ret (st', syscall_return x)).

(** getaddrinfo, 961-977.  [local] is the address of localRes. *)
Definition posix_getaddrinfo (H : host) (sp local : Z) (st : cst) (host service hints res : Z)
  : outcome (cst * Z) :=
  obind (callback_helper H st sp K_GetAddrInfo
           [CStr host; CStr service; CPtr hints sizeof_addrinfo false; CPtr local sizeof_ptr true] (-1))
        (fun '(st', r) =>
    Ret (CSt (write_bytes (cs_mem st') res (read_bytes (cs_mem st') local 8)) (cs_blocks st'),
         to_int32 (fst r))).

(** sandbox::invoke_user_callback, 988-1004. *)
Definition invoke_user_callback (H : host) (st : cst) (idx data size fd : Z) : outcome (cst * Z) :=
  obind (if negb (is_inside data size) then
           let '(a, st1) := malloc st size in
           if ((a =? 0) || (data =? 0)) && (0 <? size) then UB
           else Ret (fill st1 a (read_bytes (cs_mem st) data (Z.to_nat size)), a)
         else Ret (st, data)) (fun '(st1, a) =>
  obind (callback H st1 (wrap idx) a size fd) (fun '(st2, r) => Ret (st2, reply_value r))).

(** ** Trapped system calls *)

(** The parts of siginfo_t and ucontext_t that are used: si_code, si_syscall,
    si_call_addr; rax, rip and the six argument registers. *)
Record frame := Frame {
  f_code : Z; f_sysno : Z; f_call_addr : Z; f_rax : Z; f_rip : Z; f_args : list Z }.

(** get_arg, syscall_context_linux.h 73-106: registers rdi rsi rdx r10 r8 r9. *)
Definition reg (f : frame) (i : nat) : Z := nth i (f_args f) 0.

(** set_success_return, 114-119, and set_error_return, 127-133.  rax is a
    64-bit register. *)
Definition set_success_return (f : frame) (r : Z) : frame :=
  Frame (f_code f) (f_sysno f) (f_call_addr f) (wrap r) (f_call_addr f) (f_args f).
Definition set_error_return (f : frame) (e : Z) : frame :=
  Frame (f_code f) (f_sysno f) (f_call_addr f) (wrap (0 - e)) (f_call_addr f) (f_args f).

(** SyscallNumbers, syscall_context_linux.h 36-46, with x86-64 numbers. *)
Definition syscall_numbers : list Z := [2; 4; 21; 257; 49; 42].
Definition SyscallCallbackCount : nat := 6.

(** std::get<Number>(callbacks) applied to the extracted arguments,
    library_runner.cc 832-837 and 857-862. *)
Definition emulated (H : host) (proc : text) (dup : Z -> Z) (sp : Z) (st : cst) (number : nat) (f : frame)
  : outcome (cst * Z) :=
  match number with
  | 0%nat => callback_open H sp st (reg f 0) (to_int32 (reg f 1)) (to_uint32 (reg f 2))
  | 1%nat => callback_stat H sp st (reg f 0) (reg f 1)
  | 2%nat => callback_access H sp st (reg f 0) (to_int32 (reg f 1))
  | 3%nat => callback_openat H proc dup sp st (to_int32 (reg f 0)) (reg f 1) (to_int32 (reg f 2))
               (to_uint32 (reg f 3))
  | 4%nat => callback_bind_or_connect H K_Bind sp st (to_int32 (reg f 0)) (reg f 1) (to_uint32 (reg f 2))
  | _ => callback_bind_or_connect H K_Connect sp st (to_int32 (reg f 0)) (reg f 1) (to_uint32 (reg f 2))
  end.

(** syscall_callback<Number>, 843-880: Number counts down from [n] - 1. *)
Fixpoint syscall_callback (H : host) (proc : text) (dup : Z -> Z) (sp : Z) (st : cst) (n : nat) (f : frame)
  : outcome (cst * frame) :=
  match n with
  | O => Ret (st, f)
  | S number =>
    if nth number syscall_numbers (-1) =? f_sysno f then
      obind (emulated H proc dup sp st number f) (fun '(st', x) =>
        let result := to_int32 x in
        Ret (st', if result <? 0 then set_error_return f (- result) else set_success_return f result))
    else syscall_callback H proc dup sp st number f
  end.

(** emulate, 887-894. *)
Definition emulate (H : host) (proc : text) (dup : Z -> Z) (sp : Z) (st : cst) (f : frame)
  : outcome (cst * frame) :=
  if f_code f =? 1 then syscall_callback H proc dup sp st SyscallCallbackCount f else Ret (st, f).

End CHILD.

(** ** The host's end of the wire *)

(** Decoding of the argument tuples by the host: the inverse layout. *)
Fixpoint decode (widths : list nat) (bs : list ascii) : option (list Z) :=
  match widths with
  | [] => match bs with [] => Some [] | _ => None end
  | n :: r =>
    if (List.length bs <? n)%nat then None
    else match decode r (skipn n bs) with
         | Some vs => Some (le_value (firstn n bs) :: vs)
         | None => None
         end
  end.
(** The element widths of SyscallArgs<K>::rpc_type, callbacks.h 310-380. *)
Definition tuple_widths (kind : Z) : list nat :=
  if kind =? K_Open then [8; 4; 4]%nat
  else if kind =? K_Stat then [8; 8]%nat
  else if kind =? K_Access then [8; 4]%nat
  else if kind =? K_OpenAt then [4; 8; 4; 4]%nat
  else if (kind =? K_Bind) || (kind =? K_Connect) then [4; 8; 4]%nat
  else [8; 8; 8; 8]%nat.

(** The value of a reply on the wire: nonblocking_send(ret.integer, ...),
    src/libsandbox.cc 677, an intptr_t received as a uintptr_t. *)
Definition wire (r : result) : Z * option Z := (wrap (r_int r), r_fd r).

(** The built-in handlers as the dispatcher calls them: decode the argument
    tuple and run the handler of HostCallsModel.v on the sandbox memory [m].
    src/libsandbox.cc 411-607 (parameters) and 719-737 (registration).
    Simplification: the sandbox does not change its memory meanwhile; the
    request starts with an empty log of operations. *)
Definition result_of (o : outcome (result * list kop)) : result :=
  match o with Ret (r, _) => r | _ => no_result end.
Definition builtin_callables (k : kernel) (vfs : FileTreeModel.dir) (np : netpolicy) (h : heap) (m : cmem)
  : callables := fun tag bytes fd =>
  match decode (tuple_widths tag) bytes with
  | Some [a; b] =>
    if tag =? K_Stat then result_of (handle_stat k vfs h (fun _ => m) true sizeof_stat a b [])
    else if tag =? K_Access then result_of (handle_access k vfs h (fun _ => m) true a (to_int32 b) [])
    else no_result
  | Some [a; b; c] =>
    if tag =? K_Open then result_of (handle_open k vfs h (fun _ => m) true a (to_int32 b) c [])
    else if tag =? K_Bind then fst (handle_bind_or_connect k np h (fun _ => m) NBind b c fd [])
    else if tag =? K_Connect then fst (handle_bind_or_connect k np h (fun _ => m) NConnect b c fd [])
    else no_result
  | Some [a; b; c; d] =>
    if tag =? K_OpenAt then result_of (handle_openat k h (fun _ => m) true b (to_int32 c) d fd [])
    else no_result
  | _ => no_result
  end.

(** sizeof(rpc_type). *)
Definition tuple_size (kind : Z) : Z := Z.of_nat (list_sum (tuple_widths kind)).

(** The host process answering one request: CallbackDispatcher::handle,
    src/libsandbox.cc 661-681.  [recv] is the number a descriptor of the host
    gets when it arrives in the child; [effects] what the host (or the kernel
    for it) stores into shared memory meanwhile. *)
Definition host_process (k : kernel) (vfs : FileTreeModel.dir) (np : netpolicy) (h : heap)
  (recv : Z -> Z) (effects : crequest -> list (Z * ascii)) : host := fun rq fd m =>
  let acts := handle (new_dispatcher tuple_size) h (builtin_callables k vfs np h m)
                (fun _ => m) (Some (rq, fd)) true in
  fold_left (fun acc a => match a with
             | AReply i f => Some (HostReply (effects rq) i (option_map recv f))
             | _ => acc end) acts None.
