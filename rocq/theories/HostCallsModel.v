(** Model of the host's handlers for the built-in callbacks
    (CallbackDispatcher, src/libsandbox.cc 331-607), of the resolve-beneath
    wrappers (include/process_sandbox/platform/safe_syscalls-linux.h) and of the
    network policy (include/process_sandbox/netpolicy.h).
    The kernel, the resolver and user policy functions are oracles.
    No proofs in this file. *)
From Coq Require Import String Ascii List ZArith Bool.
From Verif Require Import Base PathModel FileTreeModel RegionModel RegionSpec DispatchModel.
Import ListNotations.
Open Scope Z_scope.

Definition ENOENT : Z := 2.
Definition EINVAL : Z := 22.
(** netdb.h on Linux. *)
Definition EAI_MEMORY : Z := -10.
Definition EAI_BADFLAGS : Z := -1.

(** ** What the handlers ask of the outside world *)

(** NetworkPolicy::NetOperation, netpolicy.h 69-88. *)
Inductive netop := NBind | NGetAddrInfo | NConnect.

(** Who performs a network operation: the system's implementation or a
    function the host program registered. *)
Inductive netimpl := BySystem | ByHandler (tag : Z).

(** hints as passed to getaddrinfo: only the four integer fields can be
    non-zero (src/libsandbox.cc 511-523). *)
Record hints := Hints { hi_flags : Z; hi_family : Z; hi_socktype : Z; hi_protocol : Z }.

Inductive netargs :=
| NAddr (fd : Z) (buf : list ascii) (len : Z)
| NNames (host service : option text) (hi : option hints).

(** What the FreeBSD wrappers ask for (safe_syscalls-freebsd.h). *)
Inductive fbop :=
| FbOpenat (fd : Z) (path : option text) (flags mode : Z)
| FbFaccessat (fd : Z) (path : option text) (mode flags : Z)
| FbFstatat (fd : Z) (path : option text) (buf flags : Z).

Inductive kop :=
| KOpenat2 (fd : Z) (path : option text) (flags mode resolve : Z)
| KDup (fd : Z)
| KFaccessat2 (fd : Z) (path : text) (mode flags : Z)
| KFstat (fd buf : Z)
| KFstatat (fd : Z) (path : text) (buf flags : Z)
| KClose (fd : Z)
| KNet (by_whom : netimpl) (op : netop) (args : netargs)
| KFb (op : fbop).

(** The answers: for each operation, given all earlier ones, a return value
    and the value of errno afterwards. *)
Definition kernel := list kop -> kop -> Z * Z.

Definition kcall (k : kernel) (log : list kop) (op : kop) : Z * Z * list kop :=
  (k log op, log ++ [op]).

(** ** Resolve-beneath wrappers, safe_syscalls-linux.h *)

Definition resolve_beneath : Z := 8.
Definition o_path : Z := 2097152.           (* 010000000 octal *)
Definition at_empty_path : Z := 4096.

(** openat_beneath, 92-97. *)
Definition openat_beneath (k : kernel) (log : list kop) (fd : Z) (path : option text)
  (flags mode : Z) : Z * Z * list kop :=
  kcall k log (KOpenat2 fd path (wrap flags) mode resolve_beneath).

(** The common shape of faccessat_beneath (103-126) and fstatat_beneath
    (132-154): open with O_PATH, operate on the descriptor itself, close it,
    keep the errno of the interesting call. *)
Definition via_path_handle (k : kernel) (log : list kop) (fd : Z) (path : option text)
  (op : Z -> kop) : Z * Z * list kop :=
  let '(r1, log1) := openat_beneath k log fd path o_path 0 in
  if fst r1 <? 0 then (-1, snd r1, log1)
  else
    let '(r2, log2) := kcall k log1 (op (fst r1)) in
    let '(_, log3) := kcall k log2 (KClose (fst r1)) in
    (r2, log3).

Definition faccessat_beneath (k : kernel) (log : list kop) (fd : Z) (path : option text)
  (mode flags : Z) : Z * Z * list kop :=
  via_path_handle k log fd path (fun pfd => KFaccessat2 pfd [] mode (Z.lor flags at_empty_path)).

Definition fstatat_beneath (k : kernel) (log : list kop) (fd : Z) (path : option text)
  (sb flags : Z) : Z * Z * list kop :=
  via_path_handle k log fd path (fun pfd => KFstatat pfd [] sb (Z.lor flags at_empty_path)).

(** ** Helpers of the dispatcher *)

(** return_fd, src/libsandbox.cc 338-346. *)
Definition return_fd (r : Z * Z) : result :=
  if 0 <=? fst r then Result (- ENOSYS) (Some (fst r)) else Result (- snd r) None.

(** return_int, src/libsandbox.cc 352-355. *)
Definition return_int (r : Z * Z) : result :=
  if 0 <=? fst r then Result (fst r) None else Result (- snd r) None.

(** get_path, src/libsandbox.cc 360-363; the users of the result see it as a C
    string. *)
Definition get_path (h : heap) (rd : reads) (malloc_ok : bool) (p : Z) : outcome (option text) :=
  obind (strdup_out h rd malloc_ok p) (fun r =>
    match dup_buf r with
    | None => Ret None
    | Some buf => match c_view buf with Some s => Ret (Some s) | None => UB end
    end).

(** check_pointer<T>, src/libsandbox.cc 374-382; 0 is the null pointer. *)
Definition check_pointer (h : heap) (size p : Z) : Z :=
  if contains h p size then p else 0.

(** handle_path_syscall, src/libsandbox.cc 386-405. *)
Definition handle_path_syscall (vfs : dir) (h : heap) (rd : reads) (malloc_ok : bool)
  (in_path : Z) (log : list kop) (handler : Z -> path -> result * list kop)
  : outcome (result * list kop) :=
  obind (get_path h rd malloc_ok in_path) (fun raw =>
    match raw with
    | None => Ret (Result (- EINVAL) None, log)
    | Some s =>
      obind (path_of_cstr s) (fun p =>
        let '(ok, q) := canonicalise p in
        if negb ok then Ret (Result (- EINVAL) None, log)
        else match lookup_file vfs q with
             | None => Ret (Result (- ENOENT) None, log)
             | Some (fd, tail) => Ret (handler fd tail)
             end)
    end).

(** handle_open, src/libsandbox.cc 411-431. *)
Definition handle_open (k : kernel) (vfs : dir) (h : heap) (rd : reads) (malloc_ok : bool)
  (in_path flags mode : Z) (log : list kop) : outcome (result * list kop) :=
  handle_path_syscall vfs h rd malloc_ok in_path log (fun fd tail =>
    let '(r, log1) :=
      if negb (is_empty tail)
      then openat_beneath k log fd (Some (str tail)) flags mode
      else kcall k log (KDup fd) in
    (return_fd r, log1)).

(** handle_openat, src/libsandbox.cc 437-445.  The descriptor received with the
    request is destroyed, hence closed, when the handler returns.  A missing
    descriptor is -1. *)
Definition handle_openat (k : kernel) (h : heap) (rd : reads) (malloc_ok : bool)
  (in_path flags mode : Z) (in_fd : option Z) (log : list kop) : outcome (result * list kop) :=
  obind (get_path h rd malloc_ok in_path) (fun raw =>
    let fd := match in_fd with Some f => f | None => -1 end in
    let '(r, log1) := openat_beneath k log fd raw flags mode in
    let log2 := match in_fd with Some f => log1 ++ [KClose f] | None => log1 end in
    Ret (Result (fst r) None, log2)).

(** handle_access, src/libsandbox.cc 577-586. *)
Definition handle_access (k : kernel) (vfs : dir) (h : heap) (rd : reads) (malloc_ok : bool)
  (in_path mode : Z) (log : list kop) : outcome (result * list kop) :=
  handle_path_syscall vfs h rd malloc_ok in_path log (fun fd tail =>
    let '(r, log1) :=
      faccessat_beneath k log fd (if is_empty tail then None else Some (str tail)) mode 0 in
    (return_int r, log1)).

(** handle_stat, src/libsandbox.cc 593-607.  [stat_size] is sizeof(struct stat). *)
Definition handle_stat (k : kernel) (vfs : dir) (h : heap) (rd : reads) (malloc_ok : bool)
  (stat_size in_path statbuf : Z) (log : list kop) : outcome (result * list kop) :=
  handle_path_syscall vfs h rd malloc_ok in_path log (fun fd tail =>
    let sb := check_pointer h stat_size statbuf in
    if negb (sb =? 0) then
      let '(r, log1) :=
        if is_empty tail then kcall k log (KFstat fd sb)
        else fstatat_beneath k log fd (Some (str tail)) sb 0 in
      (return_int r, log1)
    else (Result (- EINVAL) None, log)).

(** ** Network policy *)

(** netpolicy.h 90-116: deny (the default), allow, or a callback. *)
Inductive policy := PDeny | PAllow | PCallback (tag : Z).

(** netpolicy.h 143-151, the tuple [policies]. *)
Record netpolicy := NetPolicy { np_bind : policy; np_getaddrinfo : policy; np_connect : policy }.

(** A value-initialised policy: SimplePolicy 0, that is Deny. *)
Definition new_netpolicy : netpolicy := NetPolicy PDeny PDeny PDeny.

(** getPolicy, netpolicy.h 169-173. *)
Definition get_policy (n : netpolicy) (op : netop) : policy :=
  match op with NBind => np_bind n | NGetAddrInfo => np_getaddrinfo n | NConnect => np_connect n end.

(** deny / allow / register_handler, netpolicy.h 175-204: assign through the
    reference getPolicy returns. *)
Definition set_policy (n : netpolicy) (op : netop) (p : policy) : netpolicy :=
  match op with
  | NBind => NetPolicy p (np_getaddrinfo n) (np_connect n)
  | NGetAddrInfo => NetPolicy (np_bind n) p (np_connect n)
  | NConnect => NetPolicy (np_bind n) (np_getaddrinfo n) p
  end.

(** invoke<Op>, netpolicy.h 206-232. *)
Definition net_invoke (k : kernel) (n : netpolicy) (log : list kop) (op : netop) (a : netargs)
  : Z * Z * list kop :=
  match get_policy n op with
  | PDeny => (-1, ENOSYS, log)
  | PAllow => kcall k log (KNet BySystem op a)
  | PCallback tag => kcall k log (KNet (ByHandler tag) op a)
  end.

(** handle_bind_or_connect, src/libsandbox.cc 453-477.  [addrlen] is a
    socklen_t.  The received descriptor is closed on return (not part of the
    log of network operations when absent). *)
Definition max_sockaddr : Z := 4096.
Definition fill_byte : ascii := ascii_of_nat 165.   (* 0xa5 *)

Definition handle_bind_or_connect (k : kernel) (n : netpolicy) (h : heap) (rd : reads)
  (op : netop) (addr addrlen : Z) (in_fd : option Z) (log : list kop) : result * list kop :=
  let fd := match in_fd with Some f => f | None => -1 end in
  let closing := match in_fd with Some f => [KClose f] | None => [] end in
  if (fd <? 0) || (max_sockaddr <? addrlen) || negb (contains h addr addrlen)
  then (Result (- EINVAL) None, log ++ closing)
  else
    let '(bytes, _, _) := memcpy_out rd 0 addr (Z.to_nat addrlen) in
    let buffer := bytes ++ repeat fill_byte (Z.to_nat (max_sockaddr - addrlen)) in
    let '(r, log1) := net_invoke k n log op (NAddr fd buffer addrlen) in
    (return_int r, log1 ++ closing).

(** ** getaddrinfo *)

(** An addrinfo as the resolver returns it: the integers, the socket address
    (ai_addrlen is its length) and the host pointers ai_canonname, ai_addr and
    ai_next. *)
Record addrinfo := AddrInfo {
  ai_flags : Z; ai_family : Z; ai_socktype : Z; ai_protocol : Z;
  ai_sockaddr : list ascii; ai_canonname : Z; ai_addr : Z; ai_next : Z }.

Definition ai_addrlen (a : addrinfo) : Z := Z.of_nat (List.length (ai_sockaddr a)).

(** An addrinfo structure in memory. *)
Record ai_cell := AICell {
  c_flags : Z; c_family : Z; c_socktype : Z; c_protocol : Z;
  c_addrlen : Z; c_addr : Z; c_canonname : Z; c_next : Z }.

(** Stores by the host into sandbox memory.  [SAddr a p] and [SNext a p] store
    into the ai_addr and ai_next fields of the addrinfo at [a]. *)
Inductive store :=
| SCell (a : Z) (c : ai_cell)
| SAddr (a : Z) (p : Z)
| SNext (a : Z) (p : Z)
| SByte (a : Z) (b : ascii)
| SPtr (a : Z) (p : Z).

(** x86-64 Linux layout: ai_addr at offset 24, ai_next at offset 40. *)
Definition sizeof_addrinfo : Z := 48.
Definition sizeof_ptr : Z := 8.

Definition byte_stores (p : Z) (bs : list ascii) : list store :=
  map (fun '(a, b) => SByte a b) (bytes_from p bs).

(** The first loop, src/libsandbox.cc 535-539: extra (a size_t). *)
Definition ai_extra (l : list addrinfo) : Z :=
  fold_left (fun e a => wrap (e + ai_addrlen a)) l 0.

(** ais[i] = *cur, src/libsandbox.cc 559: every field, host pointers included. *)
Definition raw_cell (a : addrinfo) : ai_cell :=
  AICell (ai_flags a) (ai_family a) (ai_socktype a) (ai_protocol a) (ai_addrlen a)
    (ai_addr a) (ai_canonname a) (ai_next a).

(** The copying loop, src/libsandbox.cc 557-564: ais[i] is at [cell], the next
    socket address goes to [sa]. *)
Fixpoint ai_copy (l : list addrinfo) (cell sa : Z) : list store :=
  match l with
  | [] => []
  | a :: r =>
    [SCell cell (raw_cell a)]
    ++ byte_stores sa (ai_sockaddr a)
    ++ [SAddr cell sa; SNext cell (cell + sizeof_addrinfo)]
    ++ ai_copy r (cell + sizeof_addrinfo) (sa + ai_addrlen a)
  end.

(** The reads of the hints, src/libsandbox.cc 517-520: [hd a] is the int
    loaded from address a.  Field offsets 0, 4, 8, 12. *)
Definition copy_hints (hd : Z -> Z) (p : Z) : hints :=
  Hints (hd p) (hd (p + 4)) (hd (p + 8)) (hd (p + 12)).

(** handle_getaddrinfo, src/libsandbox.cc 485-571.  [resolver log] is the list
    the policy function leaves in `res` when it returns 0; [alloc] the
    allocator in the sandbox; [rd1], [rd2] the loads of the two strings.
    Result: reply, operations, stores into sandbox memory, and whether the
    resolver's list is left unfreed. *)
Record gai_result := GaiResult {
  g_reply : result; g_log : list kop; g_stores : list store; g_leak : bool }.

Definition handle_getaddrinfo (k : kernel) (n : netpolicy) (h : heap) (rd1 rd2 : reads)
  (malloc_ok : bool) (hd : Z -> Z) (resolver : list kop -> list addrinfo) (alloc : Z -> Z)
  (in_host in_service in_hints in_res : Z) (log : list kop) : outcome gai_result :=
  if negb (contains h in_res sizeof_ptr)
  then Ret (GaiResult (Result EAI_MEMORY None) log [] false)
  else if negb (in_hints =? 0) && negb (contains h in_hints sizeof_addrinfo)
  then Ret (GaiResult (Result EAI_BADFLAGS None) log [] false)
  else
    let hi := if in_hints =? 0 then None else Some (copy_hints hd in_hints) in
    obind (get_path h rd1 malloc_ok in_host) (fun host =>
    obind (get_path h rd2 malloc_ok in_service) (fun service =>
    let '(r, log1) := net_invoke k n log NGetAddrInfo (NNames host service hi) in
    if fst r =? 0 then
      let l := resolver log1 in
      let count := Z.of_nat (List.length l) in
      if 0 <? count then
        match alloc_array alloc 1 (wrap (sizeof_addrinfo * count + ai_extra l)) with
        | None => Ret (GaiResult (return_int (EAI_MEMORY, snd r)) log1 [] true)
        | Some pl =>
          let zeros := map (fun '(a, b) => SByte a b) (pl_stored pl) in
          let ais := pl_addr pl in
          let stores := zeros ++ ai_copy l ais (ais + sizeof_addrinfo * count)
                        ++ [SNext (ais + sizeof_addrinfo * (count - 1)) 0; SPtr in_res ais] in
          Ret (GaiResult (return_int r) log1 stores false)
        end
      else Ret (GaiResult (return_int r) log1 [] false)
    else Ret (GaiResult (return_int r) log1 [] false))).
